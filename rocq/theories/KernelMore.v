(** Further kernel lemmas: division by a number, larger integers, numpy scalars,
    outward rounding of Kaucher products. *)
From Coq Require Import ZArith Reals List Bool Lia Lra Psatz.
From Coq Require Import Floats.SpecFloat.
From Flocq Require Import Core IEEE754.BinarySingleNaN.
From Verif Require Import Base PyNum Kernel Spec XReal XArith KernelProofs Expr ExprProofs KernelAlg KaucherProofs Witness KernelRefute.
Open Scope R_scope.

Lemma same_num_x x y : xval x = xval y -> same_num x y.
Proof.
  intro E. unfold same_num. rewrite num_eq_x, !is_nan_num_x, E.
  destruct (xval y) eqn:Y; try (left; apply xeqb_refl; discriminate). right; auto.
Qed.
Lemma contains0_member X : contains_num X pn0 = true <-> member X 0.
Proof. rewrite contains_num_spec; [|reflexivity]. change (num_val pn0) with 0. tauto. Qed.
Lemma contains0_false X : ~ member X 0 <-> contains_num X pn0 = false.
Proof. rewrite <- contains0_member. destruct (contains_num X pn0); intuition congruence. Qed.

(** *** C04, with the zero test phrased as membership *)
Lemma div_full X Y m : good X -> good Y ->
  (member Y 0 -> raises (py_div (OItv X) (OItv Y)) m ValueError) /\
  (~ member Y 0 -> exists Z, returns (py_div (OItv X) (OItv Y)) m Z /\
     forall x y, member X x -> member Y y -> member_or_nan Z (x / y)).
Proof.
  intros GX GY. split.
  - intro H. apply contains0_member in H. unfold raises, outcome, py_div. now rewrite (div_raises X Y m H).
  - intro H. apply contains0_false in H. assert (O := good_ordered Y GY).
    destruct GX as (kX & sX & _), GY as (kY & sY & _). now apply div_encl.
Qed.
Lemma rdiv_full X c m : good X -> small_num c -> finite_num c ->
  (member X 0 -> raises (py_div (ONum c) (OItv X)) m ValueError) /\
  (~ member X 0 -> exists Z, returns (py_div (ONum c) (OItv X)) m Z /\
     forall x, member X x -> member_or_nan Z (num_val c / x)).
Proof.
  intros GX sc fc. split.
  - intro H. apply contains0_member in H. unfold raises, outcome, py_div. now rewrite (rtruediv_raises X c m H).
  - intro H. apply contains0_false in H. assert (O := good_ordered X GX).
    destruct GX as (kX & sX & _). now apply rtruediv_encl.
Qed.

(** *** C07 *)
Lemma mixed_encl X c m : kd X = Classical -> small_itv X -> small_num c -> finite_num c ->
  (exists Z, returns (py_add (OItv X) (ONum c)) m Z /\ forall x, member X x -> member Z (x + num_val c)) /\
  (exists Z, returns (py_add (ONum c) (OItv X)) m Z /\ forall x, member X x -> member Z (num_val c + x)) /\
  (exists Z, returns (py_sub (OItv X) (ONum c)) m Z /\ forall x, member X x -> member Z (x - num_val c)) /\
  (exists Z, returns (py_sub (ONum c) (OItv X)) m Z /\ forall x, member X x -> member Z (num_val c - x)) /\
  (exists Z, returns (py_mul (OItv X) (ONum c)) m Z /\ forall x, member X x -> member_or_nan Z (x * num_val c)) /\
  (exists Z, returns (py_mul (ONum c) (OItv X)) m Z /\ forall x, member X x -> member_or_nan Z (num_val c * x)).
Proof.
  intros kX sX sc fc. cbv [py_add py_sub py_mul]. cbv beta iota delta [itv_add itv_sub itv_mul].
  split; [now apply radd_encl|]. split.
  { destruct (radd_encl X c m sX sc fc) as (Z & HZ & H). exists Z. split; [assumption|]. intros x Hx. rewrite Rplus_comm. auto. }
  split.
  { assert (fn : finite_num (num_neg c)) by (destruct c as [|f]; simpl in *; [exact I | unfold fneg; now rewrite is_finite_Bopp]).
    destruct (radd_encl X (num_neg c) m sX (small_neg c sc) fn) as (Z & HZ & H).
    exists Z. split; [assumption|]. intros x Hx. specialize (H x Hx). now rewrite num_val_neg in H. }
  split; [now apply rsub_encl|]. split; [|now apply rmul_encl].
  destruct (rmul_encl X c m sX sc fc kX) as (Z & HZ & H). exists Z. split; [assumption|]. intros x Hx. rewrite Rmult_comm. auto.
Qed.

(** *** C08: division by a number *)
Lemma div_num_encl X c m : kd X = Classical -> small_itv X -> finite_itv X -> small_num c -> finite_num c -> exact_reciprocal c ->
  exists Z, returns (py_div (OItv X) (ONum c)) m Z /\ forall x, member X x -> member Z (x / num_val c).
Proof.
  intros kX sX [F1 F2] sc fc ER.
  destruct (recip_const c m sc fc ER) as (g & Hg & Vv & N).
  destruct (gives_returns _ _ _ _ _ (rmul_gives X (PFlt g) m sX I kX)) as (Z & HZ & _ & Hl & Hh & _).
  destruct (xval_num_val (PFlt g) _ Vv) as [Fg Eg].
  destruct (rmul_encl X (PFlt g) m sX I Fg kX) as (Z' & HZ' & He). replace Z' with Z in * by (unfold returns in *; congruence). clear HZ'.
  exists Z. split.
  - unfold py_div, itv_div. rewrite kX. unfold returns, outcome. now rewrite (bind_ok _ _ _ _ _ Hg).
  - intros x Hx. specialize (He x Hx). rewrite Eg in He.
    replace (x / num_val c) with (1 / num_val c * x) by (field; assumption).
    destruct He as [[Nn _]|He]; [|assumption]. exfalso.
    apply is_nan_num_x in Nn. cbn [xval] in Hl. rewrite Hl, Vv in Nn. apply finite_num_x in F1, F2. rewrite F1, F2 in Nn.
    revert Nn. apply xmin2_nnan. apply xround_not_nan.
Qed.

(** *** C09: integers up to 2^52 *)
Lemma medium_double x : medium_num x -> exists f, to_double x = Ok f /\ xflt f = xval x.
Proof.
  intro H. apply to_double_exact. destruct x as [z|f]; simpl in *; [|trivial].
  apply Z.le_trans with (1 := H). discriminate.
Qed.
Lemma num_add_m m x y : medium_num x -> medium_num y ->
  exists v, num_add m x y = Ok v /\ exact_num v /\ xval v = xadd m (xval x) (xval y).
Proof.
  intros Hx Hy. destruct (medium_double x Hx) as (f & Hf & Hfx), (medium_double y Hy) as (g & Hg & Hgx).
  destruct x as [a|f0], y as [b|g0].
  - exists (PInt (a + b)). cbn [medium_num] in Hx, Hy.
    assert ((Z.abs (a + b) <= 2 ^ 53)%Z) by (change (2^53)%Z with (2^52 * 2)%Z; lia).
    split; [reflexivity|split; [assumption|]]. symmetry. now apply xadd_round_int.
  - exists (PFlt (fadd m f g)). unfold num_add, arith2. rewrite Hf, Hg. split; [reflexivity|split; [exact I|]].
    simpl xval at 1. rewrite fadd_x. now rewrite Hfx, Hgx.
  - exists (PFlt (fadd m f g)). unfold num_add, arith2. rewrite Hf, Hg. split; [reflexivity|split; [exact I|]].
    simpl xval at 1. rewrite fadd_x. now rewrite Hfx, Hgx.
  - exists (PFlt (fadd m f g)). unfold num_add, arith2. rewrite Hf, Hg. split; [reflexivity|split; [exact I|]].
    simpl xval at 1. rewrite fadd_x. now rewrite Hfx, Hgx.
Qed.
Lemma num_sub_m m x y : medium_num x -> medium_num y ->
  exists v, num_sub m x y = Ok v /\ exact_num v /\ xval v = xsub m (xval x) (xval y).
Proof.
  intros Hx Hy. destruct (medium_double x Hx) as (f & Hf & Hfx), (medium_double y Hy) as (g & Hg & Hgx).
  destruct x as [a|f0], y as [b|g0].
  - exists (PInt (a - b)). cbn [medium_num] in Hx, Hy.
    assert ((Z.abs (a - b) <= 2 ^ 53)%Z) by (change (2^53)%Z with (2^52 * 2)%Z; lia).
    split; [reflexivity|split; [assumption|]]. symmetry. unfold xsub. simpl xval. simpl xopp. rewrite <- opp_IZR.
    rewrite xadd_round_int; [reflexivity | assumption].
  - exists (PFlt (fsub m f g)). unfold num_sub, arith2. rewrite Hf, Hg. split; [reflexivity|split; [exact I|]].
    simpl xval at 1. rewrite fsub_x. now rewrite Hfx, Hgx.
  - exists (PFlt (fsub m f g)). unfold num_sub, arith2. rewrite Hf, Hg. split; [reflexivity|split; [exact I|]].
    simpl xval at 1. rewrite fsub_x. now rewrite Hfx, Hgx.
  - exists (PFlt (fsub m f g)). unfold num_sub, arith2. rewrite Hf, Hg. split; [reflexivity|split; [exact I|]].
    simpl xval at 1. rewrite fsub_x. now rewrite Hfx, Hgx.
Qed.
Lemma add_run_m r x y : medium_num x -> medium_num y -> dbl_run (as_double (add_ x y)) r (xadd r (xval x) (xval y)).
Proof.
  intros Hx Hy. destruct (num_add_m r x y Hx Hy) as (v & Hv & He & <-).
  apply as_double_run; [|assumption]. unfold add_, mprim. now rewrite Hv.
Qed.
Lemma sub_run_m r x y : medium_num x -> medium_num y -> dbl_run (as_double (sub_ x y)) r (xsub r (xval x) (xval y)).
Proof.
  intros Hx Hy. destruct (num_sub_m r x y Hx Hy) as (v & Hv & He & <-).
  apply as_double_run; [|assumption]. unfold sub_, mprim. now rewrite Hv.
Qed.
Lemma medium_add_sub X Y m : medium_itv X -> medium_itv Y ->
  (exists Z, returns (py_add (OItv X) (OItv Y)) m Z /\ forall x y, member X x -> member Y y -> member Z (x + y)) /\
  (exists Z, returns (py_sub (OItv X) (OItv Y)) m Z /\ forall x y, member X x -> member Y y -> member Z (x - y)).
Proof.
  intros [Hxl Hxh] [Hyl Hyh]. split.
  - assert (G : gives (itv_add X (OItv Y)) m (match kd X with Classical => kd Y | Kaucher => Kaucher end)
      (xadd mode_DN (xval (lo X)) (xval (lo Y))) (xadd mode_UP (xval (hi X)) (xval (hi Y)))).
    { unfold gives. simpl itv_add. apply two_ends; now apply add_run_m. }
    destruct (gives_returns _ _ _ _ _ G) as (Z & HZ & _ & Hl & Hh & _).
    exists Z. split; [assumption|]. intros x y. rewrite !member_x, Hl, Hh. intros [] [].
    split; [now apply xadd_low | now apply xadd_high].
  - assert (G : gives (itv_sub X (OItv Y)) m (match kd X with Classical => kd Y | Kaucher => Kaucher end)
      (xsub mode_DN (xval (lo X)) (xval (hi Y))) (xsub mode_UP (xval (hi X)) (xval (lo Y)))).
    { unfold gives. simpl itv_sub. apply two_ends; now apply sub_run_m. }
    destruct (gives_returns _ _ _ _ _ G) as (Z & HZ & _ & Hl & Hh & _).
    exists Z. split; [assumption|]. intros x y. rewrite !member_x, Hl, Hh. intros [] [].
    split; [now apply xsub_low | now apply xsub_high].
Qed.

(** *** C10: numpy scalar on the left *)
Lemma xadd_comm m x y : xadd m x y = xadd m y x.
Proof. destruct x, y; simpl; trivial. now rewrite Rplus_comm. Qed.
Lemma small_itv_neg X : small_itv X -> small_itv (neg X).
Proof. intros []. split; simpl; now apply small_neg. Qed.
Lemma np_scalar L o X c m : good X -> small_num c -> finite_num c -> (o = OpDiv -> ~ member X 0) ->
  exists Z1 Z2, returns (np_binary L (np_op o) (ONum c) (OItv X)) m Z1 /\ returns (py_op o (ONum c) (OItv X)) m Z2 /\ same_itv Z1 Z2.
Proof.
  intros GX sc fc H0. assert (O := good_ordered X GX). destruct GX as (kX & sX & _). destruct o; simpl np_op; simpl py_op; unfold np_binary, array_ufunc, radd_any, rmul_any.
  - destruct (radd_encl X c m sX sc fc) as (Z & HZ & _). exists Z, Z. split; [assumption|split; [assumption|]].
    split; [reflexivity|]. split; apply same_num_x; reflexivity.
  - assert (G1 := radd_gives (neg X) c m (small_itv_neg X sX) sc). assert (G2 := rsub_gives X c m sX sc).
    destruct (gives_returns _ _ _ _ _ G1) as (Z1 & HZ1 & K1 & Hl1 & Hh1 & _).
    destruct (gives_returns _ _ _ _ _ G2) as (Z2 & HZ2 & K2 & Hl2 & Hh2 & _).
    exists Z1, Z2. split; [assumption|split; [assumption|]]. split; [rewrite K1, K2; reflexivity|].
    cbn [neg lo hi] in Hl1, Hh1. rewrite num_neg_x in Hl1, Hh1.
    split; apply same_num_x; [rewrite Hl1, Hl2 | rewrite Hh1, Hh2]; unfold xsub; apply xadd_comm.
  - destruct (rmul_encl X c m sX sc fc kX) as (Z & HZ & _). exists Z, Z. split; [assumption|split; [assumption|]].
    split; [reflexivity|]. split; apply same_num_x; reflexivity.
  - specialize (H0 eq_refl). apply contains0_false in H0.
    assert (G2 := rtruediv_gives X c m sX sc kX H0 O). cbv zeta in G2.
    destruct (gives_returns _ _ _ _ _ G2) as (Z2 & HZ2 & K2 & Hl2 & Hh2 & _).
    destruct (zero_ends X H0 O) as [N1 N2]. destruct sX as [S1 S2].
    destruct (div_run mode_DN (PInt 1) (hi X)) as (i & Hi & Hxi); [simpl; lia|assumption|assumption|].
    destruct (div_run mode_UP (PInt 1) (lo X)) as (u & Hu & Hxu); [simpl; lia|assumption|assumption|].
    assert (G := rmul_gives (mkitv (kd X) (PFlt i) (PFlt u)) c m (conj I I) sc kX).
    cbn [lo hi] in G. cbn [xval] in G. rewrite Hxi, Hxu in G.
    destruct (gives_returns _ _ _ _ _ G) as (Z1 & HZ1 & K1 & Hl1 & Hh1 & _).
    exists Z1, Z2. split.
    { unfold returns, outcome in *.
      rewrite (bind_ok _ _ _ _ _ (with_rounding_ok FE_DOWNWARD _ m _ _ Hi)).
      rewrite (bind_ok _ _ _ _ _ (with_rounding_ok FE_UPWARD _ m _ _ Hu)). exact HZ1. }
    split; [assumption|]. split; [congruence|].
    split; apply same_num_x; [rewrite Hl1, Hl2 | rewrite Hh1, Hh2]; reflexivity.
Qed.

(** *** C17-C18 *)
Lemma klo_comm a b c d : klo a b c d = klo c d a b.
Proof. unfold klo. rewrite (Rmult_comm (rpos a)), (Rmult_comm (rneg b) (rneg d)), (Rmult_comm (rpos b)), (Rmult_comm (rneg a)). f_equal. apply Rmax_comm. Qed.
Lemma khi_comm a b c d : khi_ a b c d = khi_ c d a b.
Proof. unfold khi_. rewrite (Rmult_comm (rpos a)), (Rmult_comm (rneg b)), (Rmult_comm (rpos b)), (Rmult_comm (rneg a)). f_equal. apply Rmax_comm. Qed.
Lemma kaucher_vals X Y Z : kaucher_product X Y Z ->
  num_val (lo Z) = klo (num_val (lo X)) (num_val (hi X)) (num_val (lo Y)) (num_val (hi Y)) /\
  num_val (hi Z) = khi_ (num_val (lo X)) (num_val (hi X)) (num_val (lo Y)) (num_val (hi Y)).
Proof.
  intros (_ & H1 & H2). split.
  - eapply extremum_unique; [exact H1 | apply klo_spec].
  - eapply extremum_unique; [exact H2 | apply khi_spec].
Qed.
Lemma same_num_val x y : finite_num x -> finite_num y -> num_val x = num_val y -> same_num x y.
Proof. intros F G E. apply finite_num_x in F, G. apply same_num_x. congruence. Qed.

Definition mul_ok (X Y : itv) : Prop := kd X = Classical -> well_kinded X /\ well_kinded Y.
Lemma mul_comm_exact X Y m : int_itv X -> int_itv Y -> well_kinded X -> well_kinded Y ->
  exists Z1 Z2, returns (py_mul (OItv X) (OItv Y)) m Z1 /\ returns (py_mul (OItv Y) (OItv X)) m Z2 /\
    same_num (lo Z1) (lo Z2) /\ same_num (hi Z1) (hi Z2).
Proof.
  intros IX IY wX wY. destruct (mul_exact X Y m IX IY (fun _ => conj wX wY)) as (Z1 & H1 & P1).
  destruct (mul_exact Y X m IY IX (fun _ => conj wY wX)) as (Z2 & H2 & P2). exists Z1, Z2. split; [assumption|split; [assumption|]].
  destruct (kaucher_vals _ _ _ P1) as [L1 U1]. destruct (kaucher_vals _ _ _ P2) as [L2 U2].
  destruct P1 as [[F1 F2] _], P2 as [[F3 F4] _].
  split; apply same_num_val; try assumption; [rewrite L1, L2; apply klo_comm | rewrite U1, U2; apply khi_comm].
Qed.
Lemma dual_int X : int_itv X -> int_itv (dual X).
Proof. intros []. destruct (dual_ends X) as [E1 E2]. split; [now rewrite E1 | now rewrite E2]. Qed.
Lemma mul_dual_exact X Y m : int_itv X -> int_itv Y -> well_kinded X -> well_kinded Y ->
  exists Z1 Z2, returns (py_mul (OItv X) (OItv Y)) m Z1 /\ returns (py_mul (OItv (dual X)) (OItv (dual Y))) m Z2 /\
    same_num (lo (dual Z1)) (lo Z2) /\ same_num (hi (dual Z1)) (hi Z2).
Proof.
  intros IX IY wX wY. destruct (mul_exact X Y m IX IY (fun _ => conj wX wY)) as (Z1 & H1 & P1).
  destruct (mul_exact (dual X) (dual Y) m (dual_int X IX) (dual_int Y IY) (fun _ => conj (dual_wk X) (dual_wk Y))) as (Z2 & H2 & P2). exists Z1, Z2. split; [assumption|split; [assumption|]].
  destruct (kaucher_vals _ _ _ P1) as [L1 U1]. destruct (kaucher_vals _ _ _ P2) as [L2 U2].
  destruct P1 as [[F1 F2] _], P2 as [[F3 F4] _].
  destruct (dual_ends X) as [X1 X2], (dual_ends Y) as [Y1 Y2], (dual_ends Z1) as [E1 E2].
  rewrite X1, X2, Y1, Y2 in L2, U2. rewrite E1, E2.
  split; apply same_num_val; try assumption; [rewrite U1, L2 | rewrite L1, U2]; reflexivity.
Qed.
(** On proper operands of either class (Kaucher*anything) the result is the range. *)
Lemma mul_proper_range X Y m : int_itv X -> int_itv Y -> (kd X = Classical -> kd Y = Classical) -> proper_fin X -> proper_fin Y ->
  exists Z, returns (py_mul (OItv X) (OItv Y)) m Z /\
    (forall x y, member X x -> member Y y -> member Z (x * y)) /\
    (exists x y, member X x /\ member Y y /\ num_val (lo Z) = x * y) /\
    (exists x y, member X x /\ member Y y /\ num_val (hi Z) = x * y).
Proof.
  intros IX IY K [FX OX] [FY OY].
  assert (W : kd X = Classical -> well_kinded X /\ well_kinded Y).
  { intro k. specialize (K k). destruct FX as [F1 F2], FY as [F3 F4]. apply finite_num_x in F1, F2, F3, F4.
    split; split; intros _; try assumption; rewrite num_le_x; [rewrite F1, F2 | rewrite F3, F4]; now apply xleb_fin. }
  destruct (mul_exact X Y m IX IY W) as (Z & HZ & FZ & PL & PU). exists Z. split; [assumption|].
  unfold kaucher_lo, kaucher_hi in *. rewrite !Rle_bool_true in PL, PU by assumption. cbn [negb] in PU.
  assert (MX : forall x, member X x <-> num_val (lo X) <= x <= num_val (hi X)).
  { intro x. rewrite member_x. destruct FX as [F1 F2]. apply finite_num_x in F1, F2. rewrite F1, F2. reflexivity. }
  assert (MY : forall x, member Y x <-> num_val (lo Y) <= x <= num_val (hi Y)).
  { intro x. rewrite member_x. destruct FY as [F1 F2]. apply finite_num_x in F1, F2. rewrite F1, F2. reflexivity. }
  assert (MZ : forall x, member Z x <-> num_val (lo Z) <= x <= num_val (hi Z)).
  { intro x. rewrite member_x. destruct FZ as [F1 F2]. apply finite_num_x in F1, F2. rewrite F1, F2. reflexivity. }
  destruct PL as [(x1 & Bx1 & (y1 & By1 & E1) & _) HL]. destruct PU as [(x2 & Bx2 & (y2 & By2 & E2) & _) HU].
  rewrite between_le in Bx1, By1, Bx2, By2 by assumption.
  split; [|split; [exists x1, y1 | exists x2, y2]; rewrite MX, MY; auto].
  intros x y Hx Hy. apply MX in Hx. apply MY in Hy. apply MZ.
  assert (BX : between (num_val (lo X)) (num_val (hi X)) x) by now apply between_le.
  assert (BY : between (num_val (lo Y)) (num_val (hi Y)) y) by now apply between_le.
  split.
  - eapply Rle_trans; [apply HL; exists x; split; [exact BX | apply inner_ext]|].
    apply (proj2 (inner_ext true (num_val (lo Y)) (num_val (hi Y)) x)). eauto.
  - eapply Rle_trans; [|apply HU; exists x; split; [exact BX | apply inner_ext]].
    apply (proj2 (inner_ext false (num_val (lo Y)) (num_val (hi Y)) x)). eauto.
Qed.

Lemma mixed_comm_same X Y m : small_itv X -> small_itv Y -> finite_itv X -> finite_itv Y ->
  kd X = Classical -> kd Y = Kaucher -> well_kinded X -> well_kinded Y ->
  exists Z1 Z2, returns (py_mul (OItv X) (OItv Y)) m Z1 /\ returns (py_mul (OItv Y) (OItv X)) m Z2 /\ same_itv Z1 Z2.
Proof.
  intros. destruct (mixed_comm X Y m) as (Z1 & Z2 & H7 & H8 & K & L & U); try assumption.
  exists Z1, Z2. split; [assumption|split; [assumption|]]. split; [assumption|]. split; now apply same_num_x.
Qed.

(** *** C19 on non-negative operands *)
Lemma kaucher_outward_nonneg X Y m : kd X = Kaucher -> small_itv X -> small_itv Y -> finite_itv X -> finite_itv Y ->
  0 <= num_val (lo X) -> 0 <= num_val (hi X) -> 0 <= num_val (lo Y) -> 0 <= num_val (hi Y) ->
  exists Z, returns (py_mul (OItv X) (OItv Y)) m Z /\
    (forall l, kaucher_lo (num_val (lo X)) (num_val (hi X)) (num_val (lo Y)) (num_val (hi Y)) l -> num_le_R (lo Z) l) /\
    (forall u, kaucher_hi (num_val (lo X)) (num_val (hi X)) (num_val (lo Y)) (num_val (hi Y)) u -> R_le_num u (hi Z)).
Proof.
  intros kX sX sY [F1 F2] [F3 F4] P1 P2 P3 P4. apply finite_num_x in F1, F2, F3, F4.
  destruct (gives_returns _ _ _ _ _ (mul_max_gives X Y _ _ _ _ m sX sY F1 F2 F3 F4)) as (Z & HZ & _ & Hl & Hh & _).
  exists Z. split; [unfold py_mul, itv_mul; now rewrite kX|].
  rewrite !(rpos_nn _ P1), !(rpos_nn _ P2), !(rpos_nn _ P3), !(rpos_nn _ P4), !(rneg_nn _ P1), !(rneg_nn _ P2), !(rneg_nn _ P3), !(rneg_nn _ P4) in Hl, Hh.
  unfold xmaxf in Hl, Hh. rewrite !Rmult_0_r, !Rmult_0_l, !xround_0 in Hl, Hh.
  rewrite (xmax2_0_r (XFin 0)) in Hl, Hh by (apply xleb_refl; discriminate).
  rewrite (xmax2_0_r) in Hl, Hh by (apply xround_nn; now apply Rmult_le_pos).
  rewrite xsub_0_r in Hl, Hh by apply xround_dbl.
  split.
  - intros l HL. rewrite (extremum_unique _ _ _ _ HL (klo_spec _ _ _ _)). unfold klo.
    rewrite (rpos_nn _ P1), (rpos_nn _ P3), (rneg_nn _ P2), (rneg_nn _ P4), (rneg_nn _ P3), (rneg_nn _ P1).
    rewrite Rmax_left by (rewrite Rmult_0_l; now apply Rmult_le_pos). rewrite Rmult_0_r, Rmult_0_l, Rmax_left, Rminus_0_r by lra.
    apply num_le_R_x. rewrite Hl. apply xround_DN_le.
  - intros l HL. rewrite (extremum_unique _ _ _ _ HL (khi_spec _ _ _ _)). unfold khi_.
    rewrite (rpos_nn _ P2), (rpos_nn _ P4), (rneg_nn _ P1), (rneg_nn _ P3), (rneg_nn _ P4), (rneg_nn _ P2).
    rewrite Rmax_left by (rewrite Rmult_0_l; now apply Rmult_le_pos). rewrite Rmult_0_r, Rmult_0_l, Rmax_left, Rminus_0_r by lra.
    apply R_le_num_x. rewrite Hh. apply xround_UP_ge.
Qed.

(** *** Counterexamples *)
Lemma mixed_comm_refuted : exists X Y0 Y1 Y m Z1 Z2,
  small_itv X /\ finite_itv X /\ kd X = Classical /\ well_kinded X /\
  kd Y0 = Kaucher /\ well_kinded Y0 /\ kd Y1 = Classical /\ well_kinded Y1 /\
  returns (py_add (OItv Y0) (OItv Y1)) m Y /\ kd Y = Kaucher /\
  returns (py_mul (OItv X) (OItv Y)) m Z1 /\ returns (py_mul (OItv Y) (OItv X)) m Z2 /\ py_eq Z1 (OItv Z2) = false.
Proof.
  set (X := ival Classical (-1) 1). set (Y0 := ival Kaucher 0 (-1)). set (Y1 := ival Classical (-1) 2).
  assert (HY : match outcome (py_add (OItv Y0) (OItv Y1)) mode_NE with Ok _ => true | Err _ => false end = true) by (vm_compute; reflexivity).
  assert (H : match outcome (Y <- py_add (OItv Y0) (OItv Y1) ;; py_mul (OItv X) (OItv Y)) mode_NE,
                    outcome (Y <- py_add (OItv Y0) (OItv Y1) ;; py_mul (OItv Y) (OItv X)) mode_NE with
              | Ok Z1, Ok Z2 => py_eq Z1 (OItv Z2) | _, _ => true end = false) by (vm_compute; reflexivity).
  assert (KY : match outcome (py_add (OItv Y0) (OItv Y1)) mode_NE with Ok Y => kd Y | Err _ => Classical end = Kaucher) by (vm_compute; reflexivity).
  assert (SK : snd (py_add (OItv Y0) (OItv Y1) mode_NE) = mode_NE) by apply (keeps_py_op OpAdd).
  destruct (outcome (py_add (OItv Y0) (OItv Y1)) mode_NE) as [Y|e] eqn:EY; [|discriminate]. clear HY.
  assert (B : forall f : itv -> M itv, outcome (Y <- py_add (OItv Y0) (OItv Y1) ;; f Y) mode_NE = outcome (f Y) mode_NE).
  { intro f. unfold outcome in *. rewrite (bind_ok _ _ _ Y mode_NE); [reflexivity|].
    destruct (py_add (OItv Y0) (OItv Y1) mode_NE); cbn [fst snd] in *. congruence. }
  rewrite !B in H.
  destruct (outcome (py_mul (OItv X) (OItv Y)) mode_NE) as [Z1|] eqn:E1; [|discriminate].
  destruct (outcome (py_mul (OItv Y) (OItv X)) mode_NE) as [Z2|] eqn:E2; [|discriminate].
  exists X, Y0, Y1, Y, mode_NE, Z1, Z2.
  split; [split; simpl; lia|]. split; [split; exact I|]. split; [reflexivity|]. split; [split; reflexivity|].
  split; [reflexivity|]. split; [split; [discriminate | vm_compute; discriminate]|]. split; [reflexivity|]. split; [split; reflexivity|].
  repeat (split; [assumption|]). assumption.
Qed.

Lemma kaucher_outward_refuted : exists X Y m Z l,
  kd X = Kaucher /\ well_kinded X /\ fin_double_itv X /\ kd Y = Kaucher /\ well_kinded Y /\ fin_double_itv Y /\
  returns (py_mul (OItv X) (OItv Y)) m Z /\
  kaucher_lo (num_val (lo X)) (num_val (hi X)) (num_val (lo Y)) (num_val (hi Y)) l /\ ~ num_le_R (lo Z) l.
Proof.
  set (e := fl 4503599627370497 (-52)).
  set (X := mkitv Kaucher (PFlt (fl 2 0)) (PFlt e)). set (Y := mkitv Kaucher (PFlt (fneg e)) (PFlt (fl (-2) 0))).
  destruct (view_returns (py_mul (OItv X) (OItv Y)) mode_NE Kaucher (inr (S754_finite true 4503599627370498 (-52))) (inr (S754_finite true 4503599627370496 (-50))))
    as (Z & HZ & _ & Hl & _); [vm_compute; reflexivity|].
  exists X, Y, mode_NE, Z, (klo (num_val (lo X)) (num_val (hi X)) (num_val (lo Y)) (num_val (hi Y))).
  split; [reflexivity|]. split; [split; [discriminate | vm_compute; discriminate]|]. split; [split; reflexivity|].
  split; [reflexivity|]. split; [split; [discriminate | vm_compute; discriminate]|]. split; [split; reflexivity|].
  split; [exact HZ|]. split; [apply klo_spec|].
  assert (Ve : num_val (PFlt e) = 4503599627370497 / 4503599627370496).
  { change (num_val (PFlt e)) with (B2R e). rewrite (B2R_sf e false 4503599627370497 (-52)) by (vm_compute; reflexivity). feval. reflexivity. }
  assert (V2 : num_val (PFlt (fl 2 0)) = 2).
  { change (num_val (PFlt (fl 2 0))) with (B2R (fl 2 0)). rewrite (B2R_sf _ false 4503599627370496 (-51)) by (vm_compute; reflexivity). feval. lra. }
  assert (Vm2 : num_val (PFlt (fl (-2) 0)) = -2).
  { change (num_val (PFlt (fl (-2) 0))) with (B2R (fl (-2) 0)). rewrite (B2R_sf _ true 4503599627370496 (-51)) by (vm_compute; reflexivity). feval. lra. }
  rewrite num_le_R_x, Hl. cbn [X Y lo hi].
  change (num_val (PFlt (fneg e))) with (B2R (Bopp e)). rewrite B2R_Bopp. change (B2R e) with (num_val (PFlt e)).
  rewrite Ve, V2, Vm2. unfold klo.
  rewrite (rpos_nn 2), (rneg_nn (4503599627370497 / 4503599627370496)), (rpos_nn (4503599627370497 / 4503599627370496)), (rneg_nn 2), (rpos_np (-2)), (rneg_np (- _)), (rpos_np (- _)) by lra.
  rewrite (Rmax_left (2 * 0)), Rmax_left by lra.
  simpl. feval. lra.
Qed.

(** *** Summaries *)
Lemma all_keep_mode L m :
  (forall o x y, snd (py_op o x y m) = m) /\
  (forall u x y, snd (np_binary L u x y m) = m) /\
  (forall X e, snd (itv_pow L X e m) = m) /\
  (forall X, snd (itv_exp L X m) = m) /\ (forall X, snd (itv_log L X m) = m) /\
  (forall X, snd (itv_sin L X m) = m) /\ (forall X, snd (itv_cos L X m) = m) /\
  (forall X, snd (itv_sqrt L X m) = m) /\ (forall X, snd (abs_itv X m) = m) /\
  (forall X, snd (inv X m) = m) /\ (forall X, snd (mid X m) = m) /\ (forall X, snd (rad X m) = m) /\
  (forall X, snd (wid X m) = m) /\ (forall X, snd (mig X m) = m) /\ (forall X, snd (mag X m) = m) /\
  (forall X, snd (khi X m) = m) /\ (forall env e, snd (eval env e m) = m).
Proof.
  split; [intros; apply keeps_py_op|]. split; [intros; apply keeps_np|]. split; [intros; apply keeps_pow|].
  split; [intros; apply keeps_exp|]. split; [intros; apply keeps_log|]. split; [intros; apply keeps_sin|].
  split; [intros; apply keeps_cos|]. split; [intros; apply keeps_sqrt|]. split; [intros; apply keeps_abs|].
  split; [intros; apply keeps_inv|]. split; [intros; apply keeps_mid|]. split; [intros; apply keeps_rad|].
  split; [intros; apply keeps_wid|]. split; [intros; apply keeps_mig|]. split; [intros; apply keeps_mag|].
  split; [intros; apply keeps_khi|]. intros; apply keeps_eval.
Qed.
Lemma ufunc_first_ignores L u X o o2 m : np_binary L u (OItv X) o m = np_binary L u (OItv X) o2 m.
Proof. reflexivity. Qed.
Lemma eval_invariant env e m Z :
  (forall n, good (env n)) -> good_consts e -> returns (eval env e) m Z ->
  kd Z = Classical /\ (nan_itv Z \/ num_le (lo Z) (hi Z) = true).
Proof.
  intros H1 H2 H3. destruct (eval_sound env e m Z H1 H2 H3) as [G _]. split; [apply G|].
  destruct (good_ordered Z G) as [N|O]; [now left | right]. now rewrite num_le_x.
Qed.
Lemma dual_algebra :
  (forall X, neg (neg X) = X) /\
  (forall X, well_kinded X -> dual (dual X) = X) /\
  (forall X, well_kinded X -> opp (opp X) = X) /\
  (forall X, lo (dual X) = hi X /\ hi (dual X) = lo X) /\
  (forall X, lo (opp X) = num_neg (lo X) /\ hi (opp X) = num_neg (hi X)) /\
  (forall X, opp X = neg (dual X)) /\
  (forall X, well_kinded (dual X)) /\ (forall X, well_kinded (opp X)) /\
  (forall X, pro (pro X) = pro X) /\
  (forall X, no_nan X -> (kd X = Classical -> num_le (lo X) (hi X) = true) ->
     kd (pro X) = Classical /\ num_le (lo (pro X)) (hi (pro X)) = true /\
     ((lo (pro X) = lo X /\ hi (pro X) = hi X) \/ (lo (pro X) = hi X /\ hi (pro X) = lo X) \/
      (num_eq (lo X) (hi X) = true /\ lo (pro X) = lo X /\ hi (pro X) = lo X))).
Proof.
  split; [exact neg_neg|]. split; [exact dual_dual|]. split; [exact opp_opp|]. split; [exact dual_ends|].
  split; [exact opp_ends|]. split; [exact opp_neg_dual|]. split; [exact dual_wk|]. split; [exact opp_wk|].
  split; [exact pro_pro | exact pro_ordered].
Qed.
Lemma cmp_meaning X Y : finite_itv X -> finite_itv Y ->
  (py_eq X (OItv Y) = true <-> num_val (lo X) = num_val (lo Y) /\ num_val (hi X) = num_val (hi Y)) /\
  (py_le X (OItv Y) = true <-> num_val (lo X) <= num_val (lo Y) /\ num_val (hi X) <= num_val (hi Y)) /\
  (py_lt X (OItv Y) = true <-> num_val (lo X) < num_val (lo Y) /\ num_val (hi X) < num_val (hi Y)).
Proof.
  intros [F1 F2] [F3 F4]. apply finite_num_x in F1, F2, F3, F4. unfold py_eq, py_le, py_lt, cmp_both.
  rewrite !andb_true_iff, !num_eq_x, !num_le_x, !num_lt_x, F1, F2, F3, F4, !xeqb_fin, !xleb_fin, !xltb_fin. tauto.
Qed.

Lemma op_tight_m o X Y m : kd X = Classical -> kd Y = Classical -> small_itv X -> small_itv Y -> proper_fin X -> proper_fin Y ->
  (o = OpDiv -> ~ member Y 0) ->
  exists Z, returns (py_op o (OItv X) (OItv Y)) m Z /\
    greatest_lower_double (image2 (opR o) X Y) (lo Z) /\ least_upper_double (image2 (opR o) X Y) (hi Z).
Proof.
  intros kX kY sX sY PX PY H0.
  destruct (op_tight o X Y m kX kY sX sY PX PY) as (Z & HZ & T & _).
  { intro E. apply contains0_false. auto. }
  exists Z. split; [assumption | exact T].
Qed.
Lemma op_isotonic_m o X X2 Y Y2 m :
  kd X = Classical -> kd Y = Classical -> kd X2 = Classical -> kd Y2 = Classical ->
  small_itv X -> small_itv Y -> small_itv X2 -> small_itv Y2 ->
  proper_fin X -> proper_fin Y -> proper_fin X2 -> proper_fin Y2 ->
  inside X X2 -> inside Y Y2 -> (o = OpDiv -> ~ member Y2 0) ->
  exists Z Z2, returns (py_op o (OItv X) (OItv Y)) m Z /\ returns (py_op o (OItv X2) (OItv Y2)) m Z2 /\ inside Z Z2.
Proof.
  intros. apply op_isotonic; try assumption. intro E. apply contains0_false. auto.
Qed.
