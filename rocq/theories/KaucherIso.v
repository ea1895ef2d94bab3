(** Inclusion isotonicity of the operations on generalized intervals. *)
From Coq Require Import ZArith Reals List Bool Lia Lra Psatz.
From Coq Require Import Floats.SpecFloat.
From Flocq Require Import Core IEEE754.BinarySingleNaN.
From Verif Require Import Base PyNum Kernel Spec XReal XArith KernelProofs Expr ExprProofs KernelAlg KaucherProofs KernelMore KaucherDiv Witness KernelRefute IsoProofs SpecKaucher KaucherRound.
Import ListNotations.
Open Scope R_scope.

Lemma rpos_mono a b : a <= b -> rpos a <= rpos b.
Proof. intro. unfold rpos. apply Rle_max_compat_r. assumption. Qed.
Lemma rneg_anti a b : a <= b -> rneg b <= rneg a.
Proof. intro. signs a; signs b; lra. Qed.
Lemma rmul_mono p q p2 q2 : 0 <= p -> 0 <= q -> p <= p2 -> q <= q2 -> p * q <= p2 * q2.
Proof. intros. now apply Rmult_le_compat. Qed.
Lemma max2_mono p q p2 q2 : p <= p2 -> q <= q2 -> Rmax p q <= Rmax p2 q2.
Proof. intros. apply Rmax_lub; [apply Rle_trans with p2; [assumption | apply Rmax_l] | apply Rle_trans with q2; [assumption | apply Rmax_r]]. Qed.
Lemma klo_mono a b c d a2 b2 c2 d2 : a2 <= a -> b <= b2 -> c2 <= c -> d <= d2 -> klo a2 b2 c2 d2 <= klo a b c d.
Proof.
  intros. unfold klo. assert (forall x y u v : R, x <= u -> v <= y -> x - y <= u - v) as M by (intros; lra).
  apply M; apply max2_mono; apply rmul_mono; auto using rpos_mono, rneg_anti with kau.
Qed.
Lemma khi_mono a b c d a2 b2 c2 d2 : a2 <= a -> b <= b2 -> c2 <= c -> d <= d2 -> khi_ a b c d <= khi_ a2 b2 c2 d2.
Proof.
  intros. unfold khi_. assert (forall x y u v : R, x <= u -> v <= y -> x - y <= u - v) as M by (intros; lra).
  apply M; apply max2_mono; apply rmul_mono; auto using rpos_mono, rneg_anti with kau.
Qed.

Lemma xtz_mono a b : a <= b -> xleb (xtz a) (xtz b) = true.
Proof.
  intro H. unfold xtz. destruct (Rle_dec 0 a), (Rle_dec 0 b); try lra.
  - now apply xround_DN_mono.
  - apply xleb_trans with (xround mode_UP 0); [apply xround_UP_mono; lra|]. rewrite xround_0, <- (xround_0 mode_DN). apply xround_DN_mono. assumption.
  - now apply xround_UP_mono.
Qed.
Lemma xaz_mono a b : a <= b -> xleb (xaz a) (xaz b) = true.
Proof.
  intro H. unfold xaz. destruct (Rle_dec 0 a), (Rle_dec 0 b); try lra.
  - now apply xround_UP_mono.
  - apply xleb_trans with (xround mode_DN 0); [apply xround_DN_mono; lra|]. rewrite xround_0, <- (xround_0 mode_UP). apply xround_UP_mono. assumption.
  - now apply xround_DN_mono.
Qed.
Lemma DN_tz a b : a <= b -> xleb (xround mode_DN a) (xtz b) = true.
Proof. intro. unfold xtz. destruct Rle_dec; [now apply xround_DN_mono | now apply xround_DU]. Qed.
Lemma az_UP a b : a <= b -> xleb (xaz a) (xround mode_UP b) = true.
Proof. intro. unfold xaz. destruct Rle_dec; [now apply xround_UP_mono | now apply xround_DU]. Qed.

Lemma klo_proper a b c d : a <= b -> c <= d -> Rmin (Rmin (Rmin (a * c) (a * d)) (b * c)) (b * d) = klo a b c d.
Proof.
  intros H1 H2. assert (H := klo_spec a b c d). unfold kaucher_lo in H. rewrite !Rle_bool_true in H by assumption.
  destruct H as [(x & Hx & E) B]. rewrite (extremum_unique _ _ _ _ E (inner_ext true c d x)) in *. unfold opt in *.
  rewrite (between_le a b x H1) in Hx.
  assert (Ba := B _ (ex_intro _ a (conj (between_l a b) (inner_ext true c d a)))).
  assert (Bb := B _ (ex_intro _ b (conj (between_r a b) (inner_ext true c d b)))). cbv beta iota in Ba, Bb. unfold opt in *.
  apply Rle_antisym.
  - apply Rmin_glb; (destruct (Rle_dec 0 c); destruct (Rle_dec 0 d)); mm.
  - assert (A1 := Rle_trans _ _ _ Ba (Rmin_l _ _)). assert (A2 := Rle_trans _ _ _ Ba (Rmin_r _ _)).
    assert (A3 := Rle_trans _ _ _ Bb (Rmin_l _ _)). assert (A4 := Rle_trans _ _ _ Bb (Rmin_r _ _)).
    repeat apply Rmin_glb; assumption.
Qed.
Lemma khi_klo a b c d : khi_ a b c d = - klo (- b) (- a) c d.
Proof.
  assert (P : forall x, rpos (- x) = rneg x) by (intro x; signs x; [rewrite rpos_np by lra | rewrite rpos_nn by lra]; lra).
  assert (N : forall x, rneg (- x) = rpos x) by (intro x; signs x; [rewrite rneg_np by lra | rewrite rneg_nn by lra]; lra).
  unfold khi_, klo. rewrite !P, !N. rewrite (Rmax_comm (rneg b * rpos c)), (Rmax_comm (rneg a * rneg c)). ring.
Qed.
Lemma khi_proper a b c d : a <= b -> c <= d -> Rmax (Rmax (Rmax (a * c) (a * d)) (b * c)) (b * d) = khi_ a b c d.
Proof.
  intros H1 H2. rewrite khi_klo, <- klo_proper by lra.
  replace (- b * c) with (- (b * c)) by ring. replace (- b * d) with (- (b * d)) by ring.
  replace (- a * c) with (- (a * c)) by ring. replace (- a * d) with (- (a * d)) by ring. mm.
Qed.
Lemma classical_rounds X Y m : kd X = Classical -> kd Y = Classical -> well_kinded X -> well_kinded Y ->
  small_itv X -> small_itv Y -> finite_itv X -> finite_itv Y ->
  gives (py_mul (OItv X) (OItv Y)) m Classical
    (xround mode_DN (klo (num_val (lo X)) (num_val (hi X)) (num_val (lo Y)) (num_val (hi Y))))
    (xround mode_UP (khi_ (num_val (lo X)) (num_val (hi X)) (num_val (lo Y)) (num_val (hi Y)))).
Proof.
  intros kX kY wX wY sX sY [F1 F2] [F3 F4]. apply finite_num_x in F1, F2, F3, F4.
  assert (O1 := wk_proper _ _ _ wX kX F1 F2). assert (O2 := wk_proper _ _ _ wY kY F3 F4).
  assert (G := mul_gives X Y m sX sY kX kY). unfold py_mul. rewrite F1, F2, F3, F4 in G. unfold xmul_lo, xmul_hi, xmul, xmin4, xmax4 in G.
  rewrite !xmin2_round, !xmax2_round, klo_proper, khi_proper in G by assumption. exact G.
Qed.
Definition kprod (X Y : itv) : R := klo (num_val (lo X)) (num_val (hi X)) (num_val (lo Y)) (num_val (hi Y)).

Lemma inside_R X X2 : finite_itv X -> finite_itv X2 -> inside X X2 -> num_val (lo X2) <= num_val (lo X) /\ num_val (hi X) <= num_val (hi X2).
Proof.
  intros [F1 F2] [F3 F4] [H1 H2]. apply finite_num_x in F1, F2, F3, F4. rewrite num_le_x, F1, F3 in H1. rewrite num_le_x, F2, F4 in H2. apply xleb_fin in H1, H2. auto.
Qed.
Lemma kind_down X X2 : finite_itv X -> finite_itv X2 -> inside X X2 -> well_kinded X -> well_kinded X2 -> kd X = Classical -> kd X2 = Classical.
Proof.
  intros F1 F2 I W1 W2 K. apply W2. apply W1 in K. destruct (inside_R _ _ F1 F2 I). destruct F1 as [A1 A2], F2 as [A3 A4].
  apply finite_num_x in A1, A2, A3, A4. rewrite num_le_x, A1, A2, xleb_fin in K. rewrite num_le_x, A3, A4, xleb_fin. lra.
Qed.
Lemma inside_of c c2 m k k2 l u l2 u2 : gives c m k l u -> gives c2 m k2 l2 u2 -> xleb l2 l = true -> xleb u u2 = true ->
  exists Z Z2, returns c m Z /\ returns c2 m Z2 /\ inside Z Z2.
Proof.
  intros G G2 Hl Hu. destruct (gives_returns _ _ _ _ _ G) as (Z & HZ & _ & L & U & _). destruct (gives_returns _ _ _ _ _ G2) as (Z2 & HZ2 & _ & L2 & U2 & _).
  exists Z, Z2. split; [exact HZ|]. split; [exact HZ2|]. split; rewrite num_le_x; congruence.
Qed.

Theorem kaucher_isotonic o X X2 Y Y2 m : o <> OpDiv -> well_kinded X -> well_kinded X2 -> well_kinded Y -> well_kinded Y2 ->
  small_itv X -> small_itv X2 -> small_itv Y -> small_itv Y2 -> finite_itv X -> finite_itv X2 -> finite_itv Y -> finite_itv Y2 ->
  inside X X2 -> inside Y Y2 ->
  exists Z Z2, returns (py_op o (OItv X) (OItv Y)) m Z /\ returns (py_op o (OItv X2) (OItv Y2)) m Z2 /\ inside Z Z2.
Proof.
  intros No WX WX2 WY WY2 sX sX2 sY sY2 FX FX2 FY FY2 IX IY.
  destruct (inside_R _ _ FX FX2 IX) as [A1 A2]. destruct (inside_R _ _ FY FY2 IY) as [A3 A4].
  assert (KX := kind_down _ _ FX FX2 IX WX WX2). assert (KY := kind_down _ _ FY FY2 IY WY WY2).
  destruct o; [| | |congruence]; cbn [py_op].
  - destruct FX as [F1 F2], FX2 as [F3 F4], FY as [F5 F6], FY2 as [F7 F8]. apply finite_num_x in F1, F2, F3, F4, F5, F6, F7, F8.
    apply (inside_of _ _ _ _ _ _ _ _ _ (add_gives X Y m sX sY) (add_gives X2 Y2 m sX2 sY2)); rewrite ?F1, ?F2, ?F3, ?F4, ?F5, ?F6, ?F7, ?F8; cbn [xadd];
      [apply xround_DN_mono | apply xround_UP_mono]; lra.
  - destruct FX as [F1 F2], FX2 as [F3 F4], FY as [F5 F6], FY2 as [F7 F8]. apply finite_num_x in F1, F2, F3, F4, F5, F6, F7, F8.
    apply (inside_of _ _ _ _ _ _ _ _ _ (sub_gives X Y m sX sY) (sub_gives X2 Y2 m sX2 sY2)); rewrite ?F1, ?F2, ?F3, ?F4, ?F5, ?F6, ?F7, ?F8; cbn [xadd xsub xopp];
      unfold xsub; cbn [xadd xopp]; [apply xround_DN_mono | apply xround_UP_mono]; lra.
  - assert (M1 := klo_mono _ _ _ _ _ _ _ _ A1 A2 A3 A4). assert (M2 := khi_mono _ _ _ _ _ _ _ _ A1 A2 A3 A4).
    assert (D : forall Y, (kd X = Classical /\ kd Y = Classical) \/ ~ (kd X = Classical /\ kd Y = Classical)) by (intro Y0; destruct (kd X), (kd Y0); intuition discriminate).
    assert (D2 : (kd X2 = Classical /\ kd Y2 = Classical) \/ ~ (kd X2 = Classical /\ kd Y2 = Classical)) by (destruct (kd X2), (kd Y2); intuition discriminate).
    destruct (D Y) as [[C1 C2] | NC].
    + eapply inside_of; [apply classical_rounds; assumption | apply classical_rounds; auto | now apply xround_DN_mono | now apply xround_UP_mono].
    + destruct D2 as [[C1 C2] | NC2].
      * eapply inside_of; [apply product_rounds; auto | apply classical_rounds; assumption | now apply DN_tz | now apply az_UP].
      * eapply inside_of; [apply product_rounds; auto | apply product_rounds; auto | now apply xtz_mono | now apply xaz_mono].
Qed.

Lemma inv_anti x y : (0 < x \/ y < 0) -> x <= y -> 1 / y <= 1 / x.
Proof.
  intros S0 H. unfold Rdiv. rewrite !Rmult_1_l. destruct S0.
  - apply Rinv_le; lra.
  - assert (Q : / - x <= / - y) by (apply Rinv_le; lra). rewrite !Rinv_opp in Q. lra.
Qed.
Theorem kaucher_div_isotonic X X2 Y Y2 m : ~ (kd X = Classical /\ kd Y = Classical) -> ~ (kd X2 = Classical /\ kd Y2 = Classical) ->
  small_itv X -> small_itv X2 -> small_itv Y -> small_itv Y2 -> finite_itv X -> finite_itv X2 -> finite_itv Y -> finite_itv Y2 ->
  divisor Y -> divisor Y2 -> inside X X2 -> inside Y Y2 ->
  exists Z Z2, returns (py_div (OItv X) (OItv Y)) m Z /\ returns (py_div (OItv X2) (OItv Y2)) m Z2 /\ inside Z Z2.
Proof.
  intros NC NC2 sX sX2 sY sY2 FX FX2 FY FY2 DY DY2 IX IY.
  destruct (inside_R _ _ FX FX2 IX) as [A1 A2]. destruct (inside_R _ _ FY FY2 IY) as [A3 A4].
  destruct (div_gives X Y m NC sX sY FX FY DY) as (_ & _ & G). destruct (div_gives X2 Y2 m NC2 sX2 sY2 FX2 FY2 DY2) as (_ & _ & G2).
  assert (P := bpow_gt_0 radix2 (-1022)). fold min_normal in P.
  assert (Q1 : rnd mode_DN (1 / num_val (hi Y2)) <= rnd mode_DN (1 / num_val (hi Y))).
  { apply round_le; auto with typeclass_instances. apply inv_anti; [|assumption]. destruct DY, DY2; lra. }
  assert (Q2 : rnd mode_UP (1 / num_val (lo Y)) <= rnd mode_UP (1 / num_val (lo Y2))).
  { apply round_le; auto with typeclass_instances. apply inv_anti; [|assumption]. destruct DY, DY2; lra. }
  eapply inside_of; [exact G | exact G2 | apply xtz_mono; now apply klo_mono | apply xaz_mono; now apply khi_mono].
Qed.

(** A classical interval inside a proper interval of the Kaucher class. *)
Lemma kaucher_isotonic_refuted : exists X X0 X1 X2 Y m Z Z2,
  kd X = Classical /\ well_kinded X /\ fin_double_itv X /\ kd X0 = Kaucher /\ well_kinded X0 /\ kd X1 = Classical /\ well_kinded X1 /\
  returns (py_add (OItv X0) (OItv X1)) m X2 /\ fin_double_itv X2 /\ kd Y = Classical /\ well_kinded Y /\ fin_double_itv Y /\ inside X X2 /\
  returns (py_mul (OItv X) (OItv Y)) m Z /\ returns (py_mul (OItv X2) (OItv Y)) m Z2 /\ ~ inside Z Z2.
Proof.
  set (e := fl 4503599627370497 (-52)).
  set (X := mkitv Classical (PFlt (fneg e)) (PFlt f1)). set (X0 := ival Kaucher 0 (-1)). set (X1 := mkitv Classical (PFlt (fneg e)) (PFlt (fl 2 0))).
  set (Y := mkitv Classical (PFlt e) (PFlt e)).
  assert (T : match outcome (py_add (OItv X0) (OItv X1)) mode_NE with
    | Ok X2 => match lo X2, hi X2 with PFlt p, PFlt q => is_finite p && is_finite q | _, _ => false end && num_le (lo X2) (lo X) && num_le (hi X) (hi X2) &&
        match outcome (py_mul (OItv X) (OItv Y)) mode_NE, outcome (py_mul (OItv X2) (OItv Y)) mode_NE with
        | Ok Z, Ok Z2 => negb (num_le (lo Z2) (lo Z)) | _, _ => false end
    | Err _ => false end = true) by (vm_compute; reflexivity).
  destruct (outcome (py_add (OItv X0) (OItv X1)) mode_NE) as [X2|] eqn:E2; [|discriminate].
  destruct (outcome (py_mul (OItv X) (OItv Y)) mode_NE) as [Z|] eqn:EZ; [|rewrite andb_false_r in T; discriminate].
  destruct (outcome (py_mul (OItv X2) (OItv Y)) mode_NE) as [Z2|] eqn:EZ2; [|rewrite andb_false_r in T; discriminate].
  apply andb_prop in T. destruct T as [T T4]. apply andb_prop in T. destruct T as [T T3]. apply andb_prop in T. destruct T as [T1 T2].
  exists X, X0, X1, X2, Y, mode_NE, Z, Z2.
  split; [reflexivity|]. split; [split; [intros _; vm_compute; reflexivity | reflexivity]|]. split; [split; reflexivity|].
  split; [reflexivity|]. split; [split; [discriminate | vm_compute; discriminate]|].
  split; [reflexivity|]. split; [split; [intros _; vm_compute; reflexivity | reflexivity]|].
  split; [exact E2|]. split.
  { unfold fin_double_itv, fin_double. destruct (lo X2), (hi X2); try discriminate. now apply andb_prop in T1. }
  split; [reflexivity|]. split; [split; [intros _; vm_compute; reflexivity | reflexivity]|]. split; [split; reflexivity|].
  split; [now split|]. split; [exact EZ|]. split; [exact EZ2|]. intros [H _]. rewrite H in T4. discriminate.
Qed.
