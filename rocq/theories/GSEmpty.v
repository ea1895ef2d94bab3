(** Gauss_Seidel: on data of moderate size an empty intersection proves that the
    box holds no solution. *)
From Coq Require Import ZArith Reals List Bool Arith Lia Lra Psatz.
From Flocq Require Import Core IEEE754.BinarySingleNaN.
From Verif Require Import Base PyNum Kernel Spec Expr XReal XArith KernelProofs ExprProofs KernelAlg KernelMore Witness Arrays Construct SpecArray ArrayProofs ArrayMore ArrayMat ConstructProofs ConstructMore ConstructUtil Solvers SpecSolvers SolversProofs GSProofs SolversRefute NewtonProofs NewtonVerify.
Import ListNotations.
Open Scope R_scope.

(** ** Computations that do not raise a given exception *)
Definition never {A} (e : exn) (c : M A) (m : rmode) : Prop := outcome c m <> Err e.
Lemma never_bind {A B} e (c : M A) (k : A -> M B) m : keeps_mode c -> never e c m -> (forall a, returns c m a -> never e (k a) m) -> never e (mbind c k) m.
Proof.
  unfold never, returns, outcome, mbind. intros K N H. specialize (K m). destruct (c m) as [[a|x] m1]; cbn [fst snd] in *.
  - subst m1. apply H. reflexivity.
  - congruence.
Qed.
Lemma never_ok {A} e (c : M A) m a : returns c m a -> never e c m.
Proof. unfold returns, never. congruence. Qed.
Lemma never_mapM {A B} e (f : A -> M B) m l : (forall x, keeps_mode (f x)) -> (forall x, In x l -> never e (f x) m) -> never e (mapM f l) m.
Proof.
  intro K. induction l as [|x l IH]; intro H; cbn [mapM]; [now apply (never_ok e _ m [])|].
  apply never_bind; [apply K | apply H; now left|]. intros y _. apply never_bind; [now apply keeps_mapM | apply IH; intros; apply H; now right|]. intros ys _. now apply (never_ok e _ m (y :: ys)).
Qed.

(** ** Intervals within a bound *)
Definition within (B : R) (X : itv) : Prop := good X /\ exists a b, xval (lo X) = XFin a /\ xval (hi X) = XFin b /\ Rabs a <= B /\ Rabs b <= B.
Definition fmt (B : R) : Prop := generic_format radix2 fexp B /\ B <= bpow radix2 1023.
Lemma fmt_int k e : (0 <= k < 2 ^ 53)%Z -> (-1000 <= e <= 970)%Z -> fmt (IZR k * bpow radix2 e).
Proof.
  intros K E. split.
  - apply generic_format_FLT. assert (F : FLT_format radix2 (-1074) 53 (IZR k * bpow radix2 e)); [|exact F].
    exists (Float radix2 k e); [reflexivity | cbn [Fnum]; change (Z.abs k < 2 ^ 53)%Z; lia | cbn [Fexp]; lia].
  - apply Rle_trans with (bpow radix2 53 * bpow radix2 e).
    + apply Rmult_le_compat_r; [apply bpow_ge_0|]. change (bpow radix2 53) with (IZR (2 ^ 53)). apply IZR_le. lia.
    + rewrite <- bpow_plus. apply bpow_le. lia.
Qed.
Lemma xround_fmt mo r B : fmt B -> Rabs r <= B -> exists v, xround mo r = XFin v /\ Rabs v <= B.
Proof.
  intros [G L] H. assert (V : Rabs (rnd mo r) <= B) by (apply abs_round_le_generic; auto with typeclass_instances).
  exists (rnd mo r). split; [|exact V]. unfold xround. rewrite Rlt_bool_true; [reflexivity|]. apply Rle_lt_trans with (1 := V). apply Rle_lt_trans with (1 := L). apply bpow_lt. lia.
Qed.
Lemma within_le B C X : B <= C -> within B X -> within C X.
Proof. intros H (G & a & b & E1 & E2 & A & D). split; [exact G|]. exists a, b. repeat split; auto; lra. Qed.
Lemma within_member B X r : within B X -> member X r -> Rabs r <= B.
Proof.
  intros (_ & a & b & E1 & E2 & A & D) H. apply member_x in H. rewrite E1, E2 in H. simpl in H. apply Rabs_le_inv in A, D. apply Rabs_le. lra.
Qed.
Lemma within_sub B X P x : within B X -> kept X x P -> within B P.
Proof.
  intros WX (GP & Mx & S). split; [exact GP|].
  assert (BB : forall r, member P r -> Rabs r <= B) by (intros; apply (within_member B X); auto).
  assert (My := Mx). apply member_x in My. destruct My as [Ma Mb].
  assert (A : exists a, xval (lo P) = XFin a /\ a <= x).
  { destruct (xval (lo P)) as [| | |a] eqn:E; simpl in Ma; try contradiction; [|eauto].
    exfalso. assert (M1 : member P (Rmin x (- B - 1))).
    { apply member_x. rewrite E. split; [exact I|]. destruct (xval (hi P)); simpl in *; auto. apply Rle_trans with x; [apply Rmin_l | assumption]. }
    apply BB in M1. apply Rabs_le_inv in M1. assert (T := Rmin_r x (- B - 1)). lra. }
  assert (C : exists b, xval (hi P) = XFin b /\ x <= b).
  { destruct (xval (hi P)) as [| | |b] eqn:E; simpl in Mb; try contradiction; [|eauto].
    exfalso. assert (M1 : member P (Rmax x (B + 1))).
    { apply member_x. rewrite E. split; [|exact I]. destruct (xval (lo P)); simpl in *; auto. apply Rle_trans with x; [assumption | apply Rmax_l]. }
    apply BB in M1. apply Rabs_le_inv in M1. assert (T := Rmax_r x (B + 1)). lra. }
  destruct A as (a & Ha & Ax), C as (b & Hb & Bx). exists a, b. split; [exact Ha|]. split; [exact Hb|].
  split; apply BB, member_x; rewrite Ha, Hb; simpl; lra.
Qed.

Lemma add_within B C X Y m : fmt (B + C) -> within B X -> within C Y ->
  exists Z, returns (py_add (OItv X) (OItv Y)) m Z /\ within (B + C) Z.
Proof.
  intros F (GX & a & b & E1 & E2 & A1 & A2) (GY & c & d & E3 & E4 & A3 & A4).
  destruct (gives_returns _ _ _ _ _ (add_gives X Y m (proj1 (proj2 GX)) (proj1 (proj2 GY)))) as (Z & HZ & _ & Zl & Zh & _). exists Z. split; [exact HZ|].
  destruct (py_op_itv OpAdd X Y m Z GX GY HZ) as (kZ & sZ & W). split; [exact (good_of_wsound2 _ _ _ _ GX GY kZ sZ W)|].
  rewrite E1, E3 in Zl. rewrite E2, E4 in Zh. cbn [xadd] in Zl, Zh.
  apply Rabs_le_inv in A1, A2, A3, A4.
  destruct (xround_fmt mode_DN (a + c) _ F) as (v1 & X1 & V1); [apply Rabs_le; lra|]. destruct (xround_fmt mode_UP (b + d) _ F) as (v2 & X2 & V2); [apply Rabs_le; lra|].
  exists v1, v2. rewrite Zl, Zh, X1, X2. auto.
Qed.
Lemma sub_within B C X Y m : fmt (B + C) -> within B X -> within C Y ->
  exists Z, returns (py_sub (OItv X) (OItv Y)) m Z /\ within (B + C) Z.
Proof.
  intros F (GX & a & b & E1 & E2 & A1 & A2) (GY & c & d & E3 & E4 & A3 & A4).
  destruct (gives_returns _ _ _ _ _ (sub_gives X Y m (proj1 (proj2 GX)) (proj1 (proj2 GY)))) as (Z & HZ & _ & Zl & Zh & _). exists Z. split; [exact HZ|].
  destruct (py_op_itv OpSub X Y m Z GX GY HZ) as (kZ & sZ & W). split; [exact (good_of_wsound2 _ _ _ _ GX GY kZ sZ W)|].
  rewrite E1, E4 in Zl. rewrite E2, E3 in Zh. unfold xsub in Zl, Zh. cbn [xopp xadd] in Zl, Zh.
  apply Rabs_le_inv in A1, A2, A3, A4.
  destruct (xround_fmt mode_DN (a + - d) _ F) as (v1 & X1 & V1); [apply Rabs_le; lra|]. destruct (xround_fmt mode_UP (b + - c) _ F) as (v2 & X2 & V2); [apply Rabs_le; lra|].
  exists v1, v2. rewrite Zl, Zh, X1, X2. auto.
Qed.
(** X - 0 and 0 + X *)
Lemma sub0_within B X m : fmt B -> within B X -> exists Z, returns (py_sub (OItv X) (ONum (PInt 0))) m Z /\ within B Z.
Proof.
  intros F (GX & a & b & E1 & E2 & A1 & A2).
  destruct (gives_returns _ _ _ _ _ (radd_gives X (PInt 0) m (proj1 (proj2 GX)) ltac:(simpl; lia))) as (Z & HZ & _ & Zl & Zh & _). exists Z. split; [exact HZ|].
  destruct (py_op_num_r OpSub X (PInt 0) m Z ltac:(discriminate) GX ltac:(simpl; lia) I HZ) as (kZ & sZ & W). split; [exact (good_of_wsound1 _ _ _ GX kZ sZ W)|].
  rewrite E1 in Zl. rewrite E2 in Zh. change (xval (PInt 0)) with (XFin 0) in Zl, Zh. cbn [xadd] in Zl, Zh.
  destruct (xround_fmt mode_DN (a + 0) _ F) as (v1 & X1 & V1); [now replace (a + 0) with a by ring|]. destruct (xround_fmt mode_UP (b + 0) _ F) as (v2 & X2 & V2); [now replace (b + 0) with b by ring|].
  exists v1, v2. rewrite Zl, Zh, X1, X2. auto.
Qed.
Lemma radd0_within B X m : fmt B -> within B X -> exists Z, returns (py_add (ONum (PInt 0)) (OItv X)) m Z /\ within B Z.
Proof.
  intros F (GX & a & b & E1 & E2 & A1 & A2).
  destruct (gives_returns _ _ _ _ _ (radd_gives X (PInt 0) m (proj1 (proj2 GX)) ltac:(simpl; lia))) as (Z & HZ & _ & Zl & Zh & _). exists Z. split; [exact HZ|].
  destruct (py_op_num_l OpAdd X (PInt 0) m Z GX ltac:(simpl; lia) I HZ) as (kZ & sZ & W). split; [exact (good_of_wsound1 _ _ _ GX kZ sZ W)|].
  rewrite E1 in Zl. rewrite E2 in Zh. change (xval (PInt 0)) with (XFin 0) in Zl, Zh. cbn [xadd] in Zl, Zh.
  destruct (xround_fmt mode_DN (a + 0) _ F) as (v1 & X1 & V1); [now replace (a + 0) with a by ring|]. destruct (xround_fmt mode_UP (b + 0) _ F) as (v2 & X2 & V2); [now replace (b + 0) with b by ring|].
  exists v1, v2. rewrite Zl, Zh, X1, X2. auto.
Qed.
Lemma prod_le a b B C : Rabs a <= B -> Rabs b <= C -> Rabs (a * b) <= B * C.
Proof. intros. rewrite Rabs_mult. apply Rmult_le_compat; auto using Rabs_pos. Qed.
Lemma rmul_within B C c X m : fmt (B * C) -> small_num c -> finite_num c -> Rabs (num_val c) <= B -> within C X ->
  exists Z, returns (py_mul (ONum c) (OItv X)) m Z /\ within (B * C) Z.
Proof.
  intros F Sc Fc Bc (GX & a & b & E1 & E2 & A1 & A2). assert (GX' := GX). destruct GX' as (kX & sX & _).
  destruct (gives_returns _ _ _ _ _ (rmul_gives X c m sX Sc kX)) as (Z & HZ & _ & Zl & Zh & _). exists Z. split; [exact HZ|].
  destruct (py_op_num_l OpMul X c m Z GX Sc Fc HZ) as (kZ & sZ & W). split; [exact (good_of_wsound1 _ _ _ GX kZ sZ W)|].
  destruct (finite_x c Fc) as (rc & Ec & Vc). rewrite Vc in Bc. rewrite E1, E2, Ec in Zl, Zh. cbn [xmul] in Zl, Zh.
  destruct (xround_fmt mode_DN (rc * a) _ F (prod_le _ _ _ _ Bc A1)) as (v1 & X1 & V1). destruct (xround_fmt mode_DN (rc * b) _ F (prod_le _ _ _ _ Bc A2)) as (v2 & X2 & V2).
  destruct (xround_fmt mode_UP (rc * a) _ F (prod_le _ _ _ _ Bc A1)) as (v3 & X3 & V3). destruct (xround_fmt mode_UP (rc * b) _ F (prod_le _ _ _ _ Bc A2)) as (v4 & X4 & V4).
  rewrite Zl, Zh, X1, X2, X3, X4. unfold xmin2, xmax2. destruct (xltb (XFin v2) (XFin v1)), (xltb (XFin v3) (XFin v4)); eauto 8.
Qed.
Lemma mul_within B C X Y m : fmt (B * C) -> within B X -> within C Y ->
  exists Z, returns (py_mul (OItv X) (OItv Y)) m Z /\ within (B * C) Z.
Proof.
  intros F (GX & a & b & E1 & E2 & A1 & A2) (GY & c & d & E3 & E4 & A3 & A4). assert (GX' := GX). assert (GY' := GY). destruct GX' as (kX & sX & _), GY' as (kY & sY & _).
  destruct (gives_returns _ _ _ _ _ (mul_gives X Y m sX sY kX kY)) as (Z & HZ & _ & Zl & Zh & _). exists Z. split; [exact HZ|].
  destruct (py_op_itv OpMul X Y m Z GX GY HZ) as (kZ & sZ & W). split; [exact (good_of_wsound2 _ _ _ _ GX GY kZ sZ W)|].
  rewrite E1, E2, E3, E4 in Zl, Zh. unfold xmul_lo in Zl. unfold xmul_hi in Zh. cbn [xmul] in Zl, Zh.
  assert (P : forall mo, exists v1 v2 v3 v4, xround mo (a * c) = XFin v1 /\ xround mo (a * d) = XFin v2 /\ xround mo (b * c) = XFin v3 /\ xround mo (b * d) = XFin v4 /\
    Rabs v1 <= B * C /\ Rabs v2 <= B * C /\ Rabs v3 <= B * C /\ Rabs v4 <= B * C).
  { intro mo. destruct (xround_fmt mo _ _ F (prod_le _ _ _ _ A1 A3)) as (v1 & X1 & V1). destruct (xround_fmt mo _ _ F (prod_le _ _ _ _ A1 A4)) as (v2 & X2 & V2).
    destruct (xround_fmt mo _ _ F (prod_le _ _ _ _ A2 A3)) as (v3 & X3 & V3). destruct (xround_fmt mo _ _ F (prod_le _ _ _ _ A2 A4)) as (v4 & X4 & V4).
    exists v1, v2, v3, v4. auto 10. }
  destruct (P mode_DN) as (p1 & p2 & p3 & p4 & Q1 & Q2 & Q3 & Q4 & R1 & R2 & R3 & R4). rewrite Q1, Q2, Q3, Q4 in Zl.
  destruct (P mode_UP) as (s1 & s2 & s3 & s4 & T1 & T2 & T3 & T4 & U1 & U2 & U3 & U4). rewrite T1, T2, T3, T4 in Zh.
  assert (L : exists v, xval (lo Z) = XFin v /\ Rabs v <= B * C).
  { rewrite Zl. destruct (xmin4_in (XFin p1) (XFin p2) (XFin p3) (XFin p4)) as [E|[E|[E|[E|[]]]]]; rewrite <- E; eauto. }
  assert (H : exists v, xval (hi Z) = XFin v /\ Rabs v <= B * C).
  { rewrite Zh. destruct (xmax4_in (XFin s1) (XFin s2) (XFin s3) (XFin s4)) as [E|[E|[E|[E|[]]]]]; rewrite <- E; eauto. }
  destruct L as (v & L1 & L2), H as (w & H1 & H2). exists v, w. auto.
Qed.
(** A finite interval divided by one without zero: never NaN. *)
Lemma div_member B C X Y m Z q y : within B X -> within C Y -> returns (py_div (OItv X) (OItv Y)) m Z -> member X (q * y) -> member Y y -> good Z /\ member Z q.
Proof.
  intros (GX & a & b & E1 & E2 & _) (GY & c & d & E3 & E4 & _) HZ MX MY.
  assert (E := enc_div X Y m Z q y (conj GX (or_intror MX)) (conj GY (or_intror MY)) HZ). split; [exact (proj1 E)|]. apply enc_member; [exact E|].
  assert (OY := good_ordered Y GY). destruct GX as (kX & sX & _), GY as (kY & sY & _).
  assert (C0 : contains_num Y pn0 = false).
  { destruct (contains_num Y pn0) eqn:T; [|reflexivity]. unfold returns, outcome in HZ. cbv [py_div] in HZ. rewrite (div_raises X Y m T) in HZ. discriminate. }
  destruct (zero_ends Y C0 OY) as [N1 _]. rewrite E3 in N1.
  destruct (gives_ends _ _ _ _ _ Z (div_gives X Y m sX sY kX kY C0 OY) HZ) as [G1 _].
  apply nan_lo. rewrite G1. unfold xdiv_lo. apply xmin4_nnan. rewrite E3. apply xdiv_nnan; [rewrite E1; discriminate | congruence].
Qed.

(** ** Sums *)
Section Sums.
Variables (B : R) (m : rmode).
Lemma sum_from_within l : forall acc k, 0 <= B -> (forall j, (j <= k + length l)%nat -> fmt (INR j * B)) -> within (INR k * B) acc -> Forall (within B) l ->
  exists s, returns (sum_from acc l) m s /\ within (INR (k + length l) * B) s.
Proof.
  induction l as [|e l IH]; intros acc k HB F Wa Wl; cbn [sum_from].
  - exists acc. split; [reflexivity|]. now rewrite Nat.add_0_r.
  - inversion Wl as [|? ? We Wl']; subst. cbn [length] in F.
    assert (F1 : fmt (INR k * B + B)) by (replace (INR k * B + B) with (INR (S k) * B) by (rewrite S_INR; ring); apply F; lia).
    destruct (add_within _ _ acc e m F1 Wa We) as (s & Hs & Ws). replace (INR k * B + B) with (INR (S k) * B) in Ws by (rewrite S_INR; ring).
    destruct (IH s (S k) HB ltac:(intros; apply F; lia) Ws Wl') as (s' & Hs' & Ws'). exists s'. split.
    + apply keeps_returns; [apply (keeps_py_op OpAdd)|]. eauto.
    + cbn [length]. now replace (k + S (length l))%nat with (S k + length l)%nat by lia.
Qed.
Lemma py_sum_within l : 0 <= B -> (forall j, (j <= length l)%nat -> fmt (INR j * B)) -> Forall (within B) l ->
  exists s, returns (py_sum l) m s /\ (s = ONum (PInt 0) \/ exists S, s = OItv S /\ within (INR (length l) * B) S).
Proof.
  intros HB F Wl. destruct l as [|e l]; cbn [py_sum].
  - exists (ONum (PInt 0)). split; [reflexivity | now left].
  - inversion Wl as [|? ? We Wl']; subst. assert (F1 : fmt B) by (replace B with (INR 1 * B) by (simpl; ring); apply F; simpl; lia).
    destruct (radd0_within B e m F1 We) as (a & Ha & Wa). replace B with (INR 1 * B) in Wa by (simpl; ring).
    destruct (sum_from_within l a 1 HB F Wa Wl') as (s & Hs & Ws). exists (OItv s). split; [|right; exists s; split; [reflexivity | exact Ws]].
    apply keeps_returns; [apply (keeps_py_op OpAdd)|]. exists a. split; [exact Ha|]. apply keeps_returns; [apply keeps_sum_from|]. exists s. split; [exact Hs | reflexivity].
Qed.
End Sums.
Lemma sub_sum_within B C X l m : 0 <= B -> 0 <= C -> (forall j, (j <= length l)%nat -> fmt (INR j * C)) -> fmt B -> fmt (B + INR (length l) * C) ->
  within B X -> Forall (within C) l -> exists s, returns (py_sum l) m s /\ exists Z, returns (py_sub (OItv X) s) m Z /\ within (B + INR (length l) * C) Z.
Proof.
  intros HB HC F F1 F2 WX Wl. destruct (py_sum_within C m l HC F Wl) as (s & Hs & [-> | (S & -> & WS)]).
  - exists (ONum (PInt 0)). split; [exact Hs|]. destruct (sub0_within B X m F1 WX) as (Z & HZ & WZ). exists Z. split; [exact HZ|].
    apply within_le with B; [|exact WZ]. assert (0 <= INR (length l) * C) by (apply Rmult_le_pos; [apply pos_INR | exact HC]). lra.
  - exists (OItv S). split; [exact Hs|]. exact (sub_within B _ X S m F2 WX WS).
Qed.
Lemma prods_within B C (A X : nat -> itv) m l : fmt (B * C) -> (forall k, In k l -> within B (A k)) -> (forall k, In k l -> within C (X k)) ->
  exists ps, returns (mapM (fun k => py_mul (OItv (A k)) (OItv (X k))) l) m ps /\ Forall (within (B * C)) ps /\ length ps = length l.
Proof.
  intro F. induction l as [|k l IH]; intros HA HX; cbn [mapM]; [exists []; split; [reflexivity|]; split; [constructor | reflexivity]|].
  destruct (mul_within B C (A k) (X k) m F (HA k (or_introl eq_refl)) (HX k (or_introl eq_refl))) as (p & Hp & Wp).
  destruct IH as (ps & Hps & Wps & L); [intros; apply HA; now right | intros; apply HX; now right|].
  exists (p :: ps). split; [|split; [now constructor | cbn [length]; now rewrite L]].
  apply keeps_returns; [apply (keeps_py_op OpMul)|]. exists p. split; [exact Hp|]. apply keeps_returns; [apply keeps_mapM; intro; apply (keeps_py_op OpMul)|]. exists ps. split; [exact Hps | reflexivity].
Qed.
(** One entry of C @ A. *)
Lemma dot_from_within B C m l : 0 <= B -> 0 <= C -> forall acc k, (forall j, (j <= k + length l)%nat -> fmt (INR j * (B * C))) -> within (INR k * (B * C)) acc ->
  Forall (fun p => exists c X, p = (ONum c, OItv X) /\ small_num c /\ finite_num c /\ Rabs (num_val c) <= B /\ within C X) l ->
  exists W, returns (dot_from (OItv acc) l) m (OItv W) /\ within (INR (k + length l) * (B * C)) W.
Proof.
  intros HB HC. induction l as [|p l IH]; intros acc k F Wa Wl; cbn [dot_from].
  - exists acc. split; [reflexivity|]. now rewrite Nat.add_0_r.
  - inversion Wl as [|? ? (c & X & -> & Sc & Fc & Bc & WX) Wl']; subst. cbn [length] in F.
    assert (F0 : fmt (B * C)) by (replace (B * C) with (INR 1 * (B * C)) by (simpl; ring); apply F; lia).
    destruct (rmul_within B C c X m F0 Sc Fc Bc WX) as (P & HP & WP).
    assert (F1 : fmt (INR k * (B * C) + B * C)) by (replace (INR k * (B * C) + B * C) with (INR (S k) * (B * C)) by (rewrite S_INR; ring); apply F; lia).
    destruct (add_within _ _ acc P m F1 Wa WP) as (s & Hs & Ws). replace (INR k * (B * C) + B * C) with (INR (S k) * (B * C)) in Ws by (rewrite S_INR; ring).
    destruct (IH s (S k) ltac:(intros; apply F; lia) Ws Wl') as (s' & Hs' & Ws'). exists s'. split.
    + apply keeps_returns; [apply keeps_omul|]. exists (OItv P). split; [apply keeps_returns; [apply (keeps_py_op OpMul)|]; exists P; split; [exact HP | reflexivity]|].
      apply keeps_returns; [apply keeps_oadd|]. exists (OItv s). split; [apply keeps_returns; [apply (keeps_py_op OpAdd)|]; exists s; split; [exact Hs | reflexivity] | exact Hs'].
    + cbn [length]. now replace (k + S (length l))%nat with (S k + length l)%nat by lia.
Qed.
Lemma mat_entry_within B C n c V m : 0 <= B -> 0 <= C -> (0 < n)%nat -> (forall j, (j <= n)%nat -> fmt (INR j * (B * C))) ->
  (forall k, (k < n)%nat -> num_ok (c k) /\ Rabs (num_val (c k)) <= B) -> (forall k, (k < n)%nat -> within C (V k)) ->
  exists Z, returns (mat_entry n c V) m Z /\ within (INR n * (B * C)) Z.
Proof.
  intros HB HC Hn F Hc HV. unfold mat_entry, dot. destruct n as [|n]; [lia|]. cbn [seq map].
  assert (F0 : fmt (B * C)) by (replace (B * C) with (INR 1 * (B * C)) by (simpl; ring); apply F; lia).
  destruct (Hc 0%nat ltac:(lia)) as [[S0 F00] B0].
  destruct (rmul_within B C (c 0%nat) (V 0%nat) m F0 S0 F00 B0 (HV 0%nat ltac:(lia))) as (P & HP & WP). replace (B * C) with (INR 1 * (B * C)) in WP by (simpl; ring).
  destruct (dot_from_within B C m (map (fun k => (ONum (c k), OItv (V k))) (seq 1 n)) HB HC P 1) as (W & HW & WW).
  - rewrite map_length, seq_length. exact F.
  - exact WP.
  - apply Forall_forall. intros p Hp. apply in_map_iff in Hp. destruct Hp as (k & <- & Hk). apply in_seq in Hk. destruct (Hc k ltac:(lia)) as [[Sk Fk] Bk].
    exists (c k), (V k). auto 8 using (HV k ltac:(lia)).
  - rewrite map_length, seq_length in WW. exists W. split; [|exact WW].
    apply keeps_returns; [apply keeps_bind; [apply keeps_omul | intro; apply keeps_dot_from]|]. exists (OItv W). split; [|reflexivity].
    apply keeps_returns; [apply keeps_omul|]. exists (OItv P). split; [apply keeps_returns; [apply (keeps_py_op OpMul)|]; exists P; split; [exact HP | reflexivity] | exact HW].
Qed.

(** ** The iteration *)
Lemma within_enc_member B X r : within B X -> enc X r -> member X r.
Proof. intros (_ & a & b & E1 & _) E. apply enc_member; [exact E|]. apply nan_lo. rewrite E1. discriminate. Qed.
Lemma div_never B C X Y m : within B X -> within C Y -> never GenericException (py_div (OItv X) (OItv Y)) m.
Proof.
  intros (GX & _) (GY & _). assert (OY := good_ordered Y GY). destruct GX as (kX & sX & _), GY as (kY & sY & _).
  destruct (contains_num Y pn0) eqn:C0.
  - unfold never, outcome. cbv [py_div]. rewrite (div_raises X Y m C0). discriminate.
  - destruct (gives_returns _ _ _ _ _ (div_gives X Y m sX sY kX kY C0 OY)) as (Z & HZ & _). exact (never_ok _ _ m Z HZ).
Qed.
Section Loop.
Variables (dist : nat -> ivec -> ivec -> pynum) (n : nat) (A : imat) (b B : ivec) (m : rmode) (Mr : nat -> nat -> R) (v x : nat -> R) (Ba Bx : R).
Hypothesis HBa : 0 <= Ba.
Hypothesis HBx : 0 <= Bx.
Hypothesis FC : forall j, (j <= 2 * n + 1)%nat -> fmt (INR j * (Ba * Bx)).
Hypothesis HA : forall i l, (i < n)%nat -> (l < n)%nat -> within Ba (A i l) /\ member (A i l) (Mr i l).
Hypothesis Hb : forall i, (i < n)%nat -> within (Ba * Bx) (b i) /\ member (b i) (v i).
Hypothesis He : forall i, (i < n)%nat -> sumR (map (fun l => Mr i l * x l) (seq 0 n)) = v i.
Hypothesis HB : forall i, (i < n)%nat -> within Bx (B i).

Lemma gs_bar_total k X P : (k < n)%nat -> (forall l, (l < k)%nat -> kept (B l) (x l) (X l)) -> (forall l, (l < n)%nat -> kept (B l) (x l) (P l)) ->
  never GenericException (gs_bar n k A b X P) m /\ forall bar, returns (gs_bar n k A b X P) m bar -> good bar /\ member bar (x k).
Proof.
  intros Hk HX HP. set (C0 := Ba * Bx) in *. assert (HC : 0 <= C0) by (apply Rmult_le_pos; assumption).
  assert (F0 : fmt C0) by (replace C0 with (INR 1 * C0) by (simpl; ring); apply FC; lia).
  assert (WX : forall l, (l < k)%nat -> within Bx (X l)) by (intros l Hl; apply (within_sub Bx (B l) (X l) (x l)); [apply HB; lia | auto]).
  assert (WP : forall l, (l < n)%nat -> within Bx (P l)) by (intros l Hl; apply (within_sub Bx (B l) (P l) (x l)); [apply HB; lia | auto]).
  destruct (prods_within Ba Bx (A k) X m (seq 0 k) F0) as (p1 & Hp1 & W1 & L1).
  { intros l Hl. apply in_seq in Hl. apply HA; lia. } { intros l Hl. apply in_seq in Hl. apply WX. lia. }
  destruct (prods_within Ba Bx (A k) P m (seq (S k) (n - S k)) F0) as (p2 & Hp2 & W2 & L2).
  { intros l Hl. apply in_seq in Hl. apply HA; lia. } { intros l Hl. apply in_seq in Hl. apply WP. lia. }
  rewrite seq_length in L1, L2. fold C0 in W1, W2.
  destruct (sub_sum_within C0 C0 (b k) p1 m HC HC) as (s1 & Hs1 & d1 & Hd1 & WD1).
  { rewrite L1. intros. apply FC. lia. } { exact F0. } { rewrite L1. replace (C0 + INR k * C0) with (INR (S k) * C0) by (rewrite S_INR; ring). apply FC. lia. } { apply Hb. lia. } { exact W1. }
  rewrite L1 in WD1. replace (C0 + INR k * C0) with (INR (S k) * C0) in WD1 by (rewrite S_INR; ring).
  assert (J2 : INR (S k) * C0 + INR (n - S k) * C0 = INR n * C0) by (rewrite <- Rmult_plus_distr_r, <- plus_INR; now replace (S k + (n - S k))%nat with n by lia).
  destruct (sub_sum_within (INR (S k) * C0) C0 d1 p2 m) as (s2 & Hs2 & d2 & Hd2 & WD2).
  { apply Rmult_le_pos; [apply pos_INR | exact HC]. } { exact HC. } { rewrite L2. intros. apply FC. lia. } { apply FC. lia. } { rewrite L2, J2. apply FC. lia. } { exact WD1. } { exact W2. }
  rewrite L2, J2 in WD2.
  assert (EA : forall l, (l < n)%nat -> enc (A k l) (Mr k l)) by (intros l Hl; destruct (HA k l Hk Hl) as [[G _] M1]; split; [exact G | now right]).
  assert (M2 : member d2 (x k * Mr k k)).
  { assert (Eb : enc (b k) (v k)) by (destruct (Hb k Hk) as [[G _] M1]; split; [exact G | now right]).
    assert (E1 := prods_enc (A k) X (Mr k) x m (seq 0 k) p1 ltac:(intros l Hl; apply in_seq in Hl; apply EA; lia) ltac:(intros l Hl; apply in_seq in Hl; destruct (HX l ltac:(lia)) as (G & M1 & _); split; [exact G | now right]) Hp1).
    assert (E2 := prods_enc (A k) P (Mr k) x m (seq (S k) (n - S k)) p2 ltac:(intros l Hl; apply in_seq in Hl; apply EA; lia) ltac:(intros l Hl; apply in_seq in Hl; destruct (HP l ltac:(lia)) as (G & M1 & _); split; [exact G | now right]) Hp2).
    assert (D1 := enc_sub_op _ _ m d1 _ _ Eb (py_sum_enc _ _ m s1 E1 Hs1) Hd1).
    assert (D2 := enc_sub_op _ _ m d2 _ _ D1 (py_sum_enc _ _ m s2 E2 Hs2) Hd2).
    apply (within_enc_member _ _ _ WD2). rewrite <- (He k Hk), (sumR_split n k _ Hk) in D2. cbv beta in D2.
    match type of D2 with enc _ ?t => replace (x k * Mr k k) with t by ring end. exact D2. }
  assert (EQ : outcome (gs_bar n k A b X P) m = outcome (py_div (OItv d2) (OItv (A k k))) m).
  { unfold returns, outcome, gs_bar, mbind in *.
    assert (K1 := keeps_mapM (fun l => py_mul (OItv (A k l)) (OItv (X l))) (seq 0 k) (fun l => keeps_py_op OpMul (OItv (A k l)) (OItv (X l))) m).
    assert (K2 := keeps_py_sum p1 m). assert (K3 := keeps_py_op OpSub (OItv (b k)) s1 m). cbn [py_op] in K3.
    assert (K4 := keeps_mapM (fun l => py_mul (OItv (A k l)) (OItv (P l))) (seq (S k) (n - S k)) (fun l => keeps_py_op OpMul (OItv (A k l)) (OItv (P l))) m).
    assert (K5 := keeps_py_sum p2 m). assert (K6 := keeps_py_op OpSub (OItv d1) s2 m). cbn [py_op] in K6.
    destruct (mapM (fun l => py_mul (OItv (A k l)) (OItv (X l))) (seq 0 k) m) as [r1 m1]. cbn [fst snd] in *. subst r1 m1.
    destruct (py_sum p1 m) as [r1 m1]. cbn [fst snd] in *. subst r1 m1.
    destruct (py_sub (OItv (b k)) s1 m) as [r1 m1]. cbn [fst snd] in *. subst r1 m1.
    destruct (mapM (fun l => py_mul (OItv (A k l)) (OItv (P l))) (seq (S k) (n - S k)) m) as [r1 m1]. cbn [fst snd] in *. subst r1 m1.
    destruct (py_sum p2 m) as [r1 m1]. cbn [fst snd] in *. subst r1 m1.
    destruct (py_sub (OItv d1) s2 m) as [r1 m1]. cbn [fst snd] in *. subst r1 m1. reflexivity. }
  destruct (HA k k Hk Hk) as [WA MA]. split.
  - unfold never. rewrite EQ. exact (div_never _ _ d2 (A k k) m WD2 WA).
  - intros bar Hbar. unfold returns in Hbar. rewrite EQ in Hbar. exact (div_member _ _ d2 (A k k) m bar (x k) (Mr k k) WD2 WA Hbar M2 MA).
Qed.
Lemma gs_sweep_never P : (forall i, (i < n)%nat -> kept (B i) (x i) (P i)) -> forall c k X, (c + k = n)%nat -> (forall i, (i < k)%nat -> kept (B i) (x i) (X i)) ->
  never GenericException (gs_sweep n c k A b X P) m.
Proof.
  intro HP. induction c as [|c IH]; intros k X Hc HX; cbn [gs_sweep]; [now apply (never_ok _ _ m X)|].
  destruct (gs_bar_total k X P ltac:(lia) HX HP) as [N Hbar].
  apply never_bind; [apply keeps_gs_bar | exact N|]. intros bar Hr. destruct (Hbar bar Hr) as [Gb Mb].
  destruct (HP k ltac:(lia)) as (GP & MP & SP). destruct (intersect_spec (P k) bar m GP Gb) as (z & Hz & _ & C & _).
  apply never_bind; [apply keeps_intersect | exact (never_ok _ _ m z Hz)|]. intros z' Hz'. assert (z' = z) by (unfold returns in *; congruence). subst z'.
  assert (Nz := member_not_nan z (x k) (C (x k) MP Mb)). rewrite Nz.
  destruct (intersect_keep (P k) bar m z (x k) GP MP (conj Gb (or_intror Mb)) Hz Nz) as (Gz & Mz & Sz).
  apply IH; [lia|]. intros i Hi. unfold upd. destruct (Nat.eqb_spec i k) as [->|Ne]; [|apply HX; lia].
  split; [exact Gz|]. split; [exact Mz|]. auto.
Qed.
Lemma gs_loop_never tol : forall fuel d X P, (forall i, (i < n)%nat -> kept (B i) (x i) (P i)) -> never GenericException (gs_loop dist n fuel tol d A b X P) m.
Proof.
  induction fuel as [|f IH]; intros d X P HP; cbn [gs_loop]; destruct (num_le tol d); try (now apply (never_ok _ _ m X)).
  apply never_bind; [apply keeps_gs_sweep | apply gs_sweep_never; [exact HP | lia | intros; lia]|]. intros X' HX'. apply IH.
  refine (gs_sweep_keep n A b B P m Mr v x _ _ He HP n 0 X X' ltac:(lia) ltac:(intros; lia) HX').
  - intros i l Hi Hl. destruct (HA i l Hi Hl) as [[G _] M1]. split; [exact G | now right].
  - intros i Hi. destruct (Hb i Hi) as [[G _] M1]. split; [exact G | now right].
Qed.
End Loop.

Lemma sized_within k X : sized k X -> within (bpow radix2 k) X.
Proof.
  intros (G & [F1 F2] & B1 & B2). split; [exact G|]. destruct (finite_x _ F1) as (a & E1 & V1). destruct (finite_x _ F2) as (b & E2 & V2).
  rewrite V1 in B1. rewrite V2 in B2. eauto 8.
Qed.
Theorem gauss_seidel_excludes dist n A b x0 C hm tol maxiter m : (0 < n)%nat -> (Z.of_nat n <= 2 ^ 20)%Z ->
  (forall i l, (i < n)%nat -> (l < n)%nat -> sized 200 (A i l)) -> (forall i, (i < n)%nat -> sized 200 (b i)) ->
  (forall i, (i < n)%nat -> sized 200 (x0 i)) -> (forall i l, (i < n)%nat -> (l < n)%nat -> num_ok (C i l) /\ Rabs (num_val (C i l)) <= bpow radix2 200) ->
  raises (gauss_seidel dist n A b (Some x0) C hm tol maxiter) m GenericException ->
  forall Mr v x, (forall i l, (i < n)%nat -> (l < n)%nat -> member (A i l) (Mr i l)) -> (forall i, (i < n)%nat -> member (b i) (v i)) ->
    (forall i, (i < n)%nat -> Rsum n (fun l => Mr i l * x l) = v i) -> ~ (forall i, (i < n)%nat -> member (x0 i) (x i)).
Proof.
  intros Hn Hn2 SA Sb S0 HC H Mr v x MA Mb He Mx.
  assert (HI : (INR n <= bpow radix2 20)) by (rewrite INR_IZR_INZ; change (bpow radix2 20) with (IZR (2 ^ 20)); now apply IZR_le).
  assert (P2 := bpow_ge_0 radix2 200). assert (I1 : 1 <= INR n) by (apply (le_INR 1); lia).
  assert (P22 : bpow radix2 200 * bpow radix2 200 = bpow radix2 400) by (rewrite <- bpow_plus; reflexivity).
  assert (FB : forall j, (j <= n)%nat -> fmt (INR j * (bpow radix2 200 * bpow radix2 200))).
  { intros j Hj. rewrite P22, INR_IZR_INZ. apply fmt_int; lia. }
  revert H. change (never GenericException (gauss_seidel dist n A b (Some x0) C hm tol maxiter) m). unfold gauss_seidel.
  assert (RA : forall i l, (i < n)%nat -> (l < n)%nat -> exists Z, returns (mat_entry n (C i) (fun k => A k l)) m Z /\ within (INR n * (bpow radix2 200 * bpow radix2 200)) Z).
  { intros i l Hi Hl. apply mat_entry_within; auto. intros k Hk. apply sized_within. auto. }
  assert (Rb : forall i, (i < n)%nat -> exists Z, returns (mat_entry n (C i) b) m Z /\ within (INR n * (bpow radix2 200 * bpow radix2 200)) Z).
  { intros i Hi. apply mat_entry_within; auto. intros k Hk. apply sized_within. auto. }
  apply never_bind; [apply keeps_tab2; intros; apply keeps_mat_entry| |].
  { unfold tab2. apply never_bind; [apply keeps_mapM; intro; apply keeps_mapM; intro; apply keeps_mat_entry| |].
    - apply never_mapM; [intro; apply keeps_mapM; intro; apply keeps_mat_entry|]. intros i Hi. apply in_seq in Hi.
      apply never_mapM; [intro; apply keeps_mat_entry|]. intros l Hl. apply in_seq in Hl. destruct (RA i l ltac:(lia) ltac:(lia)) as (Z & HZ & _). exact (never_ok _ _ m Z HZ).
    - intros rows _. discriminate. }
  intros A' HA'. apply never_bind; [apply keeps_tab; intros; apply keeps_mat_entry| |].
  { unfold tab. apply never_bind; [apply keeps_mapM; intro; apply keeps_mat_entry| |].
    - apply never_mapM; [intro; apply keeps_mat_entry|]. intros l Hl. apply in_seq in Hl. destruct (Rb l ltac:(lia)) as (Z & HZ & _). exact (never_ok _ _ m Z HZ).
    - intros rows _. discriminate. }
  intros b' Hb'. destruct hm; [|discriminate]. cbv zeta.
  destruct (tab2_spec _ _ _ _ _ _ (fun i l => keeps_mat_entry _ _ _) HA') as [_ EA].
  destruct (tab_spec _ _ _ _ _ _ (fun i => keeps_mat_entry _ _ _) Hb') as [_ EB].
  assert (GA : forall i l, (i < n)%nat -> (l < n)%nat -> good (A i l)) by (intros; now apply SA).
  assert (Gb : forall i, (i < n)%nat -> good (b i)) by (intros; now apply Sb).
  refine (gs_loop_never dist n A' b' x0 m (fun i l => Rsum n (fun k => num_val (C i k) * Mr k l)) (fun i => Rsum n (fun k => num_val (C i k) * v k)) x (INR n * (bpow radix2 200 * bpow radix2 200)) (bpow radix2 200) _ _ _ _ _ _ _ tol _ _ _ _ _).
  - rewrite P22. apply Rmult_le_pos; [lra | apply bpow_ge_0].
  - exact P2.
  - intros j Hj. rewrite P22. replace (INR j * (INR n * bpow radix2 400 * bpow radix2 200)) with (IZR (Z.of_nat j * Z.of_nat n) * bpow radix2 600).
    + apply fmt_int; nia.
    + rewrite mult_IZR, <- !INR_IZR_INZ. replace (bpow radix2 600) with (bpow radix2 400 * bpow radix2 200) by (rewrite <- bpow_plus; reflexivity). ring.
  - intros i l Hi Hl. destruct (RA i l Hi Hl) as (Z & HZ & WZ). assert (HE := EA i l ltac:(lia) ltac:(lia)). assert (Z = A' i l) by (unfold returns in *; congruence). subst Z.
    split; [exact WZ|]. apply (within_enc_member _ _ _ WZ).
    refine (mat_entry_enc n (C i) (fun k => A k l) m _ Hn _ _ HE (fun k => Mr k l) _); intros k Hk; auto. now apply HC.
  - intros i Hi. destruct (Rb i Hi) as (Z & HZ & WZ). assert (HE := EB i ltac:(lia)). assert (Z = b' i) by (unfold returns in *; congruence). subst Z. split.
    + apply within_le with (2 := WZ). rewrite P22. rewrite <- (Rmult_1_r (INR n * bpow radix2 400)) at 1. apply Rmult_le_compat_l; [apply Rmult_le_pos; [lra | apply bpow_ge_0]|]. change 1 with (bpow radix2 0). apply bpow_le. lia.
    + apply (within_enc_member _ _ _ WZ). refine (mat_entry_enc n (C i) b m _ Hn _ _ HE v _); intros k Hk; auto. now apply HC.
  - intros i Hi. rewrite (Rsum_ext n (fun k => num_val (C i k) * v k) (fun k => Rsum n (fun l => num_val (C i k) * Mr k l * x l))).
    + rewrite Rsum_swap.
      rewrite <- (Rsum_sumR n (fun l => Rsum n (fun k => num_val (C i k) * Mr k l) * x l)).
      apply Rsum_ext. intros l Hl. rewrite Rmult_comm, Rsum_scal. apply Rsum_ext. intros. ring.
    + intros k Hk. rewrite <- (He k Hk), Rsum_scal. apply Rsum_ext. intros. ring.
  - intros i Hi. apply sized_within. auto.
  - intros i Hi. split; [now apply S0|]. auto.
Qed.
