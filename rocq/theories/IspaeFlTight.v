(** The value of a row is the range of the additive model up to rounding. *)
From Coq Require Import ZArith Reals List Bool Arith Lia Lra.
From Flocq Require Import Core IEEE754.BinarySingleNaN.
From Verif Require Import Base PyNum Kernel Spec Expr Construct XReal XArith KernelProofs KernelMore KernelAlg ExprProofs ArrayProofs RecogFlProofs PowRealProofs RoundMode Solvers SolversProofs GSEmpty SpecModels
  IspaeProofs IspaeFl SpecIspaeFl IspaeFlProofs IspaeFlRange.
Import ListNotations.
Open Scope R_scope.

Lemma round_near mo x : Rabs x <= bpow radix2 1003 -> xround mo x = XFin (rnd mo x) /\ Rabs (rnd mo x - x) <= bpow radix2 (-52) * Rabs x + bpow radix2 (-1074).
Proof.
  intro H. split.
  - unfold xround. rewrite Rlt_bool_true; [reflexivity|]. apply Rle_lt_trans with (bpow radix2 1003); [|apply bpow_lt; lia].
    apply abs_round_le_generic; auto with typeclass_instances. apply generic_format_bpow. unfold SpecFloat.fexp, SpecFloat.emin. lia.
  - eapply Rle_trans; [apply error_le_ulp; auto with typeclass_instances | apply ulp_small].
Qed.
Definition has (Z : itv) (p : R * R) : Prop := small_itv Z /\ xval (lo Z) = XFin (fst p) /\ xval (hi Z) = XFin (snd p).
Definition asum (l : list R) : R := sumR (map Rabs l).
Lemma asum_pos l : 0 <= asum l.
Proof. unfold asum. induction l as [|a l IH]; cbn [map sumR fold_right]; [lra|]. fold (sumR (map Rabs l)). assert (P := Rabs_pos a). lra. Qed.
Lemma asum_cons a l : asum (a :: l) = Rabs a + asum l. Proof. reflexivity. Qed.
Lemma sumR_cons a l : sumR (a :: l) = a + sumR l. Proof. reflexivity. Qed.
(** One addition. *)
Lemma add_once mo W k x t a r : bpow radix2 (-1000) <= W <= bpow radix2 1000 -> 0 <= k -> (k + 1) * bpow radix2 (-50) <= 1 ->
  Rabs (x - t) <= k * bpow radix2 (-50) * W -> Rabs t + Rabs a <= 2 * W -> xadd mo (XFin x) (XFin a) = r ->
  exists v, r = XFin v /\ Rabs (v - (t + a)) <= (k + 1) * bpow radix2 (-50) * W.
Proof.
  intros [W1 W2] K0 K1 Hx Ht Hr. cbn [xadd] in Hr. subst r. assert (Q0 := bpow_gt_0 radix2 (-1000)). assert (U0 := bpow_gt_0 radix2 (-52)). assert (U5 := bpow_gt_0 radix2 (-50)).
  assert (E4 : bpow radix2 (-50) = 4 * bpow radix2 (-52)) by (change (-50)%Z with (2 + -52)%Z; rewrite bpow_plus; reflexivity).
  assert (KW : k * bpow radix2 (-50) * W <= W).
  { rewrite <- (Rmult_1_l W) at 2. apply Rmult_le_compat_r; lra. }
  assert (X3 : Rabs (x + a) <= 3 * W).
  { replace (x + a) with ((x - t) + (t + a)) by ring. eapply Rle_trans; [apply Rabs_triang|]. assert (G := Rabs_triang t a). lra. }
  destruct (round_near mo (x + a)) as [R1 R2].
  { eapply Rle_trans; [exact X3|]. apply Rle_trans with (bpow radix2 2 * bpow radix2 1000); [change (bpow radix2 2) with 4; lra|]. rewrite <- bpow_plus. apply bpow_le. lia. }
  exists (rnd mo (x + a)). split; [exact R1|]. replace (rnd mo (x + a) - (t + a)) with ((rnd mo (x + a) - (x + a)) + (x - t)) by ring. eapply Rle_trans; [apply Rabs_triang|].
  assert (T1 : bpow radix2 (-1074) <= bpow radix2 (-52) * W).
  { apply Rle_trans with (bpow radix2 (-52) * bpow radix2 (-1000)); [rewrite <- bpow_plus; apply bpow_le; lia | apply Rmult_le_compat_l; lra]. }
  assert (T2 : bpow radix2 (-52) * Rabs (x + a) <= bpow radix2 (-52) * (3 * W)) by (apply Rmult_le_compat_l; lra).
  replace ((k + 1) * bpow radix2 (-50) * W) with (k * bpow radix2 (-50) * W + bpow radix2 (-50) * W) by ring. rewrite E4 at 2. lra.
Qed.
Lemma sum_from_near W m : bpow radix2 (-1000) <= W <= bpow radix2 1000 -> forall l ps acc x y t1 t2 k s, Forall2 has l ps -> has acc (x, y) -> 0 <= k ->
  (k + INR (length l)) * bpow radix2 (-50) <= 1 -> Rabs (x - t1) <= k * bpow radix2 (-50) * W -> Rabs (y - t2) <= k * bpow radix2 (-50) * W ->
  Rabs t1 + asum (map fst ps) <= 2 * W -> Rabs t2 + asum (map snd ps) <= 2 * W -> returns (sum_from acc l) m s ->
  exists v w, has s (v, w) /\ Rabs (v - (t1 + sumR (map fst ps))) <= (k + INR (length l)) * bpow radix2 (-50) * W /\ Rabs (w - (t2 + sumR (map snd ps))) <= (k + INR (length l)) * bpow radix2 (-50) * W.
Proof.
  intros HW. assert (U5 := bpow_gt_0 radix2 (-50)). induction l as [|e l IH]; intros ps acc x y t1 t2 k s F HA K0 K1 X1 X2 T1 T2 R; inversion F as [|? [a b] ? ps' He Hl]; subst.
  - cbn [sum_from] in R. apply returns_ret in R. subst s. exists x, y. cbn [map length INR sumR fold_right]. rewrite !Rplus_0_r. auto.
  - cbn [map fst snd] in *. rewrite !asum_cons in *. rewrite !sumR_cons. cbn [length] in *. rewrite S_INR in *. assert (P1 := asum_pos (map fst ps')). assert (P2 := asum_pos (map snd ps')). assert (PL := pos_INR (length l)).
    cbn [sum_from] in R. apply keeps_returns in R; [|apply (keeps_py_op OpAdd)]. destruct R as (z & R1 & R2).
    destruct HA as (SA & A1 & A2). destruct He as (SE & E1 & E2). cbn [fst snd] in *.
    destruct (gives_returns _ _ _ _ _ (add_gives acc e m SA SE)) as (z' & R1' & _ & Zl & Zh & SZ & _). assert (z = z') by (eapply ret_det; [exact R1 | exact R1']). subst z'.
    rewrite A1, E1 in Zl. rewrite A2, E2 in Zh.
    assert (K1' : (k + 1) * bpow radix2 (-50) <= 1) by (eapply Rle_trans; [|exact K1]; apply Rmult_le_compat_r; lra).
    destruct (add_once _ W k x t1 a _ HW K0 K1' X1 ltac:(lra) (eq_sym Zl)) as (v1 & V1 & D1). destruct (add_once _ W k y t2 b _ HW K0 K1' X2 ltac:(lra) (eq_sym Zh)) as (v2 & V2 & D2).
    assert (G1 := Rabs_triang t1 a). assert (G2 := Rabs_triang t2 b).
    destruct (IH ps' z v1 v2 (t1 + a) (t2 + b) (k + 1) s Hl) as (v & w & I1 & I2 & I3); try assumption; try lra.
    + split; [exact SZ|]. now split.
    + exists v, w. split; [exact I1|]. replace (k + 1 + INR (length l)) with (k + (INR (length l) + 1)) in I2, I3 by ring. rewrite <- !Rplus_assoc in *. now split.
Qed.
Lemma py_sum_near W m l ps s : bpow radix2 (-1000) <= W <= bpow radix2 1000 -> Forall2 has l ps -> l <> [] -> INR (length l) * bpow radix2 (-50) <= 1 ->
  asum (map fst ps) <= 2 * W -> asum (map snd ps) <= 2 * W -> returns (py_sum l) m s ->
  exists Z v w, s = OItv Z /\ has Z (v, w) /\ Rabs (v - sumR (map fst ps)) <= INR (length l) * bpow radix2 (-50) * W /\ Rabs (w - sumR (map snd ps)) <= INR (length l) * bpow radix2 (-50) * W.
Proof.
  intros HW F N K T1 T2 R. assert (U5 := bpow_gt_0 radix2 (-50)). inversion F as [|e [a b] l' ps' He Hl]; subst; [congruence|].
  cbn [map fst snd] in *. rewrite !asum_cons in *. rewrite !sumR_cons. cbn [length] in *. rewrite S_INR in *. assert (P1 := asum_pos (map fst ps')). assert (P2 := asum_pos (map snd ps')). assert (PL := pos_INR (length l')).
  cbn [py_sum] in R. apply keeps_returns in R; [|apply (keeps_py_op OpAdd)]. destruct R as (z & R1 & R2). apply keeps_returns in R2; [|apply keeps_sum_from]. destruct R2 as (Z & R2 & R3). apply returns_ret in R3. subst s.
  destruct He as (SE & E1 & E2). cbn [fst snd] in *.
  destruct (gives_returns _ _ _ _ _ (radd_gives e (PInt 0) m SE ltac:(simpl; lia))) as (z' & R1' & _ & Zl & Zh & SZ & _). assert (z = z') by (eapply ret_det; [exact R1 | exact R1']). subst z'.
  rewrite E1 in Zl. rewrite E2 in Zh. change (xval (PInt 0)) with (XFin 0) in Zl, Zh.
  assert (W0 : 0 <= W) by (destruct HW as [HW _]; assert (Q := bpow_gt_0 radix2 (-1000)); lra).
  assert (Z0 : forall c, Rabs (c - c) <= 0 * bpow radix2 (-50) * W) by (intro c; rewrite Rminus_eq_0, Rabs_R0; lra).
  assert (K1' : (0 + 1) * bpow radix2 (-50) <= 1) by (eapply Rle_trans; [|exact K]; apply Rmult_le_compat_r; lra).
  destruct (add_once _ W 0 a a 0 _ HW (Rle_refl 0) K1' (Z0 a) ltac:(rewrite Rabs_R0; lra) (eq_sym Zl)) as (v1 & V1 & D1).
  destruct (add_once _ W 0 b b 0 _ HW (Rle_refl 0) K1' (Z0 b) ltac:(rewrite Rabs_R0; lra) (eq_sym Zh)) as (v2 & V2 & D2).
  rewrite Rplus_0_r in D1, D2. rewrite Rplus_0_l in D1, D2.
  destruct (sum_from_near W m HW l' ps' z v1 v2 a b 1 Z Hl) as (v & w & I1 & I2 & I3); try assumption; try lra.
  - split; [exact SZ|]. now split.
  - exists Z, v, w. split; [reflexivity|]. split; [exact I1|]. replace (1 + INR (length l')) with (INR (length l') + 1) in I2, I3 by ring. now split.
Qed.
Lemma range_ends M beta l u e1 Z : tame M beta l u -> range_within (polynomial beta) l u e1 (rounding M beta) Z -> exists a b, has Z (a, b) /\
  Rabs a <= 2 * bulk M (0 :: reals beta) /\ Rabs b <= 2 * bulk M (0 :: reals beta) /\
  (exists x, B2R l <= x <= B2R u /\ Rabs (polynomial beta x - a) <= rounding M beta) /\ (exists x, B2R l <= x <= B2R u /\ Rabs (polynomial beta x - b) <= rounding M beta).
Proof.
  intros T R. assert (HE : rounding M beta <= bulk M (0 :: reals beta)).
  { destruct T as (_ & _ & _ & _ & M1 & _ & _ & _ & HL). assert (S0 := bulk_pos M (0 :: reals beta) ltac:(lra)). unfold rounding. rewrite <- (Rmult_1_l (bulk M (0 :: reals beta))) at 2. apply Rmult_le_compat_r; [exact S0|].
    apply Rle_trans with (bpow radix2 40 * bpow radix2 (-50)); [apply Rmult_le_compat_r; [apply bpow_ge_0 | exact HL]|]. rewrite <- bpow_plus. change 1 with (bpow radix2 0). apply bpow_le. lia. }
  destruct R as (a & b & -> & Fa & Fb & AB & _ & (x & Hx & Ex) & (y & Hy & Ey)).
  destruct T as (_ & _ & _ & _ & M1 & Hl & Hu & HB & _).
  assert (P : forall z, B2R l <= z <= B2R u -> Rabs (polynomial beta z) <= bulk M (0 :: reals beta)).
  { intros z Hz. rewrite polynomial_peval. apply (peval_bulk M).
    assert (C1 := Rle_abs (B2R u)). assert (C2 := Rle_abs (- B2R l)). rewrite Rabs_Ropp in C2. apply Rabs_le. lra. }
  assert (Q : forall z c, B2R l <= z <= B2R u -> Rabs (polynomial beta z - c) <= rounding M beta -> Rabs c <= 2 * bulk M (0 :: reals beta)).
  { intros z c Hz Hc. specialize (P z Hz). replace c with (polynomial beta z - (polynomial beta z - c)) by ring. eapply Rle_trans; [apply Rabs_triang|]. rewrite Rabs_Ropp. lra. }
  exists (B2R a), (B2R b). split; [|split; [exact (Q x _ Hx Ex) | split; [exact (Q y _ Hy Ey) | split; [now exists x | now exists y]]]].
  split; [split; exact Logic.I|]. cbn [lo hi xval fst snd]. now rewrite (proj1 (is_finite_x a) Fa), (proj1 (is_finite_x b) Fb).
Qed.
Lemma cols_ends M delta roots m : 0 <= delta -> forall cols beta, tame_row M delta roots beta cols ->
  exists vs ps, returns (cols_fl roots beta cols) m vs /\ length vs = length cols /\ Forall2 has vs ps /\
    asum (map fst ps) <= 2 * over_row (fun b => bulk M (0 :: reals b)) beta cols /\ asum (map snd ps) <= 2 * over_row (fun b => bulk M (0 :: reals b)) beta cols /\
    (exists xs, in_row cols xs /\ Rabs (model beta cols xs - sumR (map fst ps)) <= over_row (rounding M) beta cols) /\
    (exists xs, in_row cols xs /\ Rabs (model beta cols xs - sumR (map snd ps)) <= over_row (rounding M) beta cols).
Proof.
  intros D. induction cols as [|[o [l u]] cols IH]; intros beta H.
  - exists [], []. split; [reflexivity|]. split; [reflexivity|]. split; [constructor|]. cbn. rewrite !Rmult_0_r. split; [lra|]. split; [lra|].
    split; exists []; (split; [constructor|]); cbn; rewrite Rminus_0_r, Rabs_R0; lra.
  - cbn [tame_row] in H. destruct H as (T & C & H). destruct (column_within M delta (firstn o beta) l u _ m T D C) as (Z & Z1 & Z2).
    destruct (IH _ H) as (vs & ps & V1 & L1 & F & B1 & B2 & (xs & X1 & X2) & (ys & Y1 & Y2)).
    destruct (range_ends M _ l u _ Z T Z2) as (a & b & HZ & A1 & A2 & (x & Hx & Ex) & (y & Hy & Ey)).
    exists (Z :: vs), ((a, b) :: ps). split.
    + cbn [cols_fl]. unfold returns, outcome, mbind in *. unfold col_fl in *.
      destruct (map (poly_fl (firstn o beta)) _) as [|v w]; [discriminate|]. cbn [single_interval mbind mret fst] in *.
      injection Z1 as Z1. rewrite Z1. destruct (cols_fl roots (skipn o beta) cols m) as [r m']. cbn [fst] in V1. subst r. reflexivity.
    + split; [cbn [length]; now rewrite L1|]. split; [now constructor|]. cbn [map fst snd over_row]. rewrite !asum_cons, !sumR_cons. split; [lra|]. split; [lra|].
      assert (MC : forall z zs, model beta ((o, (l, u)) :: cols) (z :: zs) = polynomial (firstn o beta) z + model (skipn o beta) cols zs).
      { intros z zs. unfold model, polynomial. cbn [map additive fst]. now rewrite reals_firstn, reals_skipn. }
      split; [exists (x :: xs) | exists (y :: ys)]; (split; [constructor; assumption|]); rewrite MC.
      * replace (polynomial (firstn o beta) x + model (skipn o beta) cols xs - (a + sumR (map fst ps))) with ((polynomial (firstn o beta) x - a) + (model (skipn o beta) cols xs - sumR (map fst ps))) by ring. eapply Rle_trans; [apply Rabs_triang|]. lra.
      * replace (polynomial (firstn o beta) y + model (skipn o beta) cols ys - (b + sumR (map snd ps))) with ((polynomial (firstn o beta) y - b) + (model (skipn o beta) cols ys - sumR (map snd ps))) by ring. eapply Rle_trans; [apply Rabs_triang|]. lra.
Qed.
Lemma bulk_row M delta roots : forall cols beta, tame_row M delta roots beta cols -> cols <> [] ->
  bpow radix2 (-1000) <= over_row (fun b => bulk M (0 :: reals b)) beta cols <= INR (length cols) * bpow radix2 960.
Proof.
  assert (One : forall beta l u, tame M beta l u -> bpow radix2 (-1000) <= bulk M (0 :: reals beta) <= bpow radix2 960).
  { intros beta l u (_ & _ & _ & _ & M1 & _ & _ & HB & _). split; [|exact HB]. cbn [bulk]. rewrite Rabs_R0. assert (P := bulk_pos M (reals beta) ltac:(lra)). assert (0 <= M * bulk M (reals beta)) by (apply Rmult_le_pos; lra). lra. }
  assert (Q := bpow_gt_0 radix2 (-1000)). assert (Q9 := bpow_gt_0 radix2 960).
  induction cols as [|[o [l u]] cols IH]; intros beta H N; [congruence|]. cbn [tame_row] in H. destruct H as (T & _ & H). specialize (One _ _ _ T).
  cbn [over_row length]. rewrite S_INR. destruct cols as [|c cols]; [cbn [over_row length INR]; lra|]. specialize (IH _ H ltac:(discriminate)). lra.
Qed.
Theorem row_within M delta roots beta cols m : 0 <= delta -> tame_row M delta roots beta cols -> cols <> [] -> (Z.of_nat (length cols) <= 2 ^ 40)%Z ->
  exists Z, returns (value_fl roots beta cols) m (OItv Z) /\
    row_range_within beta cols (over_row (fun b => delta + rounding M b) beta cols)
      (over_row (rounding M) beta cols + INR (length cols) * bpow radix2 (-50) * over_row (fun b => bulk M (0 :: reals b)) beta cols) Z.
Proof.
  intros D T N HL. destruct (row_outer M delta roots beta cols m D T N ltac:(lia)) as (Z & R & O).
  destruct (cols_ends M delta roots m D cols beta T) as (vs & ps & V1 & L & F & B1 & B2 & X & Y).
  assert (HW := bulk_row M delta roots cols beta T N). set (W := over_row (fun b => bulk M (0 :: reals b)) beta cols) in *.
  assert (HN : INR (length cols) <= bpow radix2 40).
  { rewrite INR_IZR_INZ. change (bpow radix2 40) with (IZR (2 ^ 40)). now apply IZR_le. }
  assert (HW2 : bpow radix2 (-1000) <= W <= bpow radix2 1000).
  { split; [apply HW|]. eapply Rle_trans; [apply HW|]. apply Rle_trans with (bpow radix2 40 * bpow radix2 960); [apply Rmult_le_compat_r; [apply bpow_ge_0 | exact HN]|]. rewrite <- bpow_plus. apply bpow_le. lia. }
  assert (R' := R). apply keeps_returns in R'; [|apply keeps_cols]. destruct R' as (vs' & V1' & S1). assert (vs' = vs) by (eapply ret_det; eassumption). subst vs'.
  destruct (py_sum_near W m vs ps (OItv Z) HW2 F) as (Z' & v & w & EZ & (SZ & E1 & E2) & D1 & D2); try assumption.
  - destruct vs; [destruct cols; [congruence | discriminate] | discriminate].
  - rewrite L. apply Rle_trans with (bpow radix2 40 * bpow radix2 (-50)); [apply Rmult_le_compat_r; [apply bpow_ge_0 | exact HN]|]. rewrite <- bpow_plus. change 1 with (bpow radix2 0). apply bpow_le. lia.
  - injection EZ as <-. rewrite L in *. cbn [fst snd] in *.
    assert (NV : num_val (lo Z) = v /\ num_val (hi Z) = w /\ finite_itv Z).
    { destruct (xval_num_val _ _ E1), (xval_num_val _ _ E2). repeat split; assumption. }
    destruct NV as (N1 & N2 & N3). exists Z. split; [exact R|]. destruct O as [GZ O]. split; [exact (proj1 GZ)|]. split; [exact N3|]. split.
    + intros xs Hx. destruct (O xs Hx) as (s & Ms & Es). apply member_x in Ms. rewrite E1, E2 in Ms. cbn in Ms. rewrite N1, N2. apply Rabs_le_inv in Es. lra.
    + destruct X as (xs & X1 & X2). destruct Y as (ys & Y1 & Y2). split; [exists xs | exists ys]; (split; [assumption|]).
      * rewrite N1. replace (model beta cols xs - v) with ((model beta cols xs - sumR (map fst ps)) - (v - sumR (map fst ps))) by ring. eapply Rle_trans; [apply Rabs_triang|]. rewrite Rabs_Ropp. lra.
      * rewrite N2. replace (model beta cols ys - w) with ((model beta cols ys - sumR (map snd ps)) - (w - sumR (map snd ps))) by ring. eapply Rle_trans; [apply Rabs_triang|]. rewrite Rabs_Ropp. lra.
Qed.
