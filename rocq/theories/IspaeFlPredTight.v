(** The ends of a prediction are near sums of powers. *)
From Coq Require Import ZArith Reals List Bool Arith Lia Lra.
From Flocq Require Import Core IEEE754.BinarySingleNaN.
From Verif Require Import Base PyNum Kernel Spec Expr Arrays Construct SpecArray XReal XArith KernelProofs KernelMore KernelAlg ExprProofs ArrayProofs ArrayMore ArrayMat RecogFlProofs PowRealProofs Solvers SolversProofs GSEmpty SpecModels
  IspaeProofs IspaeFl SpecIspaeFl IspaeFlProofs IspaeFlRange IspaeFlTight IspaeFlPred SpecIspaeFlPred IspaeFlPredProofs.
Import ListNotations.
Open Scope R_scope.

Definition term_ok (M : R) (c : nat * (flt * flt)) (v : itv) : Prop :=
  (1 <= fst c)%nat /\ tame M (monomial (fst c)) (fst (snd c)) (snd (snd c)) /\
  exists e1, range_within (polynomial (monomial (fst c))) (fst (snd c)) (snd (snd c)) e1 (rounding M (monomial (fst c))) v.
Lemma col_terms M delta roots l u m : 0 <= delta -> forall k d, (1 <= d)%nat ->
  (forall j, (d <= j < d + k)%nat -> tame M (monomial j) l u /\ critical_near (fun x => x ^ j) l u delta (roots (monomial j))) ->
  exists vs, returns (mapM (fun j => col_fl (roots (monomial j)) (monomial j) l u) (seq d k)) m vs /\ Forall2 (term_ok M) (map (fun j => (j, (l, u))) (seq d k)) vs.
Proof.
  intro D. induction k as [|k IH]; intros d Hd H; [exists []; split; [reflexivity | constructor]|].
  destruct (H d ltac:(lia)) as [T C]. destruct (column_within M delta (monomial d) l u (roots (monomial d)) m T D (critical_ext _ _ _ _ _ _ (fun x => monomial_pow d x Hd) C)) as (Z & RZ & WZ).
  destruct (IH (S d) ltac:(lia) ltac:(intros j Hj; apply H; lia)) as (vs & RV & TV). exists (Z :: vs). cbn [seq map]. split.
  - apply mapM_returns; [intro; apply keeps_col|]. constructor; [exact RZ|]. apply mapM_returns in RV; [exact RV | intro; apply keeps_col].
  - constructor; [|exact TV]. split; [exact Hd|]. split; [exact T|]. eexists. exact WZ.
Qed.
Lemma expand_terms M delta roots m : 0 <= delta -> forall cols, tame_powers M delta roots cols ->
  exists vs, returns (expand_fl roots cols) m vs /\ Forall2 (term_ok M) (powers cols) vs.
Proof.
  intro D. induction cols as [|[o [l u]] cols IH]; intro T; [exists []; split; [reflexivity | constructor]|].
  destruct (col_terms M delta roots l u m D o 1 ltac:(lia)) as (vs & RV & TV); [intros j Hj; apply (T o l u (or_introl eq_refl)); lia|].
  destruct (IH ltac:(intros o' l' u' I; apply (T o' l' u'); now right)) as (ws & RW & TW). exists (vs ++ ws). split.
  - cbn [expand_fl]. apply keeps_returns; [apply keeps_mapM; intro; apply keeps_col|]. exists vs. split; [exact RV|]. apply keeps_returns; [apply keeps_expand|]. exists ws. split; [exact RW | reflexivity].
  - unfold powers. cbn [flat_map fst snd]. apply Forall2_app; [exact TV | exact TW].
Qed.
Lemma rounding_bulk M beta l u : tame M beta l u -> rounding M beta <= bulk M (0 :: reals beta).
Proof.
  intros (_ & _ & _ & _ & M1 & _ & _ & _ & HL). assert (S0 := bulk_pos M (0 :: reals beta) ltac:(lra)). unfold rounding. rewrite <- (Rmult_1_l (bulk M (0 :: reals beta))) at 2. apply Rmult_le_compat_r; [exact S0|].
  apply Rle_trans with (bpow radix2 40 * bpow radix2 (-50)); [apply Rmult_le_compat_r; [apply bpow_ge_0 | exact HL]|]. rewrite <- bpow_plus. change 1 with (bpow radix2 0). apply bpow_le. lia.
Qed.
Definition term_size (M : R) (b : flt) (d : nat) : R := 2 * Rabs (B2R b) * bulk M (0 :: reals (monomial d)) + bpow radix2 (-1000).
(** One rounded product of an end. *)
Lemma end_near mo M b d t y rho : 0 <= rho -> rho <= bulk M (0 :: reals (monomial d)) -> Rabs (y ^ d) <= bulk M (0 :: reals (monomial d)) -> Rabs (y ^ d - t) <= rho -> term_size M b d <= bpow radix2 1000 ->
  exists p, xmul mo (XFin (B2R b)) (XFin t) = XFin p /\ Rabs (p - B2R b * y ^ d) <= Rabs (B2R b) * rho + bpow radix2 (-51) * term_size M b d /\ Rabs p <= 2 * term_size M b d.
Proof.
  intros R0 RB YB YT SZ. set (B := bulk M (0 :: reals (monomial d))) in *. assert (TB : Rabs t <= 2 * B).
  { replace t with (y ^ d - (y ^ d - t)) by ring. eapply Rle_trans; [apply Rabs_triang|]. rewrite Rabs_Ropp. lra. }
  assert (B0 := Rabs_pos (B2R b)). assert (K : bpow radix2 (-1074) <= bpow radix2 (-52) * bpow radix2 (-1000)) by (rewrite <- bpow_plus; apply bpow_le; lia).
  assert (P0 := bpow_gt_0 radix2 (-1000)). assert (P1 := bpow_gt_0 radix2 (-52)). assert (P2 : bpow radix2 (-52) <= / 4) by (apply Rle_trans with (bpow radix2 (-2)); [apply bpow_le; lia | cbn; lra]).
  assert (E2 : bpow radix2 (-51) = 2 * bpow radix2 (-52)) by (change (-51)%Z with (1 + -52)%Z; rewrite bpow_plus; reflexivity).
  unfold term_size in *. fold B in SZ |- *. set (S := 2 * Rabs (B2R b) * B + bpow radix2 (-1000)) in *.
  assert (BT : Rabs (B2R b * t) <= S - bpow radix2 (-1000)).
  { rewrite Rabs_mult. unfold S. replace (2 * Rabs (B2R b) * B + bpow radix2 (-1000) - bpow radix2 (-1000)) with (Rabs (B2R b) * (2 * B)) by ring. apply Rmult_le_compat_l; assumption. }
  assert (BY : Rabs (B2R b * t - B2R b * y ^ d) <= Rabs (B2R b) * rho).
  { replace (B2R b * t - B2R b * y ^ d) with (B2R b * (t - y ^ d)) by ring. rewrite Rabs_mult. apply Rmult_le_compat_l; [exact B0|]. rewrite Rabs_minus_sym. exact YT. }
  destruct (round_near mo (B2R b * t)) as [N1 N2]; [apply Rle_trans with (bpow radix2 1000); [lra | apply bpow_le; lia]|].
  assert (N3 : Rabs (rnd mo (B2R b * t) - B2R b * t) <= bpow radix2 (-51) * S).
  { eapply Rle_trans; [exact N2|]. assert (bpow radix2 (-52) * Rabs (B2R b * t) <= bpow radix2 (-52) * S) by (apply Rmult_le_compat_l; lra). assert (bpow radix2 (-52) * bpow radix2 (-1000) <= bpow radix2 (-52) * S) by (apply Rmult_le_compat_l; [lra | assert (Q := Rabs_pos (B2R b * t)); lra]). rewrite E2. lra. }
  exists (rnd mo (B2R b * t)). split; [exact N1|]. split.
  - replace (rnd mo (B2R b * t) - B2R b * y ^ d) with ((B2R b * t - B2R b * y ^ d) + (rnd mo (B2R b * t) - B2R b * t)) by ring. eapply Rle_trans; [apply Rabs_triang|]. lra.
  - replace (rnd mo (B2R b * t)) with (B2R b * t + (rnd mo (B2R b * t) - B2R b * t)) by ring. eapply Rle_trans; [apply Rabs_triang|].
    assert (S0 : 0 <= S) by (assert (Q := Rabs_pos (B2R b * t)); lra). assert (bpow radix2 (-51) * S <= / 2 * S) by (apply Rmult_le_compat_r; lra). lra.
Qed.
Definition prod_of (v : itv) (b : flt) : M operand := omul (OItv v) (ONum (PFlt b)).
Lemma prod_near M m c v b : term_ok M c v -> is_finite b = true -> term_size M b (fst c) <= bpow radix2 1000 ->
  exists w p1 p2 y1 y2, returns (prod_of v b) m (OItv w) /\ has w (p1, p2) /\ B2R (fst (snd c)) <= y1 <= B2R (snd (snd c)) /\ B2R (fst (snd c)) <= y2 <= B2R (snd (snd c)) /\
    Rabs (p1 - B2R b * y1 ^ fst c) <= Rabs (B2R b) * rounding M (monomial (fst c)) + bpow radix2 (-51) * term_size M b (fst c) /\ Rabs p1 <= 2 * term_size M b (fst c) /\
    Rabs (p2 - B2R b * y2 ^ fst c) <= Rabs (B2R b) * rounding M (monomial (fst c)) + bpow radix2 (-51) * term_size M b (fst c) /\ Rabs p2 <= 2 * term_size M b (fst c).
Proof.
  destruct c as [d [l u]]. cbn [fst snd]. intros (Hd & T & e1 & (a & a' & -> & Fa & Fb & AB & _ & (x & Hx & Ex) & (y & Hy & Ey))) F SZ. cbn [fst snd] in *. rewrite monomial_pow in Ex, Ey by exact Hd.
  assert (RB := rounding_bulk _ _ _ _ T). assert (R0 := rounding_pos _ _ _ _ T).
  assert (PB : forall z, B2R l <= z <= B2R u -> Rabs (z ^ d) <= bulk M (0 :: reals (monomial d))).
  { intros z Hz. rewrite <- (monomial_pow d z Hd), polynomial_peval. destruct T as (_ & _ & _ & _ & _ & Hl & Hu & _). apply (peval_bulk M).
    apply Rabs_le_inv in Hl. apply Rabs_le_inv in Hu. apply Rabs_le. lra. }
  destruct (gives_returns _ _ _ _ _ (rmul_gives (mkitv Classical (PFlt a) (PFlt a')) (PFlt b) m (conj Logic.I Logic.I) Logic.I eq_refl)) as (w & RW & _ & Wl & Wh & SW & _).
  cbn [lo hi xval] in Wl, Wh. rewrite (proj1 (is_finite_x a) Fa), (proj1 (is_finite_x a') Fb), (proj1 (is_finite_x b) F) in Wl, Wh.
  destruct (end_near mode_DN M b d (B2R a) x _ R0 RB (PB x Hx) Ex SZ) as (p & Ep & P1 & P2). destruct (end_near mode_DN M b d (B2R a') y _ R0 RB (PB y Hy) Ey SZ) as (p' & Ep' & P1' & P2').
  destruct (end_near mode_UP M b d (B2R a) x _ R0 RB (PB x Hx) Ex SZ) as (q & Eq & Q1 & Q2). destruct (end_near mode_UP M b d (B2R a') y _ R0 RB (PB y Hy) Ey SZ) as (q' & Eq' & Q1' & Q2').
  rewrite Ep, Ep' in Wl. rewrite Eq, Eq' in Wh.
  assert (RP : returns (prod_of (mkitv Classical (PFlt a) (PFlt a')) b) m (OItv w)).
  { unfold prod_of, omul. apply keeps_returns; [apply (keeps_py_op OpMul)|]. exists w. split; [exact RW | reflexivity]. }
  unfold xmin2 in Wl. unfold xmax2 in Wh.
  assert (L : exists p0 y0, xval (lo w) = XFin p0 /\ B2R l <= y0 <= B2R u /\ Rabs (p0 - B2R b * y0 ^ d) <= Rabs (B2R b) * rounding M (monomial d) + bpow radix2 (-51) * term_size M b d /\ Rabs p0 <= 2 * term_size M b d)
    by (destruct (xltb _ _); [exists p', y | exists p, x]; auto).
  assert (H : exists p0 y0, xval (hi w) = XFin p0 /\ B2R l <= y0 <= B2R u /\ Rabs (p0 - B2R b * y0 ^ d) <= Rabs (B2R b) * rounding M (monomial d) + bpow radix2 (-51) * term_size M b d /\ Rabs p0 <= 2 * term_size M b d)
    by (destruct (xltb (XFin q) _); [exists q', y | exists q, x]; auto).
  destruct L as (p1 & y1 & L1 & L2 & L3 & L4). destruct H as (p2 & y2 & H1 & H2 & H3 & H4).
  exists w, p1, p2, y1, y2. split; [exact RP|]. split; [split; [exact SW|]; split; assumption|]. auto 10.
Qed.
Lemma size_pos M bs : forall cs, Forall (fun c => 1 <= M) cs -> 0 <= power_size M bs cs.
Proof.
  induction bs as [|b bs IH]; intros [|[d i] cs] F; cbn [power_size]; try lra. inversion F; subst. specialize (IH cs ltac:(assumption)).
  assert (B := bulk_pos M (0 :: reals (monomial d)) ltac:(lra)). assert (0 <= 2 * Rabs (B2R b) * bulk M (0 :: reals (monomial d))) by (apply Rmult_le_pos; [assert (Q := Rabs_pos (B2R b)); lra | exact B]). assert (P := bpow_gt_0 radix2 (-1000)). lra.
Qed.
Lemma prods M m : forall cs vs bs, Forall2 (term_ok M) cs vs -> length bs = length vs -> Forall (fun f => is_finite f = true) bs -> power_size M bs cs <= bpow radix2 1000 ->
  exists ws ps ys zs, Forall2 (fun xy w => returns (omul (fst xy) (snd xy)) m (OItv w)) (combine (map OItv vs) (map (fun c => ONum (PFlt c)) bs)) ws /\ Forall2 has ws ps /\
    asum (map fst ps) <= 2 * power_size M bs cs /\ asum (map snd ps) <= 2 * power_size M bs cs /\ in_row cs ys /\ in_row cs zs /\
    Rabs (sumR (map fst ps) - power_sum bs cs ys) <= inner_powers M bs cs + bpow radix2 (-51) * power_size M bs cs /\
    Rabs (sumR (map snd ps) - power_sum bs cs zs) <= inner_powers M bs cs + bpow radix2 (-51) * power_size M bs cs.
Proof.
  intros cs vs bs H. revert bs. induction H as [|c v cs vs Hc Hcs IH]; intros [|b bs] L F SZ; try discriminate.
  - exists [], [], [], []. unfold in_row, asum. cbn [map combine sumR fold_right power_size power_sum inner_powers]. rewrite Rminus_eq_0, Rabs_R0. repeat split; try constructor; lra.
  - inversion F as [|? ? Fb Fbs]; subst. destruct c as [d i]. cbn [power_size] in SZ.
    assert (MP : Forall (fun _ => 1 <= M) cs) by (apply Forall_forall; intros; apply Hc).
    assert (S0 := size_pos M bs cs MP).
    assert (S1 : 0 <= term_size M b d) by (unfold term_size; assert (Bp := bulk_pos M (0 :: reals (monomial d)) ltac:(destruct Hc as (_ & (_ & _ & _ & _ & M1 & _) & _); lra)); assert (0 <= 2 * Rabs (B2R b) * bulk M (0 :: reals (monomial d))) by (apply Rmult_le_pos; [assert (Q := Rabs_pos (B2R b)); lra | exact Bp]); assert (P := bpow_gt_0 radix2 (-1000)); lra).
    fold (term_size M b d) in SZ.
    destruct (IH bs ltac:(now injection L) Fbs ltac:(lra)) as (ws & ps & ys & zs & A1 & A2 & A3 & A4 & A5 & A6 & A7 & A8).
    destruct (prod_near M m (d, i) v b Hc Fb ltac:(cbn [fst]; lra)) as (w & p1 & p2 & y1 & y2 & B1 & B2 & B3 & B4 & B5 & B6 & B7 & B8). cbn [fst snd] in *.
    exists (w :: ws), ((p1, p2) :: ps), (y1 :: ys), (y2 :: zs). cbn [map combine power_size power_sum inner_powers fst snd]. fold (term_size M b d). rewrite !asum_cons, !sumR_cons.
    split; [constructor; [exact B1 | exact A1]|]. split; [now constructor|]. split; [lra|]. split; [lra|]. split; [now constructor|]. split; [now constructor|].
    set (r := rounding M (monomial d)) in *. set (s := term_size M b d) in *. set (e := bpow radix2 (-51)) in *. rewrite Rmult_plus_distr_l. split.
    + replace (p1 + sumR (map fst ps) - (B2R b * y1 ^ d + power_sum bs cs ys)) with ((p1 - B2R b * y1 ^ d) + (sumR (map fst ps) - power_sum bs cs ys)) by ring. eapply Rle_trans; [apply Rabs_triang|]. lra.
    + replace (p2 + sumR (map snd ps) - (B2R b * y2 ^ d + power_sum bs cs zs)) with ((p2 - B2R b * y2 ^ d) + (sumR (map snd ps) - power_sum bs cs zs)) by ring. eapply Rle_trans; [apply Rabs_triang|]. lra.
Qed.
Lemma dot_from_sum m l ws : Forall2 (fun xy w => returns (omul (fst xy) (snd xy)) m (OItv w)) l ws -> forall A z, returns (dot_from (OItv A) l) m (OItv z) -> returns (sum_from A ws) m z.
Proof.
  induction 1 as [|[x y] w l ws H HS IH]; intros A z R; cbn [dot_from sum_from] in *.
  - apply returns_ret in R. injection R as ->. reflexivity.
  - apply keeps_returns in R; [|apply keeps_omul]. destruct R as (p & RP & R). cbn [fst snd] in H. rewrite (ret_det _ _ _ _ RP H) in R.
    apply keeps_returns in R; [|apply keeps_oadd]. destruct R as (s & RS & R). unfold oadd in RS. apply keeps_returns in RS; [|apply (keeps_py_op OpAdd)]. destruct RS as (s' & RS & E). apply returns_ret in E. subst s.
    apply keeps_returns; [apply (keeps_py_op OpAdd)|]. exists s'. split; [exact RS|]. now apply IH.
Qed.
Theorem predict_ends M delta roots (beta : list flt) cols m : 0 <= delta -> tame_powers M delta roots cols -> length beta = orders cols -> beta <> [] -> Forall (fun f => is_finite f = true) beta ->
  power_size M beta (powers cols) <= bpow radix2 1000 -> INR (length beta) <= bpow radix2 40 ->
  exists Z, returns (predict_fl roots beta cols) m (OItv Z) /\ finite_itv Z /\
    (exists ys, in_row (powers cols) ys /\ Rabs (num_val (lo Z) - power_sum beta (powers cols) ys) <= inner_powers M beta (powers cols) + INR (S (length beta)) * bpow radix2 (-50) * power_size M beta (powers cols)) /\
    (exists ys, in_row (powers cols) ys /\ Rabs (num_val (hi Z) - power_sum beta (powers cols) ys) <= inner_powers M beta (powers cols) + INR (S (length beta)) * bpow radix2 (-50) * power_size M beta (powers cols)).
Proof.
  intros D T HL N F SZ LN. destruct (predict_contains M delta roots beta cols m D T HL N F) as (Z & RZ & _). exists Z. split; [exact RZ|].
  destruct (expand_terms M delta roots m D cols T) as (vs & RV & TV). unfold predict_fl in RZ. apply keeps_returns in RZ; [|apply keeps_expand]. destruct RZ as (vs' & RV' & RZ).
  rewrite (ret_det _ _ _ _ RV' RV) in RZ. clear vs' RV'. destruct (expand_run M delta roots m D cols beta T HL) as (vs0 & RV0 & EL & _). assert (E0 := ret_det _ _ _ _ RV0 RV). subst vs0. rewrite EL, Nat.eqb_refl in RZ. cbn [negb] in RZ.
  destruct (prods M m (powers cols) vs beta TV (eq_sym EL) F SZ) as (ws & ps & ys & zs & A1 & A2 & A3 & A4 & A5 & A6 & A7 & A8).
  set (W := power_size M beta (powers cols)) in *. assert (LW := f2_length _ _ _ A1). assert (LP := f2_length _ _ _ A2). rewrite combine_length, !map_length, EL, Nat.min_id in LW.
  assert (U5 := bpow_gt_0 radix2 (-50)). assert (E51 : 2 * bpow radix2 (-51) = bpow radix2 (-50)) by (change (-50)%Z with (1 + -51)%Z; rewrite bpow_plus; reflexivity).
  assert (W0 : bpow radix2 (-1000) <= W).
  { unfold W. destruct beta as [|b bs]; [congruence|]. inversion TV as [E1 E2|c v cs vs0 Hc Hcs E1 E2]; [rewrite <- E2 in EL; discriminate|]. destruct c as [d i]. cbn [power_size].
    assert (S0 := size_pos M bs cs ltac:(apply Forall_forall; intros; apply Hc)).
    assert (Bp := bulk_pos M (0 :: reals (monomial d)) ltac:(destruct Hc as (_ & (_ & _ & _ & _ & M1 & _) & _); lra)). assert (0 <= 2 * Rabs (B2R b) * bulk M (0 :: reals (monomial d))) by (apply Rmult_le_pos; [assert (Q := Rabs_pos (B2R b)); lra | exact Bp]). lra. }
  assert (P0 := bpow_gt_0 radix2 (-1000)).
  remember (combine (map OItv vs) (map (fun c => ONum (PFlt c)) beta)) as L eqn:EqL. clear EqL.
  destruct A1 as [|[x y] w l ws H HS]; [cbn in LW; destruct beta; [congruence | discriminate]|]. inversion A2 as [|? [p q] ? ps' H2 HS2]; subst. rename ps' into ps.
  cbn [negb dot] in RZ. cbn [fst snd] in H. apply keeps_returns in RZ; [|apply keeps_omul]. destruct RZ as (pr & RP & RZ). rewrite (ret_det _ _ _ _ RP H) in RZ. apply (dot_from_sum m l ws HS) in RZ.
  cbn [map fst snd] in A3, A4, A7, A8. rewrite !asum_cons in A3, A4. rewrite !sumR_cons in A7, A8. cbn [length] in LW, LP.
  assert (LI := f_equal INR LW). rewrite S_INR in LI. assert (PI := pos_INR (length ws)).
  assert (K1 : (0 + INR (length ws)) * bpow radix2 (-50) <= 1).
  { apply Rle_trans with (bpow radix2 40 * bpow radix2 (-50)); [apply Rmult_le_compat_r; lra|]. rewrite <- bpow_plus. change 1 with (bpow radix2 0). apply bpow_le. lia. }
  destruct (sum_from_near W m (conj W0 SZ) ws ps w p q p q 0 Z HS2 H2 (Rle_refl 0) K1) as (v & v' & (SV & V1 & V2) & V3 & V4); try assumption; try (rewrite Rminus_eq_0, Rabs_R0; lra).
  assert (UW : 0 <= bpow radix2 (-50) * W) by (apply Rmult_le_pos; lra). rewrite S_INR, LI.
  cbn [fst snd] in V1, V2. destruct (xval_num_val _ _ V1) as [N2 N1], (xval_num_val _ _ V2) as [N4 N3]. split; [split; assumption|]. rewrite N1, N3. split.
  - exists ys. split; [exact A5|]. replace (v - power_sum beta (powers cols) ys) with ((v - (p + sumR (map fst ps))) + (p + sumR (map fst ps) - power_sum beta (powers cols) ys)) by ring. eapply Rle_trans; [apply Rabs_triang|]. nra.
  - exists zs. split; [exact A6|]. replace (v' - power_sum beta (powers cols) zs) with ((v' - (q + sumR (map snd ps))) + (q + sumR (map snd ps) - power_sum beta (powers cols) zs)) by ring. eapply Rle_trans; [apply Rabs_triang|]. nra.
Qed.
