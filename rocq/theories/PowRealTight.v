(** Powers with exponents that are not natural numbers: how far the ends of the
    result are from the powers of members. *)
From Coq Require Import ZArith Reals List Bool Lia Lra Psatz.
From Coq Require Import Floats.SpecFloat.
From Flocq Require Import Core IEEE754.BinarySingleNaN Relative.
From Verif Require Import Base PyNum Kernel Spec SpecElem SpecPow XReal XArith KernelProofs ExprProofs KernelMore Witness ElemProofs
  PowRealProofs PowRealRefute.
Import ListNotations.
Open Scope R_scope.

(** ** the neighbours of a positive double *)
Lemma up_next (r : flt) : is_finite r = true -> 0 <= B2R r -> exists w, xflt (round_up r) = XFin w /\ w <= B2R r + ulp radix2 fexp (B2R r).
Proof.
  intros Hf H0. assert (Hx := proj1 (is_finite_x r) Hf).
  assert (Hr := abs_flt_le_max r). apply Rabs_le_inv in Hr.
  assert (U := ulp_ge_0 radix2 fexp (B2R r)).
  unfold round_up, nextafter.
  assert (N1 : is_nan r = false) by (destruct r; simpl in *; congruence).
  assert (N2 : is_nan fmaxfloat = false) by reflexivity.
  rewrite N1, N2. cbn [orb]. rewrite flt_eqb_x, flt_ltb_x, xmaxpos, Hx.
  destruct (xeqb (XFin (B2R r)) (XFin fmaxR)) eqn:E1.
  - apply xeqb_fin in E1. exists fmaxR. split; [exact xmaxpos | lra].
  - assert (B2R r <> fmaxR) by (intro E; apply (proj2 (xeqb_fin _ _)) in E; congruence).
    rewrite (proj2 (xltb_fin (B2R r) fmaxR)) by lra.
    assert (S0 := Bsucc_correct 53 1024 _ _ r Hf). rewrite Rlt_bool_true in S0.
    + destruct S0 as (S1 & S2 & _). exists (B2R (Bsucc r)). split; [now apply is_finite_x|].
      rewrite S1. rewrite succ_eq_pos by exact H0. lra.
    + assert (succ radix2 fexp (B2R r) <= fmaxR).
      { apply succ_le_lt; auto using gen_max with typeclass_instances; [apply gen_B2R | lra]. }
      generalize fmaxR_lt. lra.
Qed.
Lemma down_next (r : flt) : is_finite r = true -> 0 < B2R r -> exists w, xflt (round_down r) = XFin w /\ B2R r - ulp radix2 fexp (B2R r) <= w.
Proof.
  intros Hf H0. assert (Hx := proj1 (is_finite_x r) Hf).
  assert (Hr := abs_flt_le_max r). apply Rabs_le_inv in Hr.
  assert (Fp : 0 <= fmaxR) by (eapply Rle_trans; [apply Rabs_pos | apply (abs_flt_le_max r)]).
  unfold round_down, nextafter.
  assert (N1 : is_nan r = false) by (destruct r; simpl in *; congruence).
  assert (N2 : is_nan (fneg fmaxfloat) = false) by reflexivity.
  rewrite N1, N2. cbn [orb]. rewrite flt_eqb_x, flt_ltb_x, xmaxneg, Hx.
  destruct (xeqb (XFin (B2R r)) (XFin (- fmaxR))) eqn:E1.
  - apply xeqb_fin in E1. lra.
  - destruct (xltb (XFin (B2R r)) (XFin (- fmaxR))) eqn:E2; [apply xltb_fin in E2; lra|].
    assert (S0 := Bpred_correct 53 1024 _ _ r Hf). rewrite Rlt_bool_true in S0.
    + destruct S0 as (S1 & S2 & _). exists (B2R (Bpred r)). split; [now apply is_finite_x|].
      rewrite S1. assert (P := pred_plus_ulp radix2 fexp (B2R r) H0 (gen_B2R r)).
      assert (P0 : 0 <= pred radix2 fexp (B2R r)).
      { apply pred_ge_gt; auto with typeclass_instances; [apply generic_format_0 | apply gen_B2R]. }
      assert (P1 := pred_le_id radix2 fexp (B2R r)).
      assert (ulp radix2 fexp (pred radix2 fexp (B2R r)) <= ulp radix2 fexp (B2R r)); [|lra].
      apply ulp_le; auto with typeclass_instances. rewrite !Rabs_pos_eq; lra.
    + assert (- fmaxR <= pred radix2 fexp (B2R r)).
      { apply pred_ge_gt; auto using gen_max_opp with typeclass_instances; [apply gen_B2R | lra]. }
      generalize fmaxR_lt. lra.
Qed.

Definition mid_range (v : R) : Prop := bpow radix2 (-1001) <= v <= bpow radix2 1001.
Lemma mid_abs v : mid_range v -> bpow radix2 (-1074) <= bpow radix2 (-73) * v.
Proof.
  intros [H _]. replace (-1074)%Z with (-73 + -1001)%Z by reflexivity. rewrite bpow_plus.
  apply Rmult_le_compat_l; [apply bpow_ge_0 | exact H].
Qed.
Lemma rnd_mid md v : mid_range v -> exists f : flt, is_finite f = true /\ B2R f = rnd md v.
Proof.
  intro H.
  assert (P : 0 <= v) by (eapply Rle_trans; [apply (bpow_ge_0 radix2 (-1001)) | apply H]).
  assert (B : Rabs (rnd md v) <= bpow radix2 1001).
  { apply abs_round_le_generic; auto with typeclass_instances.
    - apply generic_format_bpow. unfold SpecFloat.fexp, SpecFloat.emin. lia.
    - rewrite Rabs_pos_eq by exact P. apply H. }
  destruct (generic_dbl (rnd md v) (gen_rnd md v)) as (f & Hf).
  - eapply Rle_lt_trans; [exact B|]. apply bpow_lt. lia.
  - exists f. now apply xfin_flt.
Qed.
Lemma mid_err r v : faithful r v -> mid_range v -> Rabs (B2R r - v) <= bpow radix2 (-51) * v.
Proof.
  intros (_ & H) Hv. assert (A := mid_abs v Hv).
  assert (P : 0 < v) by (eapply Rlt_le_trans; [apply (bpow_gt_0 radix2 (-1001)) | apply Hv]).
  assert (D := down_err v). assert (U := up_err v). rewrite Rabs_pos_eq in D, U by lra.
  assert (Q : bpow radix2 (-52) * v + bpow radix2 (-1074) <= bpow radix2 (-51) * v).
  { assert (bpow radix2 (-73) <= bpow radix2 (-52)) by (apply bpow_le; lia).
    assert (E : bpow radix2 (-51) = 2 * bpow radix2 (-52)) by (change (-51)%Z with (1 + -52)%Z; rewrite bpow_plus; reflexivity).
    rewrite E. nra. }
  destruct H as [[H1 H2]|[H1 H2]].
  - destruct (rnd_mid mode_DN v Hv) as (f & Ff & Vf). specialize (H2 f Ff). rewrite Vf in H2.
    assert (E := rnd_DN_le v). apply Rabs_le. specialize (H2 E). lra.
  - destruct (rnd_mid mode_UP v Hv) as (f & Ff & Vf). specialize (H2 f Ff). rewrite Vf in H2.
    assert (E := rnd_UP_ge v). apply Rabs_le. specialize (H2 E). lra.
Qed.
Lemma small51 : bpow radix2 (-51) <= / 1048576.
Proof. change (/ 1048576) with (bpow radix2 (-20)). apply bpow_le. lia. Qed.
Lemma ulp_mid r v : faithful r v -> mid_range v -> ulp radix2 fexp (B2R r) <= bpow radix2 (-51) * v /\ 0 < B2R r.
Proof.
  intros F Hv. assert (E := mid_err r v F Hv). apply Rabs_le_inv in E. assert (A := mid_abs v Hv). assert (S5 := small51).
  assert (P : 0 < v) by (eapply Rlt_le_trans; [apply (bpow_gt_0 radix2 (-1001)) | apply Hv]).
  assert (P5 : 0 < bpow radix2 (-51)) by apply bpow_gt_0.
  assert (R0 : 0 < B2R r) by nra. split; [|exact R0].
  eapply Rle_trans; [apply ulp_small|]. rewrite Rabs_pos_eq by lra.
  assert (E2 : bpow radix2 (-51) = 2 * bpow radix2 (-52)) by (change (-51)%Z with (1 + -52)%Z; rewrite bpow_plus; reflexivity).
  assert (E3 : bpow radix2 (-73) <= bpow radix2 (-54)) by (apply bpow_le; lia).
  assert (E4 : bpow radix2 (-52) = 4 * bpow radix2 (-54)) by (change (-52)%Z with (2 + -54)%Z; rewrite bpow_plus; reflexivity).
  rewrite E2 in E |- *. assert (B2R r <= 3 / 2 * v) by nra.
  assert (bpow radix2 (-52) * B2R r <= bpow radix2 (-52) * (3 / 2 * v)) by (apply Rmult_le_compat_l; [apply bpow_ge_0 | assumption]). nra.
Qed.
Lemma up_tight r v : faithful r v -> mid_range v -> exists w, xflt (round_up r) = XFin w /\ w <= (1 + bpow radix2 (-50)) * v.
Proof.
  intros F Hv. destruct (ulp_mid r v F Hv) as [U R0]. assert (E := mid_err r v F Hv). apply Rabs_le_inv in E.
  destruct (up_next r (proj1 F) (Rlt_le _ _ R0)) as (w & Hw & Lw). exists w. split; [exact Hw|].
  assert (E2 : bpow radix2 (-50) = 2 * bpow radix2 (-51)) by (change (-50)%Z with (1 + -51)%Z; rewrite bpow_plus; reflexivity).
  rewrite E2. lra.
Qed.
Lemma down_tight r v : faithful r v -> mid_range v -> exists w, xflt (round_down r) = XFin w /\ (1 - bpow radix2 (-50)) * v <= w.
Proof.
  intros F Hv. destruct (ulp_mid r v F Hv) as [U R0]. assert (E := mid_err r v F Hv). apply Rabs_le_inv in E.
  destruct (down_next r (proj1 F) R0) as (w & Hw & Lw). exists w. split; [exact Hw|].
  assert (E2 : bpow radix2 (-50) = 2 * bpow radix2 (-51)) by (change (-50)%Z with (1 + -51)%Z; rewrite bpow_plus; reflexivity).
  rewrite E2. lra.
Qed.

(** ** the rounded product e * log(x) *)
Lemma prod_tight e r v : Rabs e <= bpow radix2 1024 -> Rabs (r - v) <= bpow radix2 (-52) * Rabs v + bpow radix2 (-1074) ->
  Rabs (e * v) <= 751 -> Rabs (e * r - e * v) <= 755 * bpow radix2 (-52).
Proof.
  intros He Hr Hb.
  assert (A : Rabs (e * r - e * v) <= bpow radix2 (-52) * Rabs (e * v) + bpow radix2 (-50)).
  { replace (e * r - e * v) with (e * (r - v)) by ring. rewrite !Rabs_mult.
    assert (Q := Rmult_le_compat_l _ _ _ (Rabs_pos e) Hr).
    assert (Q2 : Rabs e * bpow radix2 (-1074) <= bpow radix2 (-50)).
    { replace (-50)%Z with (1024 + -1074)%Z by lia. rewrite bpow_plus. apply Rmult_le_compat_r; [apply bpow_ge_0 | exact He]. }
    lra. }
  assert (E4 : bpow radix2 (-50) = 4 * bpow radix2 (-52)) by (change (-50)%Z with (2 + -52)%Z; rewrite bpow_plus; reflexivity).
  assert (P : 0 <= bpow radix2 (-52)) by apply bpow_ge_0. nra.
Qed.
Lemma rounded_tight md y z : (md = mode_UP \/ md = mode_DN) -> Rabs (y - z) <= 755 * bpow radix2 (-52) -> Rabs z <= 751 ->
  exists w, xround md y = XFin w /\ Rabs (w - z) <= bpow radix2 (-41).
Proof.
  intros Hm Hy Hz.
  assert (S5 : bpow radix2 (-52) <= / 1048576) by (change (/ 1048576) with (bpow radix2 (-20)); apply bpow_le; lia).
  assert (P : 0 < bpow radix2 (-52)) by apply bpow_gt_0.
  assert (Ny : Rabs y <= 752).
  { replace y with (y - z + z) by ring. eapply Rle_trans; [apply Rabs_triang|]. nra. }
  assert (E : Rabs (rnd md y - y) <= 753 * bpow radix2 (-52)).
  { assert (T : bpow radix2 (-1074) <= bpow radix2 (-52)) by (apply bpow_le; lia).
    destruct Hm as [-> | ->].
    - assert (A := up_err y). assert (B := rnd_UP_ge y). apply Rabs_le. nra.
    - assert (A := down_err y). assert (B := rnd_DN_le y). apply Rabs_le. nra. }
  exists (rnd md y). split.
  - unfold xround. rewrite Rlt_bool_true; [reflexivity|].
    apply Rle_lt_trans with 1024.
    + replace (rnd md y) with (rnd md y - y + y) by ring. eapply Rle_trans; [apply Rabs_triang|]. nra.
    + change 1024 with (bpow radix2 10). apply bpow_lt. lia.
  - replace (rnd md y - z) with (rnd md y - y + (y - z)) by ring. eapply Rle_trans; [apply Rabs_triang|].
    assert (E4 : bpow radix2 (-41) = 2048 * bpow radix2 (-52)) by (change (-41)%Z with (11 + -52)%Z; rewrite bpow_plus; reflexivity).
    rewrite E4. nra.
Qed.

Lemma exp_ge x : 1 + x <= exp x.
Proof. destruct (Req_dec x 0) as [->|H]; [rewrite exp_0; lra | left; now apply exp_ineq1]. Qed.
Lemma exp_up x : 0 <= x <= / 2 -> exp x <= 1 + 2 * x.
Proof.
  intro H. assert (A := exp_ge (- x)). rewrite exp_Ropp in A. assert (P := exp_pos x).
  assert (B : exp x * / exp x = 1) by (apply Rinv_r; lra). set (y := exp x) in *. set (z := / y) in *.
  assert (y * (1 - x) <= 1) by nra. nra.
Qed.
Lemma exp_near y z : Rabs (y - z) <= bpow radix2 (-41) -> (1 - bpow radix2 (-41)) * exp z <= exp y <= (1 + bpow radix2 (-40)) * exp z.
Proof.
  intro H. apply Rabs_le_inv in H. assert (P := exp_pos z).
  assert (S4 : bpow radix2 (-41) <= / 2) by (change (/ 2) with (bpow radix2 (-1)); apply bpow_le; lia).
  assert (P4 : 0 < bpow radix2 (-41)) by apply bpow_gt_0.
  assert (E4 : bpow radix2 (-40) = 2 * bpow radix2 (-41)) by (change (-40)%Z with (1 + -41)%Z; rewrite bpow_plus; reflexivity).
  assert (Mono : forall s t, s <= t -> exp s <= exp t).
  { intros s t [C|C]; [left; now apply exp_increasing | rewrite C; right; reflexivity]. }
  split.
  - apply Rle_trans with (exp (- bpow radix2 (-41) + z)); [|apply Mono; lra]. rewrite exp_plus.
    apply Rmult_le_compat_r; [lra|]. generalize (exp_ge (- bpow radix2 (-41))). lra.
  - apply Rle_trans with (exp (bpow radix2 (-41) + z)); [apply Mono; lra|]. rewrite exp_plus.
    apply Rmult_le_compat_r; [lra|]. rewrite E4. apply exp_up. lra.
Qed.

(** ** the ends of X ** e *)
Lemma power_tight L X e m : exp_faithful L -> log_directed L -> log_faithful L ->
  small_itv X -> kd X = Classical -> proper_fin X -> 0 < num_val (lo X) ->
  small_num e -> finite_num e -> not_natural e ->
  (forall x, member X x -> bpow radix2 (-1000) <= Rpower x (num_val e) <= bpow radix2 1000) ->
  exists Z, returns (itv_pow L X e) m Z /\ proper_fin Z /\
    (exists x, member X x /\ (1 - bpow radix2 (-39)) * Rpower x (num_val e) <= num_val (lo Z) <= Rpower x (num_val e)) /\
    (exists x, member X x /\ Rpower x (num_val e) <= num_val (hi Z) <= (1 + bpow radix2 (-39)) * Rpower x (num_val e)).
Proof.
  intros HE HL HF HS kX [[Fl Fh] Hle] H0 Se Fe Ne Rg.
  assert (HX : finite_itv X) by (split; assumption).
  assert (Xl := proj1 (finite_num_x (lo X)) Fl). assert (Xh := proj1 (finite_num_x (hi X)) Fh).
  assert (Xe := proj1 (finite_num_x e) Fe). assert (Be := abs_num_le e Se Fe).
  set (a := num_val (lo X)) in *. set (b := num_val (hi X)) in *. set (c := num_val e) in *.
  assert (MM : forall y, member X y <-> a <= y <= b). { intro y. rewrite member_x, Xl, Xh. reflexivity. }
  assert (Ma : member X a) by (apply MM; lra). assert (Mb : member X b) by (apply MM; lra).
  assert (Pw : py_ge X (ONum (PInt 0)) = true) by (apply ge_zero; [exact HX | fold a b; lra]).
  destruct (log_ends L X m a a HL HS Ma H0 Xl) as (i & u & HZ & Hlow & Hup & HD & HA); [lra|].
  destruct (HD b Xh) as (d & Fd & Vd & Hu).
  destruct HA as [(_ & d' & Fd' & Vd' & Hi)|(C & _)]; [|lra].
  assert (Pd : 0 < B2R d) by lra. assert (Pd' : 0 < B2R d') by lra.
  assert (FU := HF FE_UPWARD d Fd Pd). rewrite <- Hu in FU.
  assert (FI := HF FE_DOWNWARD d' Fd' Pd'). rewrite <- Hi in FI.
  assert (Tx : forall y, member X y -> Rabs (c * ln y) <= 751).
  { intros y My. destruct (Rg y My) as [R1 R2]. unfold Rpower in R1, R2.
    assert (Q1 := ln_mono _ _ (bpow_gt_0 radix2 (-1000)) R1). assert (Q2 := ln_mono _ _ (exp_pos (c * ln y)) R2).
    rewrite ln_exp, ln_bpow in Q1, Q2. apply Rabs_le. generalize ln2_le. lra. }
  assert (Lg : forall f : flt, is_finite f = true -> 0 < B2R f -> Rabs (ln (B2R f)) <= 1024).
  { intros f Ff Pf. apply Rabs_le. generalize (ln_flt_le f Pf) (ln_flt_ge f Ff Pf). lra. }
  assert (EU := prod_tight c (B2R u) (ln b) Be). rewrite <- Vd in EU. specialize (EU (faithful_err u _ FU (Lg d Fd Pd))).
  rewrite Vd in EU. specialize (EU (Tx b Mb)).
  assert (EI := prod_tight c (B2R i) (ln a) Be). rewrite <- Vd' in EI. specialize (EI (faithful_err i _ FI (Lg d' Fd' Pd'))).
  rewrite Vd' in EI. specialize (EI (Tx a Ma)).
  set (l := mkitv (kd X) (PFlt i) (PFlt u)) in *.
  assert (Sl : small_itv l) by (split; exact I).
  assert (kl : kd l = Classical) by exact kX.
  destruct (rmul_gives l e m Sl Se kl) as (p & q & Hmul & Xp & Xq).
  rewrite Xe in Xp, Xq. cbn [lo hi l xval] in Xp, Xq. fold c in Xp, Xq.
  rewrite (proj1 (is_finite_x u) (proj1 FU)), (proj1 (is_finite_x i) (proj1 FI)) in Xp, Xq. cbn [xmul] in Xp, Xq.
  destruct (rounded_tight mode_DN _ _ (or_intror eq_refl) EI (Tx a Ma)) as (w1 & X1 & B1).
  destruct (rounded_tight mode_DN _ _ (or_intror eq_refl) EU (Tx b Mb)) as (w2 & X2 & B2).
  destruct (rounded_tight mode_UP _ _ (or_introl eq_refl) EI (Tx a Ma)) as (w3 & X3 & B3).
  destruct (rounded_tight mode_UP _ _ (or_introl eq_refl) EU (Tx b Mb)) as (w4 & X4 & B4).
  rewrite X1, X2 in Xp. rewrite X3, X4 in Xq.
  assert (Hp : exists x wp, member X x /\ xflt p = XFin wp /\ Rabs (wp - c * ln x) <= bpow radix2 (-41)).
  { destruct (xmin2_or (XFin w1) (XFin w2)) as [E|E]; rewrite E in Xp; [exists a, w1 | exists b, w2]; auto. }
  assert (Hq : exists x wq, member X x /\ xflt q = XFin wq /\ Rabs (wq - c * ln x) <= bpow radix2 (-41)).
  { destruct (xmax2_or (XFin w3) (XFin w4)) as [E|E]; rewrite E in Xq; [exists a, w3 | exists b, w4]; auto. }
  destruct Hp as (x1 & wp & M1 & Ep & Dp). destruct Hq as (x2 & wq & M2 & Eq & Dq).
  destruct (xfin_flt _ _ Ep) as [Fp Vp]. destruct (xfin_flt _ _ Eq) as [Fq Vq].
  assert (Np := exp_near wp _ Dp). assert (Nq := exp_near wq _ Dq).
  change (exp (c * ln x1)) with (Rpower x1 c) in Np. change (exp (c * ln x2)) with (Rpower x2 c) in Nq.
  assert (S4 : bpow radix2 (-40) <= / 2) by (change (/ 2) with (bpow radix2 (-1)); apply bpow_le; lia).
  assert (S41 : bpow radix2 (-40) = 2 * bpow radix2 (-41)) by (change (-40)%Z with (1 + -41)%Z; rewrite bpow_plus; reflexivity).
  assert (P41 : 0 < bpow radix2 (-41)) by apply bpow_gt_0.
  assert (MR : forall x y, member X x -> (1 - bpow radix2 (-41)) * Rpower x c <= y <= (1 + bpow radix2 (-40)) * Rpower x c -> mid_range y).
  { intros x y Mx Hy. destruct (Rg x Mx) as [R1 R2]. 
    assert (Z1 : bpow radix2 (-1000) = 2 * bpow radix2 (-1001)) by (change (-1000)%Z with (1 + -1001)%Z; rewrite bpow_plus; reflexivity).
    assert (Z2 : bpow radix2 1001 = 2 * bpow radix2 1000) by (change 1001%Z with (1 + 1000)%Z; rewrite bpow_plus; reflexivity).
    assert (Z3 : 0 < bpow radix2 (-1001)) by apply bpow_gt_0. split; nra. }
  assert (Rp := MR x1 _ M1 Np). assert (Rq := MR x2 _ M2 Nq).
  assert (Big : forall y, mid_range y -> y <= max_double).
  { intros y [_ C]. change max_double with fmaxR. rewrite fmaxR_val.
    assert (C1 : bpow radix2 1001 <= bpow radix2 1023) by (apply bpow_le; lia).
    assert (B5 : bpow radix2 1024 = 2 * bpow radix2 1023) by (change 1024%Z with (1 + 1023)%Z; rewrite bpow_plus; reflexivity).
    assert (bpow radix2 971 <= bpow radix2 1023) by (apply bpow_le; lia). lra. }
  destruct HE as [HE HI].
  assert (Gp := HE m p Fp). rewrite Vp in Gp. specialize (Gp (Big _ Rp)).
  assert (Gq := HE m q Fq). rewrite Vq in Gq. specialize (Gq (Big _ Rq)).
  destruct (down_tight _ _ Gp Rp) as (zl & Zl & Tl). destruct (up_tight _ _ Gq Rq) as (zh & Zh & Th).
  destruct (xfin_flt _ _ Zl) as [Fzl Vzl]. destruct (xfin_flt _ _ Zh) as [Fzh Vzh].
  assert (Run : itv_pow L X e m = (Ok (mkitv Classical (PFlt (round_down (c_exp L m p))) (PFlt (round_up (c_exp L m q)))), m)).
  { rewrite (pow_general L X e Ne Pw). unfold general_pow. rewrite (bind_ok _ _ _ _ _ HZ), (bind_ok _ _ _ _ _ Hmul).
    unfold itv_exp. cbn [lo hi kd].
    rewrite (bind_ok _ _ _ _ _ (math_exp_fin L m (PFlt p) p eq_refl (proj1 Gp))).
    rewrite (bind_ok _ _ _ _ _ (math_exp_fin L m (PFlt q) q eq_refl (proj1 Gq))). reflexivity. }
  destruct (power_run L X e m (conj HE HI) HL HF HS kX HX (Rlt_le _ _ H0) Se Fe Ne (or_intror H0)) as (Z & HZ' & Hin).
  { exists a. auto. }
  { intros x Mx _. eapply Rle_trans; [apply (Rg x Mx)|]. apply bpow_le. lia. }
  rewrite Run in HZ'. injection HZ' as HZ'. subst Z.
  set (Z := mkitv Classical (PFlt (round_down (c_exp L m p))) (PFlt (round_up (c_exp L m q)))) in *.
  assert (Hin' : forall x, member X x -> zl <= Rpower x c <= zh).
  { intros x Mx. assert (Px : 0 < x) by (apply MM in Mx; lra). assert (Q := Hin x Mx Px). apply member_x in Q.
    cbn [lo hi xval Z] in Q. rewrite Zl, Zh in Q. exact Q. }
  exists Z. split; [unfold returns, outcome; now rewrite Run|].
  assert (L1 : num_val (lo Z) = zl) by exact Vzl. assert (L2 : num_val (hi Z) = zh) by exact Vzh.
  assert (T50 : bpow radix2 (-41) = 512 * bpow radix2 (-50)) by (change (-41)%Z with (9 + -50)%Z; rewrite bpow_plus; reflexivity).
  assert (T39 : bpow radix2 (-39) = 4 * bpow radix2 (-41)) by (change (-39)%Z with (2 + -41)%Z; rewrite bpow_plus; reflexivity).
  assert (P50 : 0 < bpow radix2 (-50)) by apply bpow_gt_0.
  split; [split; [split; assumption|]|].
  { rewrite L1, L2. generalize (Hin' a Ma). lra. }
  rewrite L1, L2, T39. rewrite S41 in Nq. rewrite T50 in *. set (h := bpow radix2 (-50)) in *.
  assert (Q1 : 0 < Rpower x1 c) by apply exp_pos. assert (Q2 : 0 < Rpower x2 c) by apply exp_pos.
  split.
  - exists x1. split; [exact M1|]. split; [|apply Hin'; exact M1].
    apply Rle_trans with ((1 - h) * ((1 - 512 * h) * Rpower x1 c)); [|eapply Rle_trans; [|exact Tl]; apply Rmult_le_compat_l; lra].
    assert (0 <= h * h * Rpower x1 c) by (apply Rmult_le_pos; [nra|lra]).
    assert (0 <= h * Rpower x1 c) by (apply Rmult_le_pos; lra). nra.
  - exists x2. split; [exact M2|]. split; [apply Hin'; exact M2|].
    apply Rle_trans with ((1 + h) * ((1 + 2 * (512 * h)) * Rpower x2 c)); [eapply Rle_trans; [exact Th|]; apply Rmult_le_compat_l; lra|].
    assert (Hh : h <= 1) by lra.
    assert (h * (h * Rpower x2 c) <= 1 * (h * Rpower x2 c)) by (apply Rmult_le_compat_r; [apply Rmult_le_pos; lra | exact Hh]). nra.
Qed.

(** ** sqrt *)
Lemma sqrt_flt_range (d : flt) : is_finite d = true -> 0 < B2R d -> bpow radix2 (-1000) <= sqrt (B2R d) <= bpow radix2 1000.
Proof.
  intros Fd H.
  assert (B : bpow radix2 (-1074) <= B2R d).
  { assert (Gd : generic_format radix2 fexp (B2R d)) by apply generic_format_B2R.
    apply (generic_format_ge_bpow radix2 fexp (-1074)); [intro z; unfold fexp, SpecFloat.fexp, emin; lia | exact H | exact Gd]. }
  assert (A := abs_flt_le_max d). rewrite Rabs_pos_eq in A by lra. assert (M := fmaxR_lt).
  split.
  - apply Rle_trans with (sqrt (bpow radix2 (-1074))); [|now apply sqrt_le_1_alt].
    change (-1074)%Z with (-537 + -537)%Z. rewrite bpow_plus, sqrt_square by apply bpow_ge_0. apply bpow_le. lia.
  - apply Rle_trans with (sqrt (bpow radix2 1024)); [apply sqrt_le_1_alt; lra|].
    change 1024%Z with (512 + 512)%Z. rewrite bpow_plus, sqrt_square by apply bpow_ge_0. apply bpow_le. lia.
Qed.
Lemma fhalf_val : num_val (PFlt fhalf) = 1 / 2 /\ finite_num (PFlt fhalf).
Proof. assert (H := fhalf_x). cbn [xval] in H. apply xfin_flt in H. destruct H as [F V]. split; [exact V | exact F]. Qed.
Lemma sqrt_tight L X m : exp_faithful L -> log_directed L -> log_faithful L ->
  small_itv X -> kd X = Classical -> proper_fin X -> 0 < num_val (lo X) ->
  exists Z, returns (itv_sqrt L X) m Z /\ proper_fin Z /\
    (exists x, member X x /\ (1 - bpow radix2 (-39)) * sqrt x <= num_val (lo Z) <= sqrt x) /\
    (exists x, member X x /\ sqrt x <= num_val (hi Z) <= (1 + bpow radix2 (-39)) * sqrt x).
Proof.
  intros HE HL HF HS kX HP H0. assert (HP' := HP). destruct HP' as [HX Hle].
  destruct fhalf_val as [V F].
  assert (MM : forall y, member X y -> num_val (lo X) <= y <= num_val (hi X)).
  { intros y My. apply member_x in My. destruct HX as [Fl Fh]. rewrite (proj1 (finite_num_x _) Fl), (proj1 (finite_num_x _) Fh) in My. exact My. }
  assert (SQ : forall x, member X x -> Rpower x (num_val (PFlt fhalf)) = sqrt x).
  { intros x Mx. rewrite V. replace (1 / 2) with (/ 2) by lra. apply Rpower_sqrt. generalize (MM x Mx). lra. }
  assert (DB : forall y, small_num y -> finite_num y -> exists d : flt, is_finite d = true /\ B2R d = num_val y).
  { intros y Sy Fy. destruct (small_double y Sy) as (d & _ & Xd). rewrite (proj1 (finite_num_x y) Fy) in Xd. exists d. now apply xfin_flt. }
  destruct (power_tight L X (PFlt fhalf) m HE HL HF HS kX HP H0 I F I) as (Z & RZ & PZ & (x1 & M1 & L1) & (x2 & M2 & L2)).
  { intros x Mx. rewrite (SQ x Mx). assert (Bx := MM x Mx). destruct HS as [S1 S2]. destruct HX as [F1 F2].
    destruct (DB _ S1 F1) as (d1 & Fd1 & V1). destruct (DB _ S2 F2) as (d2 & Fd2 & V2).
    destruct (sqrt_flt_range d1 Fd1) as [R1 _]; [lra|]. destruct (sqrt_flt_range d2 Fd2) as [_ R2]; [lra|].
    rewrite V1 in R1. rewrite V2 in R2. split.
    - eapply Rle_trans; [exact R1|]. apply sqrt_le_1_alt. lra.
    - eapply Rle_trans; [|exact R2]. apply sqrt_le_1_alt. lra. }
  rewrite (SQ x1 M1) in L1. rewrite (SQ x2 M2) in L2.
  exists Z. split; [|split; [exact PZ|]; split; [exists x1 | exists x2]; auto].
  unfold returns, outcome in *. rewrite <- power_half by (assumption || lra). exact RZ.
Qed.
