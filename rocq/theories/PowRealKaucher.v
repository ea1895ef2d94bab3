(** Powers with exponents that are not natural numbers, of proper and improper
    intervals of the Kaucher class. *)
From Coq Require Import ZArith Reals List Bool Lia Lra Psatz.
From Flocq Require Import Core IEEE754.BinarySingleNaN Relative.
From Verif Require Import Base PyNum Kernel Spec SpecElem SpecPow SpecKaucher XReal XArith KernelProofs ExprProofs KernelMore Witness ElemProofs
  KaucherProofs KaucherRound KaucherElem PowRealProofs PowRealRefute PowRealTight.
Import ListNotations.
Open Scope R_scope.

Lemma log_shape L X m Z : returns (itv_log L X) m Z -> exists i u, Z = mkitv (kd X) (PFlt i) (PFlt u).
Proof.
  unfold returns, outcome, itv_log. cbv zeta.
  destruct (num_le (num_max2 (lo (pro X)) pn0) (hi (pro X))); [|intro H; apply Ok_inj in H; subst; eauto].
  destruct (num_le (lo X) (hi X)); unfold mbind;
    repeat match goal with |- context [with_rounding ?md ?c ?mm] => destruct (with_rounding md c mm) as [[?|?] ?]; [|discriminate] end;
    intro H; apply Ok_inj in H; subst; eauto.
Qed.
Lemma down_near v (f : flt) : rounded_down v (PFlt f) -> Rabs v <= 1024 ->
  xflt f = XFin (B2R f) /\ Rabs (B2R f - v) <= bpow radix2 (-52) * Rabs v + bpow radix2 (-1074).
Proof.
  intros [H1 H2] Hv. specialize (H1 v eq_refl). apply num_le_R_x in H1. cbn [xval] in H1.
  destruct (rnd_flt mode_DN v Hv) as (g & Fg & Vg). assert (D := down_err v). assert (E := rnd_DN_le v).
  assert (Ng : is_nan g = false) by (destruct g; simpl in *; congruence).
  specialize (H2 g Ng). rewrite num_le_x in H2. cbn [xval] in H2. rewrite (proj1 (is_finite_x g) Fg), Vg in H2.
  assert (Q : xleb (XFin (rnd mode_DN v)) (xflt f) = true).
  { apply H2. intros r ->. apply flt_le_R_x. rewrite (proj1 (is_finite_x g) Fg), Vg. exact E. }
  destruct (xflt f) as [| | |w] eqn:Ef; simpl in H1; try contradiction; [discriminate|].
  destruct (xfin_flt _ _ Ef) as [_ Vf]. rewrite Vf. split; [reflexivity|]. apply xleb_fin in Q. apply Rabs_le. lra.
Qed.
Lemma up_near v (f : flt) : rounded_up v (PFlt f) -> Rabs v <= 1024 ->
  xflt f = XFin (B2R f) /\ Rabs (B2R f - v) <= bpow radix2 (-52) * Rabs v + bpow radix2 (-1074).
Proof.
  intros [H1 H2] Hv. specialize (H1 v eq_refl). apply R_le_num_x in H1. cbn [xval] in H1.
  destruct (rnd_flt mode_UP v Hv) as (g & Fg & Vg). assert (D := up_err v). assert (E := rnd_UP_ge v).
  assert (Ng : is_nan g = false) by (destruct g; simpl in *; congruence).
  specialize (H2 g Ng). rewrite num_le_x in H2. cbn [xval] in H2. rewrite (proj1 (is_finite_x g) Fg), Vg in H2.
  assert (Q : xleb (xflt f) (XFin (rnd mode_UP v)) = true).
  { apply H2. intros r ->. apply R_le_flt_x. rewrite (proj1 (is_finite_x g) Fg), Vg. exact E. }
  destruct (xflt f) as [| | |w] eqn:Ef; simpl in H1; try contradiction; [discriminate|].
  destruct (xfin_flt _ _ Ef) as [_ Vf]. rewrite Vf. split; [reflexivity|]. apply xleb_fin in Q. apply Rabs_le. lra.
Qed.
Lemma tz_tight y z : Rabs (y - z) <= 755 * bpow radix2 (-52) -> Rabs z <= 751 -> exists w, xtz y = XFin w /\ Rabs (w - z) <= bpow radix2 (-41).
Proof. intros H1 H2. unfold xtz. destruct (Rle_dec 0 y); apply rounded_tight; auto. Qed.
Lemma az_tight y z : Rabs (y - z) <= 755 * bpow radix2 (-52) -> Rabs z <= 751 -> exists w, xaz y = XFin w /\ Rabs (w - z) <= bpow radix2 (-41).
Proof. intros H1 H2. unfold xaz. destruct (Rle_dec 0 y); apply rounded_tight; auto. Qed.
Lemma log_of_power x c : 0 < x -> bpow radix2 (-1000) <= Rpower x c <= bpow radix2 1000 -> Rabs (c * ln x) <= 751.
Proof.
  intros Px [R1 R2]. unfold Rpower in R1, R2.
  assert (Q1 := ln_mono _ _ (bpow_gt_0 radix2 (-1000)) R1). assert (Q2 := ln_mono _ _ (exp_pos (c * ln x)) R2).
  rewrite ln_exp, ln_bpow in Q1, Q2. apply Rabs_le. generalize ln2_le. lra.
Qed.
Lemma mid_of y p : bpow radix2 (-1000) <= p <= bpow radix2 1000 -> (1 - bpow radix2 (-41)) * p <= y <= (1 + bpow radix2 (-40)) * p -> mid_range y.
Proof.
  intros [R1 R2] Hy.
  assert (S4 : bpow radix2 (-40) <= / 2) by (change (/ 2) with (bpow radix2 (-1)); apply bpow_le; lia).
  assert (S41 : bpow radix2 (-40) = 2 * bpow radix2 (-41)) by (change (-40)%Z with (1 + -41)%Z; rewrite bpow_plus; reflexivity).
  assert (P41 : 0 < bpow radix2 (-41)) by apply bpow_gt_0.
  assert (Z1 : bpow radix2 (-1000) = 2 * bpow radix2 (-1001)) by (change (-1000)%Z with (1 + -1001)%Z; rewrite bpow_plus; reflexivity).
  assert (Z2 : bpow radix2 1001 = 2 * bpow radix2 1000) by (change 1001%Z with (1 + 1000)%Z; rewrite bpow_plus; reflexivity).
  assert (Z3 : 0 < bpow radix2 (-1001)) by apply bpow_gt_0. split; nra.
Qed.
Lemma mid_small y : mid_range y -> y <= max_double.
Proof.
  intros [_ C]. change max_double with fmaxR. rewrite fmaxR_val.
  assert (C1 : bpow radix2 1001 <= bpow radix2 1023) by (apply bpow_le; lia).
  assert (B5 : bpow radix2 1024 = 2 * bpow radix2 1023) by (change 1024%Z with (1 + 1023)%Z; rewrite bpow_plus; reflexivity).
  assert (bpow radix2 971 <= bpow radix2 1023) by (apply bpow_le; lia). lra.
Qed.
Lemma end_low h p v w : 0 < h -> 513 * h <= / 4 -> 0 < p -> (1 - 512 * h) * p <= v <= (1 + 2 * (512 * h)) * p -> (1 - h) * v <= w <= v ->
  Rabs (w - p) <= 4 * (512 * h) * p.
Proof.
  intros H0 H1 Hp Hv Hw. assert (0 <= h * p) by (apply Rmult_le_pos; lra).
  assert (h * v <= h * ((1 + 2 * (512 * h)) * p)) by (apply Rmult_le_compat_l; lra).
  assert (h * (h * p) <= 1 * (h * p)) by (apply Rmult_le_compat_r; lra). apply Rabs_le. nra.
Qed.
Lemma end_high h p v w : 0 < h -> 513 * h <= / 4 -> 0 < p -> (1 - 512 * h) * p <= v <= (1 + 2 * (512 * h)) * p -> v <= w <= (1 + h) * v ->
  Rabs (w - p) <= 4 * (512 * h) * p.
Proof.
  intros H0 H1 Hp Hv Hw. assert (0 <= h * p) by (apply Rmult_le_pos; lra).
  assert (h * v <= h * ((1 + 2 * (512 * h)) * p)) by (apply Rmult_le_compat_l; lra).
  assert (h * (h * p) <= 1 * (h * p)) by (apply Rmult_le_compat_r; lra). apply Rabs_le. nra.
Qed.

Lemma power_kaucher L X e m : exp_faithful L -> log_directed L -> log_faithful L ->
  small_itv X -> kd X = Kaucher -> finite_itv X -> 0 < num_val (lo X) -> 0 < num_val (hi X) ->
  small_num e -> finite_num e -> not_natural e ->
  bpow radix2 (-1000) <= Rpower (num_val (lo X)) (num_val e) <= bpow radix2 1000 ->
  bpow radix2 (-1000) <= Rpower (num_val (hi X)) (num_val e) <= bpow radix2 1000 ->
  exists Z p q, returns (itv_pow L X e) m Z /\ kd Z = Kaucher /\ finite_itv Z /\
    (0 <= num_val e -> p = num_val (lo X) /\ q = num_val (hi X)) /\ (num_val e < 0 -> p = num_val (hi X) /\ q = num_val (lo X)) /\
    Rabs (num_val (lo Z) - Rpower p (num_val e)) <= bpow radix2 (-39) * Rpower p (num_val e) /\
    Rabs (num_val (hi Z) - Rpower q (num_val e)) <= bpow radix2 (-39) * Rpower q (num_val e).
Proof.
  intros HE HL HF HS kX HX P1 P2 Se Fe Ne R1 R2.
  assert (Xe := proj1 (finite_num_x e) Fe). assert (Be := abs_num_le e Se Fe).
  assert (Pw : py_ge X (ONum (PInt 0)) = true) by (apply ge_zero; [exact HX | lra]).
  destruct (log_exact L X m HL HF HS HX) as (l & Rl & Kl & Dl & Ul); try assumption; [rewrite kX; discriminate|].
  destruct (log_shape _ _ _ _ Rl) as (i & u & El). subst l. cbn [lo hi] in Dl, Ul.
  assert (HZ : itv_log L X m = (Ok (mkitv (kd X) (PFlt i) (PFlt u)), m)).
  { assert (K := keeps_log L X m). unfold returns, outcome in Rl. destruct (itv_log L X m) as [r m1]. simpl in *. now subst. }
  set (a := num_val (lo X)) in *. set (b := num_val (hi X)) in *. set (c := num_val e) in *.
  assert (DB : forall y, small_num y -> finite_num y -> 0 < num_val y -> Rabs (ln (num_val y)) <= 1024).
  { intros y Sy Fy Py. destruct (small_double y Sy) as (d & _ & Xd). rewrite (proj1 (finite_num_x y) Fy) in Xd. destruct (xfin_flt _ _ Xd) as [Fd Vd].
    rewrite <- Vd in *. apply Rabs_le. generalize (ln_flt_le d Py) (ln_flt_ge d Fd Py). lra. }
  destruct HS as [S1 S2]. destruct HX as [F1 F2].
  destruct (down_near _ _ Dl (DB _ S1 F1 P1)) as [Xi Ei]. destruct (up_near _ _ Ul (DB _ S2 F2 P2)) as [Xu Eu]. fold a in Ei. fold b in Eu.
  assert (Ta := log_of_power a c P1 R1). assert (Tb := log_of_power b c P2 R2).
  assert (EI := prod_tight c (B2R i) (ln a) Be Ei Ta). assert (EU := prod_tight c (B2R u) (ln b) Be Eu Tb).
  destruct (krmul_rounds (mkitv (kd X) (PFlt i) (PFlt u)) e c m (B2R i) (B2R u)) as (p & q & Hmul & Xp & Xq);
    [split; exact I | exact Se | exact Xi | exact Xu | exact Xe|].
  destruct (kscale (B2R i) (B2R u) c) as [K1 K2]. rewrite K1 in Xp. rewrite K2 in Xq.
  assert (Q : exists x1 x2 wp wq, xflt p = XFin wp /\ xflt q = XFin wq /\ Rabs (wp - c * ln x1) <= bpow radix2 (-41) /\ Rabs (wq - c * ln x2) <= bpow radix2 (-41) /\
     (0 <= c -> x1 = a /\ x2 = b) /\ (c < 0 -> x1 = b /\ x2 = a) /\
     bpow radix2 (-1000) <= Rpower x1 c <= bpow radix2 1000 /\ bpow radix2 (-1000) <= Rpower x2 c <= bpow radix2 1000).
  { destruct (Rle_dec 0 c) as [C|C].
    - destruct (tz_tight _ _ EI Ta) as (wp & Wp & Bp). destruct (az_tight _ _ EU Tb) as (wq & Wq & Bq).
      exists a, b, wp, wq. rewrite Xp, Xq. repeat split; auto; try lra; apply R1 || apply R2.
    - destruct (tz_tight _ _ EU Tb) as (wp & Wp & Bp). destruct (az_tight _ _ EI Ta) as (wq & Wq & Bq).
      exists b, a, wp, wq. rewrite Xp, Xq. repeat split; auto; try lra; apply R1 || apply R2. }
  destruct Q as (x1 & x2 & wp & wq & Ep & Eq & Dp & Dq & C1 & C2 & G1 & G2).
  destruct (xfin_flt _ _ Ep) as [Fp Vp]. destruct (xfin_flt _ _ Eq) as [Fq Vq].
  assert (Np := exp_near wp _ Dp). assert (Nq := exp_near wq _ Dq).
  change (exp (c * ln x1)) with (Rpower x1 c) in Np. change (exp (c * ln x2)) with (Rpower x2 c) in Nq.
  assert (Rp := mid_of _ _ G1 Np). assert (Rq := mid_of _ _ G2 Nq).
  destruct HE as [HE HI].
  assert (Gp := HE m p Fp). rewrite Vp in Gp. specialize (Gp (mid_small _ Rp)).
  assert (Gq := HE m q Fq). rewrite Vq in Gq. specialize (Gq (mid_small _ Rq)).
  destruct (down_tight _ _ Gp Rp) as (zl & Zl & Tl). destruct (up_tight _ _ Gq Rq) as (zh & Zh & Th).
  destruct (xfin_flt _ _ Zl) as [Fzl Vzl]. destruct (xfin_flt _ _ Zh) as [Fzh Vzh].
  assert (Ol := faithful_down _ _ Gp). assert (Oh := faithful_up _ _ Gq (mid_small _ Rq)).
  rewrite Zl in Ol. rewrite Zh in Oh. simpl in Ol, Oh.
  assert (Ol' : zl <= exp wp) by (apply Ol; generalize (exp_pos wp) max_double_pos; lra).
  exists (mkitv Kaucher (PFlt (round_down (c_exp L m p))) (PFlt (round_up (c_exp L m q)))), x1, x2.
  split; [|split; [reflexivity|]; split; [split; assumption|]; split; [exact C1|]; split; [exact C2|]].
  - unfold returns, outcome. rewrite (pow_general L X e Ne Pw). unfold general_pow. rewrite (bind_ok _ _ _ _ _ HZ).
    unfold rmul. cbn [kd]. rewrite kX in *. rewrite (bind_ok _ _ _ _ _ Hmul).
    unfold itv_exp. cbn [lo hi kd].
    rewrite (bind_ok _ _ _ _ _ (math_exp_fin L m (PFlt p) p eq_refl (proj1 Gp))).
    rewrite (bind_ok _ _ _ _ _ (math_exp_fin L m (PFlt q) q eq_refl (proj1 Gq))). reflexivity.
  - cbn [lo hi num_val]. rewrite Vzl, Vzh.
    assert (T50 : bpow radix2 (-41) = 512 * bpow radix2 (-50)) by (change (-41)%Z with (9 + -50)%Z; rewrite bpow_plus; reflexivity).
    assert (T39 : bpow radix2 (-39) = 4 * bpow radix2 (-41)) by (change (-39)%Z with (2 + -41)%Z; rewrite bpow_plus; reflexivity).
    assert (S41 : bpow radix2 (-40) = 2 * bpow radix2 (-41)) by (change (-40)%Z with (1 + -41)%Z; rewrite bpow_plus; reflexivity).
    assert (P50 : 0 < bpow radix2 (-50)) by apply bpow_gt_0.
    assert (S50 : 513 * bpow radix2 (-50) <= / 4).
    { assert (bpow radix2 (-50) <= bpow radix2 (-20)) by (apply bpow_le; lia). change (bpow radix2 (-20)) with (/ 1048576) in H. lra. }
    rewrite S41, T50 in Np, Nq. rewrite T39, T50. set (h := bpow radix2 (-50)) in *.
    assert (Q1 : 0 < Rpower x1 c) by apply exp_pos. assert (Q2 : 0 < Rpower x2 c) by apply exp_pos.
    split; [apply (end_low h _ (exp wp)) | apply (end_high h _ (exp wq))]; auto.
Qed.
