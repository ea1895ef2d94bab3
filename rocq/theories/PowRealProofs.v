(** Powers with exponents that are not natural numbers: exp(e * log(X)). *)
From Coq Require Import ZArith Reals List Bool Lia Lra Psatz.
From Coq Require Import Floats.SpecFloat.
From Flocq Require Import Core IEEE754.BinarySingleNaN Relative.
From Verif Require Import Base PyNum Kernel Spec SpecElem SpecPow XReal XArith KernelProofs ExprProofs KernelMore Witness ElemProofs.
Import ListNotations.
Open Scope R_scope.

(** ** rounding errors *)
Lemma ulp_small x : ulp radix2 fexp x <= bpow radix2 (-52) * Rabs x + bpow radix2 (-1074).
Proof.
  destruct (Rle_or_lt (bpow radix2 (-1022)) (Rabs x)) as [H|H].
  - assert (U : ulp radix2 fexp x <= Rabs x * bpow radix2 (1 - 53)).
    { apply (ulp_FLT_le radix2 (-1074) 53). exact H. }
    generalize (bpow_gt_0 radix2 (-1074)). change (1 - 53)%Z with (-52)%Z in U. lra.
  - assert (U : ulp radix2 fexp x = bpow radix2 (-1074)).
    { apply (ulp_FLT_small radix2 (-1074) 53). eapply Rlt_le_trans; [exact H|]. apply bpow_le. lia. }
    rewrite U. generalize (bpow_gt_0 radix2 (-52)) (Rabs_pos x). nra.
Qed.
Lemma up_err x : rnd mode_UP x <= x + bpow radix2 (-52) * Rabs x + bpow radix2 (-1074).
Proof.
  assert (H := error_le_ulp radix2 fexp Zceil x). apply Rabs_le_inv in H. rewrite rnd_UP. generalize (ulp_small x). lra.
Qed.
Lemma down_err x : x - bpow radix2 (-52) * Rabs x - bpow radix2 (-1074) <= rnd mode_DN x.
Proof.
  assert (H := error_le_ulp radix2 fexp Zfloor x). apply Rabs_le_inv in H. rewrite rnd_DN. generalize (ulp_small x). lra.
Qed.
Lemma rnd_flt md x : Rabs x <= 1024 -> exists f : flt, is_finite f = true /\ B2R f = rnd md x.
Proof.
  intro H.
  assert (G : generic_format radix2 fexp 1024).
  { destruct (dbl_gen 1024) as [G _]; [|exact G]. change 1024 with (IZR 1024). apply int_dbl. lia. }
  assert (B : Rabs (rnd md x) <= 1024).
  { apply abs_round_le_generic; auto with typeclass_instances. }
  destruct (generic_dbl (rnd md x) (gen_rnd md x)) as (f & Hf).
  - eapply Rle_lt_trans; [exact B|]. change 1024 with (bpow radix2 10). apply bpow_lt. lia.
  - exists f. now apply xfin_flt.
Qed.
Lemma faithful_err r v : faithful r v -> Rabs v <= 1024 ->
  Rabs (B2R r - v) <= bpow radix2 (-52) * Rabs v + bpow radix2 (-1074).
Proof.
  intros (_ & [[H1 H2]|[H1 H2]]) Hv.
  - destruct (rnd_flt mode_DN v Hv) as (f & Ff & Vf). specialize (H2 f Ff). rewrite Vf in H2.
    assert (D := down_err v). assert (E := rnd_DN_le v). apply Rabs_le. specialize (H2 E). lra.
  - destruct (rnd_flt mode_UP v Hv) as (f & Ff & Vf). specialize (H2 f Ff). rewrite Vf in H2.
    assert (D := up_err v). assert (E := rnd_UP_ge v). apply Rabs_le. specialize (H2 E). lra.
Qed.

(** The exponent of exp stays below what overflows. *)
Lemma tiny40 : 1024 * bpow radix2 (-52) + bpow radix2 (-50) <= / 16.
Proof.
  assert (A : bpow radix2 (-52) <= bpow radix2 (-20)) by (apply bpow_le; lia).
  assert (B : bpow radix2 (-50) <= bpow radix2 (-20)) by (apply bpow_le; lia).
  change (bpow radix2 (-20)) with (/ 1048576) in A, B. lra.
Qed.
Lemma prod_bound e r v t : Rabs e <= bpow radix2 1024 -> Rabs (r - v) <= bpow radix2 (-52) * Rabs v + bpow radix2 (-1074) ->
  e * v <= t -> 0 <= t <= 1024 -> e * r <= t + / 16.
Proof.
  intros He Hr Ht Hb.
  assert (A : Rabs (e * r - e * v) <= bpow radix2 (-52) * Rabs (e * v) + bpow radix2 (-50)).
  { replace (e * r - e * v) with (e * (r - v)) by ring. rewrite !Rabs_mult.
    assert (Q := Rmult_le_compat_l _ _ _ (Rabs_pos e) Hr).
    assert (Q2 : Rabs e * bpow radix2 (-1074) <= bpow radix2 (-50)).
    { replace (-50)%Z with (1024 + -1074)%Z by lia. rewrite bpow_plus. apply Rmult_le_compat_r; [apply bpow_ge_0 | exact He]. }
    lra. }
  apply Rabs_le_inv in A. assert (T := tiny40). assert (P : 0 <= bpow radix2 (-52)) by apply bpow_ge_0.
  assert (P1 : bpow radix2 (-52) <= / 2) by (change (/ 2) with (bpow radix2 (-1)); apply bpow_le; lia).
  destruct (Rle_lt_dec 0 (e * v)) as [C|C].
  - rewrite Rabs_pos_eq in A by exact C. nra.
  - rewrite Rabs_left in A by exact C. generalize (bpow_ge_0 radix2 (-50)). nra.
Qed.
Lemma up_bound y t : y <= t -> 0 <= t <= 1025 -> rnd mode_UP y <= t + / 8.
Proof.
  intros Hy Ht. destruct (Rle_lt_dec y 0) as [C|C].
  - assert (rnd mode_UP y <= 0); [|lra]. apply gen_UP_le; [apply generic_format_0 | exact C].
  - assert (U := up_err y). rewrite Rabs_pos_eq in U by lra.
    assert (T := tiny40). assert (P : 0 <= bpow radix2 (-52)) by apply bpow_ge_0.
    assert (bpow radix2 (-1074) <= bpow radix2 (-50)) by (apply bpow_le; lia).
    assert (bpow radix2 (-52) <= / 16). { change (/ 16) with (bpow radix2 (-4)). apply bpow_le. lia. }
    assert (bpow radix2 (-52) * y <= bpow radix2 (-52) * 1025) by (apply Rmult_le_compat_l; lra). lra.
Qed.

Lemma ln_half : / 2 <= ln 2.
Proof.
  assert (H : exp (/ 2) <= 2).
  { assert (E : exp (/ 2) * exp (/ 2) = exp 1) by (rewrite <- exp_plus; f_equal; lra).
    assert (P := exp_pos (/ 2)). generalize exp_le_3. nra. }
  rewrite <- (ln_exp (/ 2)). apply ln_mono; [apply exp_pos | exact H].
Qed.
Lemma ln_bpow z : ln (bpow radix2 z) = IZR z * ln 2.
Proof. rewrite bpow_powerRZ. change (IZR radix2) with 2. rewrite powerRZ_Rpower by lra. unfold Rpower. now rewrite ln_exp. Qed.
Lemma exp_safe t : exp t <= bpow radix2 1023 -> forall y, y <= t + / 2 -> exp y <= max_double.
Proof.
  intros Ht y Hy.
  assert (A : exp y <= exp t * exp (/ 2)).
  { rewrite <- exp_plus. destruct Hy as [Hy|Hy]; [left; now apply exp_increasing | rewrite Hy; right; reflexivity]. }
  assert (P := exp_pos (/ 2)).
  assert (E : exp (/ 2) <= 7 / 4).
  { assert (E : exp (/ 2) * exp (/ 2) = exp 1) by (rewrite <- exp_plus; f_equal; lra). generalize exp_le_3. nra. }
  assert (Q := exp_pos t).
  change max_double with fmaxR. rewrite fmaxR_val.
  assert (B1 : bpow radix2 1024 = 2 * bpow radix2 1023) by (change 1024%Z with (1 + 1023)%Z; rewrite bpow_plus; reflexivity).
  assert (B2 : bpow radix2 1023 = bpow radix2 52 * bpow radix2 971) by (rewrite <- bpow_plus; reflexivity).
  assert (B3 : 4 <= bpow radix2 52) by (change 4 with (bpow radix2 2); apply bpow_le; lia).
  assert (0 < bpow radix2 971) by apply bpow_gt_0. nra.
Qed.

(** ** the lower end of log *)
Lemma low_value L x a : exact_num x -> xval x = XFin a -> 0 <= a ->
  (0 < a /\ exists d : flt, is_finite d = true /\ B2R d = a /\ log_or_neginf L x FE_DOWNWARD = (Ok (c_log L FE_DOWNWARD d), FE_DOWNWARD)) \/
  (a = 0 /\ log_or_neginf L x FE_DOWNWARD = (Ok fninf, FE_DOWNWARD)).
Proof.
  intros He Hx H0. unfold log_or_neginf. rewrite num_eq_x, Hx. cbn [xval pn0].
  change (xflt f0) with (XFin 0).
  destruct (xeqb (XFin a) (XFin 0)) eqn:E.
  - right. split; [now apply xeqb_fin | reflexivity].
  - left. assert (0 < a). { assert (a <> 0); [|lra]. intro C. apply (proj2 (xeqb_fin _ _)) in C. congruence. }
    destruct (to_double_exact _ He) as (f & Hd & Hf). rewrite Hx in Hf. destruct (xfin_flt _ _ Hf) as [Ff Vf]. subst a.
    split; [assumption|]. exists f. split; [exact Ff|]. split; [reflexivity|].
    unfold math_log. rewrite num_le_x, Hx. cbn [xval].
    replace (xleb (XFin (B2R f)) (XFin 0)) with false.
    + erewrite bind_ok; [reflexivity|]. unfold mlift. now rewrite Hd.
    + symmetry. apply not_true_is_false. intro C. apply xleb_fin in C. lra.
Qed.

Lemma log_ends L X m x a : log_directed L -> small_itv X -> member X x -> 0 < x -> xval (lo X) = XFin a -> 0 <= a ->
  exists i u, itv_log L X m = (Ok (mkitv (kd X) (PFlt i) (PFlt u)), m) /\
    (forall y, member X y -> 0 < y -> xle_R (xflt i) (ln y)) /\
    (forall y, member X y -> 0 < y -> R_xle (ln y) (xflt u)) /\
    (forall b, xval (hi X) = XFin b -> exists d : flt, is_finite d = true /\ B2R d = b /\ u = c_log L FE_UPWARD d) /\
    ((0 < a /\ exists d : flt, is_finite d = true /\ B2R d = a /\ i = c_log L FE_DOWNWARD d) \/ (a = 0 /\ i = fninf)).
Proof.
  intros HL HS M Hx Xa H0. destruct (log_full L X m x HL HS M Hx) as (i & u & HZ & Hi & Hu & HD).
  exists i, u. split; [exact HZ|]. split; [exact Hi|]. split; [exact Hu|]. split; [exact HD|].
  destruct (pro_vals X x M) as [Pl Ph]. destruct (pro_small X HS) as [Sl Sh].
  assert (O := M). apply member_x in O. destruct O as [O1 O2]. assert (O := member_order _ _ _ O1 O2).
  unfold itv_log in HZ. set (mx := num_max2 (lo (pro X)) pn0) in HZ.
  assert (Em : exact_num mx). { unfold mx, num_max2. destruct num_lt; [exact I | now apply small_exact]. }
  assert (Xm : xval mx = XFin a).
  { unfold mx. rewrite num_max2_x, Pl, Xa. change (xval pn0) with (XFin 0). unfold xmax2.
    destruct (xltb (XFin a) (XFin 0)) eqn:E; [|reflexivity]. apply xltb_fin in E. lra. }
  assert (Le : num_le mx (hi (pro X)) = true).
  { rewrite num_le_x, Ph, Xm. rewrite <- Xa. exact O. }
  rewrite Le in HZ. rewrite num_le_x, O in HZ.
  destruct (low_value L mx a Em Xm H0) as [(Pa & d & Fd & Vd & Rd)|(Pa & Rd)];
    rewrite (bind_ok _ _ _ _ _ (with_rounding_ok _ _ m _ _ Rd)) in HZ.
  - left. split; [exact Pa|]. exists d. split; [exact Fd|]. split; [exact Vd|].
    rewrite <- Ph in O2. destruct (log_run_high L (hi (pro X)) x HL (small_exact _ Sh) Hx O2) as (u' & Ru & _).
    rewrite (bind_ok _ _ _ _ _ (with_rounding_ok _ _ m _ _ Ru)) in HZ. unfold mret in HZ. congruence.
  - right. split; [exact Pa|].
    rewrite <- Ph in O2. destruct (log_run_high L (hi (pro X)) x HL (small_exact _ Sh) Hx O2) as (u' & Ru & _).
    rewrite (bind_ok _ _ _ _ _ (with_rounding_ok _ _ m _ _ Ru)) in HZ. unfold mret in HZ. congruence.
Qed.

(** ** the general branch of [**] *)
Definition general_pow (L : libm) (X : itv) (e : pynum) : M itv :=
  l <- itv_log L X ;; h <- rmul l e ;; itv_exp L h.
Lemma pow_general L X e : not_natural e -> py_ge X (ONum (PInt 0)) = true -> itv_pow L X e = general_pow L X e.
Proof.
  intros He H. unfold itv_pow, classical_pow, kaucher_pow, general_pow. rewrite H.
  destruct e as [n|f]; simpl in He.
  - replace (0 <=? n)%Z with false by (symmetry; apply Z.leb_gt; exact He). now destruct (kd X).
  - now destruct (kd X).
Qed.
Lemma pow_negative L X e m : not_natural e -> py_ge X (ONum (PInt 0)) = false -> itv_pow L X e m = (Err ValueError, m).
Proof.
  intros He H. unfold itv_pow, classical_pow, kaucher_pow. rewrite H.
  destruct e as [n|f]; simpl in He.
  - replace (0 <=? n)%Z with false by (symmetry; apply Z.leb_gt; exact He). now destruct (kd X).
  - now destruct (kd X).
Qed.

Lemma ln_flt_ge (d : flt) : is_finite d = true -> 0 < B2R d -> - 1000 <= ln (B2R d).
Proof.
  intros Fd H.
  assert (B : bpow radix2 (-1074) <= B2R d).
  { assert (Gd : generic_format radix2 fexp (B2R d)) by apply generic_format_B2R.
    apply (generic_format_ge_bpow radix2 fexp (-1074)); [intro z; unfold fexp, SpecFloat.fexp, emin; lia | exact H | exact Gd]. }
  assert (C := ln_mono _ _ (bpow_gt_0 radix2 (-1074)) B). rewrite ln_bpow in C.
  generalize ln2_le. lra.
Qed.
Lemma abs_num_le e : small_num e -> finite_num e -> Rabs (num_val e) <= bpow radix2 1024.
Proof.
  destruct e as [n|f]; cbn [num_val small_num finite_num]; intros S0 F.
  - rewrite <- abs_IZR. assert (IZR (Z.abs n) <= IZR (2 ^ 26)) by (apply IZR_le; exact S0).
    assert (bpow radix2 26 <= bpow radix2 1024) by (apply bpow_le; lia). change (bpow radix2 26) with (IZR (2 ^ 26)) in H0. lra.
  - assert (A := abs_flt_le_max f). generalize fmaxR_lt; lra.
Qed.

Lemma times_end e (r : flt) v t : Rabs e <= bpow radix2 1024 -> faithful r v -> Rabs v <= 1024 ->
  e * v <= t -> 0 <= t <= 1024 -> xleb (xmul mode_UP (XFin e) (xflt r)) (XFin (t + / 2)) = true.
Proof.
  intros He Hr Hv Ht Hb. assert (E := faithful_err r v Hr Hv).
  assert (P := prod_bound e (B2R r) v t He E Ht Hb).
  assert (Xr : xflt r = XFin (B2R r)) by (apply is_finite_x; apply Hr). rewrite Xr.
  cbn [xmul].
  assert (U := up_bound (e * B2R r) (t + / 16) P ltac:(lra)).
  unfold xround.
  destruct (Rlt_bool_spec (Rabs (rnd mode_UP (e * B2R r))) (bpow radix2 1024)) as [Q|Q].
  - apply xleb_fin. lra.
  - destruct (Rlt_bool_spec (e * B2R r) 0) as [N|N].
    + change (overflow_to_inf mode_UP true) with false. cbv iota. apply xleb_fin.
      assert (0 <= fmaxR); [|lra]. eapply Rle_trans; [apply Rabs_pos | apply (abs_flt_le_max f0)].
    + exfalso. rewrite Rabs_pos_eq in Q.
      * assert (bpow radix2 11 <= bpow radix2 1024) by (apply bpow_le; lia). change (bpow radix2 11) with 2048 in H. lra.
      * assert (G := rnd_UP_ge (e * B2R r)). lra.
Qed.

Lemma power_run L X e m : exp_faithful L -> log_directed L -> log_faithful L ->
  small_itv X -> kd X = Classical -> finite_itv X -> 0 <= num_val (lo X) ->
  small_num e -> finite_num e -> not_natural e ->
  (0 < num_val e \/ 0 < num_val (lo X)) ->
  (exists x, member X x /\ 0 < x) ->
  (forall x, member X x -> 0 < x -> Rpower x (num_val e) <= bpow radix2 1023) ->
  exists Z, itv_pow L X e m = (Ok Z, m) /\ forall x, member X x -> 0 < x -> member Z (Rpower x (num_val e)).
Proof.
  intros HE HL HF HS kX [Fl Fh] H0 Se Fe Ne Hz (x0 & M0 & P0) Ov.
  assert (Xl := proj1 (finite_num_x (lo X)) Fl). assert (Xh := proj1 (finite_num_x (hi X)) Fh).
  assert (Xe := proj1 (finite_num_x e) Fe). assert (Be := abs_num_le e Se Fe).
  set (a := num_val (lo X)) in *. set (b := num_val (hi X)) in *. set (c := num_val e) in *.
  assert (MM : forall y, member X y <-> a <= y <= b). { intro y. rewrite member_x, Xl, Xh. reflexivity. }
  assert (O := proj1 (MM x0) M0).
  assert (Pw : py_ge X (ONum (PInt 0)) = true).
  { unfold py_ge, cmp_both. unfold num_ge. rewrite !num_le_x, Xl, Xh. change (xval (PInt 0)) with (XFin 0).
    rewrite (proj2 (xleb_fin 0 a)), (proj2 (xleb_fin 0 b)) by lra. reflexivity. }
  rewrite (pow_general L X e Ne Pw).
  destruct (log_ends L X m x0 a HL HS M0 P0 Xl H0) as (i & u & HZ & Hlow & Hup & HD & HA).
  destruct (HD b Xh) as (d & Fd & Vd & Hu).
  set (t := Rmax 0 (1023 * ln 2)).
  assert (T1 : 1023 * ln 2 <= t) by apply Rmax_r.
  assert (T0 : 0 <= t) by apply Rmax_l.
  assert (Et : exp t <= bpow radix2 1023).
  { unfold t. rewrite Rmax_right by (generalize ln_half; lra). rewrite <- (ln_bpow 1023), exp_ln; [right; reflexivity | apply bpow_gt_0]. }
  assert (T2 : t <= 1024). { unfold t. rewrite Rmax_right by (generalize ln_half; lra). generalize ln2_le; lra. }
  assert (Tx : forall y, member X y -> 0 < y -> c * ln y <= t).
  { intros y My Py. assert (Q := Ov y My Py). unfold Rpower in Q.
    assert (Q2 := ln_mono _ _ (exp_pos (c * ln y)) Q). rewrite ln_exp, ln_bpow in Q2. lra. }
  assert (Pd : 0 < B2R d) by lra.
  assert (Vu : Rabs (ln (B2R d)) <= 1024).
  { apply Rabs_le. generalize (ln_flt_le d Pd) (ln_flt_ge d Fd Pd). lra. }
  assert (FU := HF FE_UPWARD d Fd Pd). rewrite <- Hu in FU.
  assert (UU : xleb (xmul mode_UP (XFin c) (xflt u)) (XFin (t + / 2)) = true).
  { apply (times_end c u (ln (B2R d)) t); auto. rewrite Vd. apply Tx; [apply MM; lra | lra]. }
  assert (UI : xleb (xmul mode_UP (XFin c) (xflt i)) (XFin (t + / 2)) = true /\ xmul mode_DN (XFin c) (xflt i) <> XNan).
  { destruct HA as [(Pa & d' & Fd' & Vd' & Hi)|(Pa & Hi)].
    - assert (Pd' : 0 < B2R d') by lra. assert (FI := HF FE_DOWNWARD d' Fd' Pd'). rewrite <- Hi in FI. split.
      + apply (times_end c i (ln (B2R d')) t); auto.
        * apply Rabs_le. generalize (ln_flt_le d' Pd') (ln_flt_ge d' Fd' Pd'). lra.
        * rewrite Vd'. apply Tx; [apply MM; lra | lra].
      + rewrite (proj1 (is_finite_x i) (proj1 FI)). apply xround_not_nan.
    - destruct Hz as [Hz|Hz]; [|lra]. rewrite Hi. change (xflt fninf) with XNInf.
      cbn [xmul]. rewrite ninf_pos by exact Hz. split; [reflexivity | discriminate]. }
  destruct UI as [UI NI].
  set (l := mkitv (kd X) (PFlt i) (PFlt u)) in *.
  assert (Sl : small_itv l) by (split; exact I).
  assert (kl : kd l = Classical) by exact kX.
  destruct (rmul_gives l e m Sl Se kl) as (p & q & Hmul & Xp & Xq).
  rewrite Xe in Xp, Xq. cbn [lo hi l xval] in Xp, Xq. fold c in Xp, Xq.
  assert (EN : forall x, member X x -> 0 < x -> xle_R (xflt p) (c * ln x) /\ R_xle (c * ln x) (xflt q)).
  { intros x M P. destruct (scale_encl c (xflt i) (xflt u) (ln x) (Hlow x M P) (Hup x M P)) as [[C _]|C].
    - exfalso. revert C. now apply xmin2_nnan.
    - now rewrite Xp, Xq. }
  assert (Bq : exists bb, xflt q = XFin bb /\ bb <= t + / 2).
  { assert (C : xleb (xflt q) (XFin (t + / 2)) = true).
    { rewrite Xq. destruct (xmax2_or (xmul mode_UP (XFin c) (xflt i)) (xmul mode_UP (XFin c) (xflt u))) as [-> | ->]; assumption. }
    destruct (EN x0 M0 P0) as [_ C2]. destruct (xflt q) as [| | |bb]; try discriminate; try contradiction.
    exists bb. split; [reflexivity | now apply xleb_fin]. }
  destruct Bq as (bb & Xbb & Bbb).
  assert (P : forall x, member X x -> 0 < x -> exists Z, general_pow L X e m = (Ok Z, m) /\ member Z (Rpower x c)).
  { intros x M Px. destruct (EN x M Px) as [E1 E2].
    destruct (exp_run L (mkitv Classical (PFlt p) (PFlt q)) m (c * ln x) HE I I E1 E2) as (Z & RZ & _ & MZ).
    - exists bb. split; [exact Xbb | exact (exp_safe t Et bb Bbb)].
    - exists Z. split; [|exact MZ].
      unfold general_pow. rewrite (bind_ok _ _ _ _ _ HZ). rewrite (bind_ok _ _ _ _ _ Hmul). exact RZ. }
  destruct (P x0 M0 P0) as (Z & RZ & _). exists Z. split; [assumption|].
  intros x M Px. destruct (P x M Px) as (Z' & RZ' & MZ'). congruence.
Qed.

Lemma power_encl L X e m : exp_faithful L -> log_directed L -> log_faithful L ->
  small_itv X -> kd X = Classical -> finite_itv X -> 0 <= num_val (lo X) ->
  small_num e -> finite_num e -> not_natural e ->
  (0 < num_val e \/ 0 < num_val (lo X)) ->
  (exists x, member X x /\ 0 < x) ->
  (forall x y, member X x -> real_power x (num_val e) y -> y <= bpow radix2 1023) ->
  exists Z, returns (itv_pow L X e) m Z /\ forall x y, member X x -> real_power x (num_val e) y -> member Z y.
Proof.
  intros HE HL HF HS kX HX H0 Se Fe Ne Hz (x0 & M0 & P0) Ov.
  destruct (power_run L X e m HE HL HF HS kX HX H0 Se Fe Ne Hz (ex_intro _ x0 (conj M0 P0))) as (Z & HZ & H).
  { intros x M P. apply (Ov x _ M). left. auto. }
  exists Z. split; [unfold returns, outcome; now rewrite HZ|].
  intros x y M [(Px & ->)|(Px & Pe & ->)]; [now apply H|]. subst x. set (c := num_val e) in *.
  assert (A : forall y, 0 < y -> y <= Rpower x0 c -> member Z y).
  { intros y Py Hy. assert (E : Rpower (Rpower y (/ c)) c = y).
    { rewrite Rpower_mult, Rinv_l, Rpower_1 by lra. reflexivity. }
    rewrite <- E. apply H; [|apply exp_pos].
    assert (K : Rpower y (/ c) <= x0).
    { assert (E0 : Rpower (Rpower x0 c) (/ c) = x0) by (rewrite Rpower_mult, Rinv_r, Rpower_1 by lra; reflexivity).
      rewrite <- E0. apply Rle_Rpower_l; [left; now apply Rinv_0_lt_compat | split; assumption]. }
    apply member_x. apply member_x in M, M0. destruct M as [M _], M0 as [_ M0]. split.
    - eapply xle_R_trans; [exact M | left; apply exp_pos].
    - eapply R_xle_trans; [exact M0 | exact K]. }
  assert (B := H x0 M0 P0). apply member_x in B. apply member_x.
  assert (P1 : 0 < Rpower x0 c) by apply exp_pos. split.
  - destruct (xval (lo Z)) as [| | |a] eqn:E; simpl in *; try tauto.
    destruct (Rle_lt_dec a 0) as [|C]; [assumption|exfalso].
    set (y := Rmin (a / 2) (Rpower x0 c)).
    assert (Y0 : 0 < y) by (unfold y; apply Rmin_glb_lt; lra).
    assert (Y1 : y <= a / 2) by apply Rmin_l.
    assert (D := A y Y0 (Rmin_r _ _)). apply member_x in D. rewrite E in D. simpl in D. lra.
  - eapply R_xle_trans; [apply B | lra].
Qed.

Lemma power_negative_int L X n m : exp_faithful L -> log_directed L -> log_faithful L ->
  small_itv X -> kd X = Classical -> proper_fin X -> 0 < num_val (lo X) -> (0 < n)%nat -> (Z.of_nat n <= 2 ^ 26)%Z ->
  bpow radix2 (-1023) <= num_val (lo X) ^ n ->
  exists Z, returns (itv_pow L X (PInt (- Z.of_nat n))) m Z /\ forall x, member X x -> member Z (/ x ^ n).
Proof.
  intros HE HL HF HS kX [HX Hle] H0 Hn Sn Ov.
  assert (MM : forall y, member X y <-> num_val (lo X) <= y <= num_val (hi X)).
  { intro y. rewrite member_x. destruct HX as [Fl Fh]. rewrite (proj1 (finite_num_x _) Fl), (proj1 (finite_num_x _) Fh). reflexivity. }
  assert (E : forall x, 0 < x -> Rpower x (num_val (PInt (- Z.of_nat n))) = / x ^ n).
  { intros x Px. cbn [num_val]. rewrite opp_IZR, <- INR_IZR_INZ, Rpower_Ropp, Rpower_pow by exact Px. reflexivity. }
  destruct (power_encl L X (PInt (- Z.of_nat n)) m HE HL HF HS kX HX) as (Z & RZ & H).
  - lra.
  - cbn [small_num]. lia.
  - exact I.
  - cbn [not_natural]. lia.
  - right. exact H0.
  - exists (num_val (lo X)). split; [apply MM; lra | exact H0].
  - intros x y M [(Px & ->)|(Px & Pe & ->)]; [|apply bpow_ge_0]. rewrite E by exact Px.
    replace 1023%Z with (- -1023)%Z by reflexivity. rewrite bpow_opp. apply Rinv_le; [apply bpow_gt_0|].
    apply MM in M. eapply Rle_trans; [exact Ov|]. apply pow_incr. lra.
  - exists Z. split; [exact RZ|]. intros x M. assert (N := proj1 (MM x) M). apply (H x _ M). left. split; [lra|].
    symmetry. apply E. lra.
Qed.
