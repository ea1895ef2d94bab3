(** Proofs about exp, log, sqrt and integer powers. *)
From Coq Require Import ZArith Reals List Bool Lia Lra Psatz.
From Coq Require Import Floats.SpecFloat.
From Flocq Require Import Core IEEE754.BinarySingleNaN.
From Verif Require Import Base PyNum Kernel Spec SpecElem XReal XArith KernelProofs ExprProofs KernelMore Witness.
Import ListNotations.
Open Scope R_scope.

Lemma Ok_inj {A} (a b : A) : Ok a = Ok b -> a = b.
Proof. congruence. Qed.

(** ** nextafter *)
Lemma ulp0 : 0 < ulp radix2 fexp 0.
Proof. change fexp with (FLT_exp (3 - 1024 - 53) 53). rewrite ulp_FLT_0 by reflexivity. apply bpow_gt_0. Qed.
Lemma succ_gt (r : R) : r < succ radix2 fexp r.
Proof.
  destruct (Req_dec r 0) as [-> |E]; [rewrite succ_0; apply ulp0 | now apply succ_gt_id].
Qed.
Lemma pred_lt (r : R) : pred radix2 fexp r < r.
Proof. unfold pred. generalize (succ_gt (- r)). lra. Qed.

Lemma Bpred_fin (f : flt) : is_finite f = true -> - fmaxR < B2R f ->
  is_finite (Bpred f) = true /\ B2R (Bpred f) < B2R f.
Proof.
  intros Hf Hm. assert (H := Bpred_correct 53 1024 _ _ f Hf).
  rewrite Rlt_bool_true in H.
  - destruct H as (-> & -> & _). split; [reflexivity|]. apply pred_lt.
  - assert (- fmaxR <= pred radix2 fexp (B2R f)).
    { apply pred_ge_gt; auto using gen_max_opp with typeclass_instances. apply gen_B2R. }
    generalize fmaxR_lt. lra.
Qed.
Lemma Bsucc_fin (f : flt) : is_finite f = true -> B2R f < fmaxR ->
  is_finite (Bsucc f) = true /\ B2R f < B2R (Bsucc f).
Proof.
  intros Hf Hm. assert (H := Bsucc_correct 53 1024 _ _ f Hf).
  rewrite Rlt_bool_true in H.
  - destruct H as (-> & -> & _). split; [reflexivity|]. apply succ_gt.
  - assert (succ radix2 fexp (B2R f) <= fmaxR).
    { apply succ_le_lt; auto using gen_max with typeclass_instances. apply gen_B2R. }
    generalize fmaxR_lt. lra.
Qed.

Lemma xmaxneg : xflt (fneg fmaxfloat) = XFin (- fmaxR).
Proof. rewrite xflt_neg. rewrite (proj1 (is_finite_x _) fmax_finite). reflexivity. Qed.
Lemma xmaxpos : xflt fmaxfloat = XFin fmaxR.
Proof. exact (proj1 (is_finite_x _) fmax_finite). Qed.

Lemma round_down_fin (r : flt) : is_finite r = true ->
  (B2R r = - fmaxR /\ xflt (round_down r) = XFin (- fmaxR)) \/
  (exists q : flt, is_finite q = true /\ B2R q < B2R r /\ xflt (round_down r) = XFin (B2R q)).
Proof.
  intro Hf. assert (Hx := proj1 (is_finite_x r) Hf).
  assert (Hr := abs_flt_le_max r). apply Rabs_le_inv in Hr.
  unfold round_down, nextafter.
  assert (N1 : is_nan r = false) by (destruct r; simpl in *; congruence).
  assert (N2 : is_nan (fneg fmaxfloat) = false) by reflexivity.
  rewrite N1, N2. cbn [orb]. rewrite flt_eqb_x, flt_ltb_x, xmaxneg, Hx.
  destruct (xeqb (XFin (B2R r)) (XFin (- fmaxR))) eqn:E1.
  - apply xeqb_fin in E1. left. rewrite xmaxneg. auto.
  - destruct (xltb (XFin (B2R r)) (XFin (- fmaxR))) eqn:E2.
    + apply xltb_fin in E2. lra.
    + right. assert (B2R r <> - fmaxR) by (intro E; apply (proj2 (xeqb_fin _ _)) in E; congruence).
      destruct (Bpred_fin r Hf) as [P1 P2]; [lra|]. exists (Bpred r). split; [assumption|]. split; [assumption|].
      now apply is_finite_x.
Qed.
Lemma round_up_fin (r : flt) : is_finite r = true ->
  (B2R r = fmaxR /\ xflt (round_up r) = XFin fmaxR) \/
  (exists q : flt, is_finite q = true /\ B2R r < B2R q /\ xflt (round_up r) = XFin (B2R q)).
Proof.
  intro Hf. assert (Hx := proj1 (is_finite_x r) Hf).
  assert (Hr := abs_flt_le_max r). apply Rabs_le_inv in Hr.
  unfold round_up, nextafter.
  assert (N1 : is_nan r = false) by (destruct r; simpl in *; congruence).
  assert (N2 : is_nan fmaxfloat = false) by reflexivity.
  rewrite N1, N2. cbn [orb]. rewrite flt_eqb_x, flt_ltb_x, xmaxpos, Hx.
  destruct (xeqb (XFin (B2R r)) (XFin fmaxR)) eqn:E1.
  - apply xeqb_fin in E1. left. rewrite xmaxpos. auto.
  - assert (B2R r <> fmaxR) by (intro E; apply (proj2 (xeqb_fin _ _)) in E; congruence).
    rewrite (proj2 (xltb_fin (B2R r) fmaxR)) by lra.
    right. destruct (Bsucc_fin r Hf) as [P1 P2]; [lra|]. exists (Bsucc r). split; [assumption|]. split; [assumption|].
    now apply is_finite_x.
Qed.

Lemma faithful_down r v : faithful r v -> - max_double <= v -> xle_R (xflt (round_down r)) v.
Proof.
  change max_double with fmaxR.
  intros (Hf & H) Hm. destruct (round_down_fin r Hf) as [[E ->]|(q & Hq & Hlt & ->)]; [exact Hm|].
  simpl. destruct H as [[H _]|[_ H]]; [lra|].
  destruct (Rle_lt_dec (B2R q) v) as [|C]; [assumption|]. specialize (H q Hq). lra.
Qed.
Lemma faithful_up r v : faithful r v -> v <= max_double -> R_xle v (xflt (round_up r)).
Proof.
  change max_double with fmaxR.
  intros (Hf & H) Hm. destruct (round_up_fin r Hf) as [[E ->]|(q & Hq & Hlt & ->)]; [exact Hm|].
  simpl. destruct H as [[_ H]|[H _]]; [|lra].
  destruct (Rle_lt_dec v (B2R q)) as [|C]; [assumption|]. specialize (H q Hq). lra.
Qed.

(** ** exp *)
Lemma fin_not_nan (f : flt) : is_finite f = true -> is_nan f = false.
Proof. destruct f; simpl; congruence. Qed.
Lemma math_exp_fin L m x f : to_double x = Ok f -> is_finite (c_exp L m f) = true ->
  math_exp L x m = (Ok (c_exp L m f), m).
Proof.
  intros Hd Hf. unfold math_exp. erewrite bind_ok; [|unfold mlift; now rewrite Hd].
  unfold mprim. rewrite Hf, (fin_not_nan _ Hf). reflexivity.
Qed.
Lemma xfin_flt (f : flt) a : xflt f = XFin a -> is_finite f = true /\ B2R f = a.
Proof. destruct f as [s|[|]| |s m e H]; simpl; intro E; inversion E; auto. Qed.
Lemma xninf_flt (f : flt) : xflt f = XNInf -> f = fninf.
Proof. destruct f as [s|[|]| |s m e H]; simpl; intro E; inversion E; auto. Qed.
Lemma xpinf_flt (f : flt) : xflt f = XPInf -> f = finf.
Proof. destruct f as [s|[|]| |s m e H]; simpl; intro E; inversion E; auto. Qed.

Lemma max_double_pos : 0 < max_double.
Proof. exact fmaxR_pos. Qed.

(** exp in one piece: [a], [b] are the endpoint values. *)
Lemma exp_run L X m x : exp_faithful L -> exact_num (lo X) -> exact_num (hi X) ->
  xle_R (xval (lo X)) x -> R_xle x (xval (hi X)) ->
  (exists b, xval (hi X) = XFin b /\ exp b <= max_double) ->
  exists Z, itv_exp L X m = (Ok Z, m) /\ kd Z = kd X /\ member Z (exp x).
Proof.
  intros [HE HI] Hsl Hsh Hl Hh (b & Hb & Hov).
  destruct (to_double_exact _ Hsl) as (fa & Da & Xa). destruct (to_double_exact _ Hsh) as (fb & Db & Xb).
  rewrite Hb in Xb, Hh. simpl in Hh. destruct (xfin_flt _ _ Xb) as [Fb Vb]. subst b.
  assert (Mono : exp x <= exp (B2R fb)) by (destruct Hh as [Hh|Hh]; [left; now apply exp_increasing | rewrite Hh; right; reflexivity]).
  assert (FB := HE m fb Fb Hov).
  unfold itv_exp.
  assert (A : is_finite (c_exp L m fa) = true /\ xle_R (xflt (round_down (c_exp L m fa))) (exp x)).
  { rewrite <- Xa in Hl. destruct (xflt fa) as [| | |a] eqn:E; simpl in Hl; try contradiction.
    - apply xninf_flt in E. subst fa. rewrite HI. split; [reflexivity|].
      eapply xle_R_trans; [apply (faithful_down f0 0)|].
      + split; [reflexivity|]. left. simpl. split; [lra|]. auto.
      + generalize max_double_pos; lra.
      + left; apply exp_pos.
    - destruct (xfin_flt _ _ E) as [Fa Va]. subst a.
      assert (Mono2 : exp (B2R fa) <= exp x) by (destruct Hl as [Hl|Hl]; [left; now apply exp_increasing | rewrite Hl; right; reflexivity]).
      assert (FA := HE m fa Fa). assert (exp (B2R fa) <= max_double) by lra.
      specialize (FA H). split; [apply FA|]. eapply xle_R_trans; [|exact Mono2].
      apply faithful_down; [assumption|]. generalize max_double_pos (exp_pos (B2R fa)); lra. }
  destruct A as [FA LA].
  rewrite (bind_ok _ _ _ _ _ (math_exp_fin L m (lo X) fa Da FA)).
  rewrite (bind_ok _ _ _ _ _ (math_exp_fin L m (hi X) fb Db (proj1 FB))).
  eexists. split; [reflexivity|]. split; [reflexivity|].
  rewrite member_x. split; [exact LA|]. cbn [hi xval]. eapply R_xle_trans; [apply (faithful_up _ _ FB Hov) | exact Mono].
Qed.

Lemma exp_encl L X m : exp_faithful L -> small_itv X ->
  finite_num (hi X) -> exp (num_val (hi X)) <= max_double ->
  (exists x, member X x) ->
  exists Z, returns (itv_exp L X) m Z /\ forall x, member X x -> member Z (exp x).
Proof.
  intros HL [Sl Sh] Fh Hov [x0 M0].
  assert (P : forall x, member X x -> exists Z, itv_exp L X m = (Ok Z, m) /\ kd Z = kd X /\ member Z (exp x)).
  { intros x M. apply member_x in M. destruct M. apply exp_run; auto using small_exact.
    exists (num_val (hi X)). split; [now apply finite_num_x | assumption]. }
  destruct (P x0 M0) as (Z & HZ & _). exists Z. split; [unfold returns, outcome; now rewrite HZ|].
  intros x M. destruct (P x M) as (Z' & HZ' & _ & MZ). congruence.
Qed.

(** ** log *)
Lemma ln_mono x y : 0 < x -> x <= y -> ln x <= ln y.
Proof. intros H [H1|H1]; [left; now apply ln_increasing | rewrite H1; right; reflexivity]. Qed.

Lemma log_run_low L x a r : log_directed L -> exact_num x -> xval x = XFin a -> 0 <= a -> 0 < r -> a <= r ->
  exists f, log_or_neginf L x FE_DOWNWARD = (Ok f, FE_DOWNWARD) /\ xle_R (xflt f) (ln r).
Proof.
  intros [HL HI] He Hx H0 Hr Har. unfold log_or_neginf. rewrite num_eq_x, Hx. cbn [xval pn0].
  change (xflt f0) with (XFin 0).
  destruct (xeqb (XFin a) (XFin 0)) eqn:E.
  - exists fninf. split; [reflexivity|exact I].
  - assert (0 < a). { assert (a <> 0); [|lra]. intro C. apply (proj2 (xeqb_fin _ _)) in C. congruence. }
    destruct (to_double_exact _ He) as (f & Hd & Hf). rewrite Hx in Hf. destruct (xfin_flt _ _ Hf) as [Ff Vf]. subst a.
    destruct (HL f Ff H) as [H1 _].
    exists (c_log L FE_DOWNWARD f). split.
    + unfold math_log. rewrite num_le_x, Hx. cbn [xval].
      replace (xleb (XFin (B2R f)) (XFin 0)) with false.
      * erewrite bind_ok; [reflexivity|]. unfold mlift. now rewrite Hd.
      * symmetry. apply not_true_is_false. intro C. apply xleb_fin in C. lra.
    + apply flt_le_R_x in H1. eapply xle_R_trans; [exact H1|]. now apply ln_mono.
Qed.
Lemma log_run_high L x r : log_directed L -> exact_num x -> 0 < r -> R_xle r (xval x) ->
  exists f, log_or_neginf L x FE_UPWARD = (Ok f, FE_UPWARD) /\ R_xle (ln r) (xflt f) /\
    (forall b, xval x = XFin b -> exists d : flt, is_finite d = true /\ B2R d = b /\ f = c_log L FE_UPWARD d).
Proof.
  intros [HL HI] He Hr Hx. unfold log_or_neginf. rewrite num_eq_x. cbn [xval pn0]. change (xflt f0) with (XFin 0).
  destruct (to_double_exact _ He) as (f & Hd & Hf).
  destruct (xval x) as [| | |b] eqn:E; simpl in Hx; try contradiction.
  - apply xpinf_flt in Hf. subst f. exists finf. split.
    + unfold math_log. cbn [xeqb xcmp]. rewrite num_le_x, E. cbn [xval xleb xcmp].
      erewrite bind_ok; [|unfold mlift; rewrite Hd; reflexivity]. unfold mprim. now rewrite HI.
    + split; [exact I|]. discriminate.
  - destruct (xfin_flt _ _ Hf) as [Ff Vf]. subst b.
    replace (xeqb (XFin (B2R f)) (XFin 0)) with false
      by (symmetry; apply not_true_is_false; intro C; apply xeqb_fin in C; lra).
    destruct (HL f Ff) as [_ H1]; [lra|]. exists (c_log L FE_UPWARD f). split; [|split].
    + unfold math_log. rewrite num_le_x, E. cbn [xval].
      replace (xleb (XFin (B2R f)) (XFin 0)) with false
        by (symmetry; apply not_true_is_false; intro C; apply xleb_fin in C; lra).
      erewrite bind_ok; [reflexivity|]. unfold mlift. now rewrite Hd.
    + apply R_le_flt_x in H1. eapply R_xle_trans; [exact H1|]. now apply ln_mono.
    + intros b Eb. inversion Eb. exists f. auto.
Qed.

Lemma pro_vals X x : member X x -> xval (lo (pro X)) = xval (lo X) /\ xval (hi (pro X)) = xval (hi X).
Proof.
  intro M. apply member_x in M. destruct M as [M1 M2]. assert (O := member_order _ _ _ M1 M2).
  unfold pro. destruct (kd X); [auto|]. cbn [lo hi]. rewrite num_min2_x, num_max2_x. unfold xmin2, xmax2.
  destruct (xltb (xval (hi X)) (xval (lo X))) eqn:E1.
  - apply xltb_xleb in E1. assert (E := xleb_antisym _ _ E1 O). rewrite E. split; [reflexivity|].
    now destruct xltb.
  - split; [reflexivity|]. destruct (xltb (xval (lo X)) (xval (hi X))) eqn:E2; [reflexivity|].
    apply xltb_false_xleb in E2; [|eauto using xleb_nnan_l|eauto using xleb_nnan_r].
    now apply xleb_antisym.
Qed.
Lemma pro_small X : small_itv X -> small_itv (pro X).
Proof.
  intros []. unfold pro. destruct (kd X); [split; assumption|].
  split; cbn [lo hi]; unfold num_min2, num_max2; destruct num_lt; assumption.
Qed.

Lemma log_full L X m x : log_directed L -> small_itv X -> member X x -> 0 < x ->
  exists i u, itv_log L X m = (Ok (mkitv (kd X) (PFlt i) (PFlt u)), m) /\
    (forall y, member X y -> 0 < y -> xle_R (xflt i) (ln y)) /\
    (forall y, member X y -> 0 < y -> R_xle (ln y) (xflt u)) /\
    (forall b, xval (hi X) = XFin b -> exists d : flt, is_finite d = true /\ B2R d = b /\ u = c_log L FE_UPWARD d).
Proof.
  intros HL HS M Hx. destruct (pro_vals X x M) as [Pl Ph]. destruct (pro_small X HS) as [Sl Sh].
  assert (O := M). apply member_x in O. destruct O as [O1 O2]. assert (O := member_order _ _ _ O1 O2).
  unfold itv_log.
  set (mx := num_max2 (lo (pro X)) pn0).
  assert (Xm : exists a, xval mx = XFin a /\ 0 <= a /\ a <= x /\ forall y, member X y -> 0 < y -> a <= y).
  { unfold mx. rewrite num_max2_x, Pl. change (xval pn0) with (XFin 0). unfold xmax2.
    destruct (xval (lo X)) as [| | |a] eqn:E; simpl in O1; try contradiction.
    - exists 0. simpl. repeat split; try lra. intros; lra.
    - destruct (xltb (XFin a) (XFin 0)) eqn:E1.
      + exists 0. repeat split; try lra. intros; lra.
      + exists a. assert (0 <= a). { destruct (Rle_lt_dec 0 a) as [|C]; [assumption|]. apply (proj2 (xltb_fin _ _)) in C. congruence. }
        repeat split; try lra. intros y My _. apply member_x in My. rewrite E in My. simpl in My. tauto. }
  destruct Xm as (a & Xm & H0 & Hax & Hay).
  assert (Em : exact_num mx). { unfold mx, num_max2. destruct num_lt; [exact I | now apply small_exact]. }
  assert (Le : num_le mx (hi (pro X)) = true).
  { rewrite num_le_x, Ph, Xm. eapply member_order; [|exact O2]. simpl. lra. }
  rewrite Le. rewrite num_le_x, O.
  destruct (log_run_low L mx a x HL Em Xm H0 Hx Hax) as (i & Ri & _).
  rewrite <- Ph in O2. destruct (log_run_high L (hi (pro X)) x HL (small_exact _ Sh) Hx O2) as (u & Ru & _ & Du).
  exists i, u. split; [|split; [|split]].
  - rewrite (bind_ok _ _ _ _ _ (with_rounding_ok _ _ m _ _ Ri)).
    rewrite (bind_ok _ _ _ _ _ (with_rounding_ok _ _ m _ _ Ru)). reflexivity.
  - intros y My Hy. destruct (log_run_low L mx a y HL Em Xm H0 Hy (Hay y My Hy)) as (i' & Ri' & Hi'). congruence.
  - intros y My Hy. apply member_x in My. destruct My as [_ My]. rewrite <- Ph in My.
    destruct (log_run_high L (hi (pro X)) y HL (small_exact _ Sh) Hy My) as (u' & Ru' & Hu' & _). congruence.
  - intros b Hb. apply Du. now rewrite Ph.
Qed.

Lemma log_encl L X m : log_directed L -> small_itv X -> (exists x, member X x /\ 0 < x) ->
  exists Z, returns (itv_log L X) m Z /\ forall x, member X x -> 0 < x -> member Z (ln x).
Proof.
  intros HL HS (x & M & Hx). destruct (log_full L X m x HL HS M Hx) as (i & u & HZ & H1 & H2 & _).
  eexists. split; [unfold returns, outcome; rewrite HZ; reflexivity|].
  intros y My Hy. rewrite member_x. split; [exact (H1 y My Hy) | exact (H2 y My Hy)].
Qed.

Lemma log_negative L X m : small_itv X -> kd X = Classical -> num_lt (hi X) (PInt 0) = true ->
  exists Z, returns (itv_log L X) m Z /\ nan_itv Z.
Proof.
  intros HS kX H0. unfold itv_log, pro. rewrite kX. cbn [lo hi].
  assert (num_le (num_max2 (lo X) pn0) (hi X) = false) as ->.
  { rewrite num_lt_x in H0. rewrite num_le_x, num_max2_x. change (xval pn0) with (XFin 0). cbn [xval] in H0.
    apply not_true_is_false. intro C.
    destruct (xval (lo X)) as [| | |a] eqn:E.
    - rewrite xmax2_nan_l in C. discriminate.
    - unfold xmax2 in C. simpl in C. destruct (xval (hi X)); try discriminate.
      apply xleb_fin in C. apply xltb_fin in H0. lra.
    - unfold xmax2 in C. simpl in C. destruct (xval (hi X)); try discriminate.
    - assert (C2 := xmax2_ge_r (XFin a) (XFin 0) ltac:(discriminate) ltac:(discriminate)).
      assert (C3 := xleb_trans _ _ _ C2 C). destruct (xval (hi X)); try discriminate.
      apply xleb_fin in C3. apply xltb_fin in H0. lra. }
  eexists. split; [reflexivity|]. split; reflexivity.
Qed.

(** ** sqrt *)
Lemma e16 : 16 <= exp 3.
Proof.
  assert (H : 9 / 8 < exp (1 / 8)). { generalize (exp_ineq1 (1 / 8)). lra. }
  assert (E : exp 3 = exp (1 / 8) ^ 24). { rewrite <- Rpower_pow by apply exp_pos. unfold Rpower. rewrite ln_exp. f_equal. simpl. lra. }
  rewrite E. apply Rle_trans with ((9 / 8) ^ 24); [lra|]. apply pow_incr. lra.
Qed.
Lemma ln2_le : ln 2 <= 3 / 4.
Proof.
  assert (H : ln 16 <= 3). { rewrite <- (ln_exp 3). apply ln_mono; [lra | exact e16]. }
  replace 16 with (2 ^ 4) in H by lra. rewrite ln_pow in H by lra. simpl in H. lra.
Qed.
Lemma ln_flt_le (d : flt) : 0 < B2R d -> ln (B2R d) <= 768.
Proof.
  intro H. assert (Hm := abs_flt_le_max d). apply Rabs_le_inv in Hm.
  assert (B2R d <= 2 ^ 1024).
  { replace (2 ^ 1024) with (bpow radix2 1024). generalize fmaxR_lt; lra.
    change (bpow radix2 1024) with (bpow radix2 (Z.of_nat 1024)).
    rewrite <- (IZR_Zpower radix2) by lia. rewrite pow_IZR. reflexivity. }
  apply Rle_trans with (ln (2 ^ 1024)); [now apply ln_mono|].
  rewrite ln_pow by lra. rewrite INR_IZR_INZ. change (Z.of_nat 1024) with 1024%Z. generalize ln2_le; lra.
Qed.

Lemma exp_384 b : b <= 384 -> exp b <= max_double.
Proof.
  intro H. apply Rle_trans with (exp 384).
  { destruct H as [H|H]; [left; now apply exp_increasing | rewrite H; right; reflexivity]. }
  assert (E : exp 384 = exp 1 ^ 384).
  { rewrite <- Rpower_pow by apply exp_pos. unfold Rpower. rewrite ln_exp. f_equal.
    rewrite INR_IZR_INZ. change (Z.of_nat 384) with 384%Z. lra. }
  rewrite E. apply Rle_trans with (4 ^ 384).
  { apply pow_incr. generalize exp_le_3 (exp_pos 1). lra. }
  change max_double with fmaxR. rewrite fmaxR_val.
  assert (B : 4 ^ 384 = bpow radix2 768).
  { replace 4 with (2 ^ 2) by lra. rewrite <- pow_mult.
    rewrite <- (IZR_Zpower radix2) by lia. rewrite pow_IZR. reflexivity. }
  rewrite B. assert (bpow radix2 768 <= bpow radix2 971) by (apply bpow_le; lia).
  assert (bpow radix2 1024 = bpow radix2 53 * bpow radix2 971) by (rewrite <- bpow_plus; reflexivity).
  assert (4 <= bpow radix2 53). { change 4 with (bpow radix2 2). apply bpow_le. lia. }
  assert (0 < bpow radix2 971) by apply bpow_gt_0. nra.
Qed.

Lemma fhalf_x : xval (PFlt fhalf) = XFin (1 / 2).
Proof.
  cbn [xval]. rewrite xflt_sf. replace (B2SF fhalf) with (S754_finite false 4503599627370496 (-53)) by (vm_compute; reflexivity).
  cbn [xsf]. f_equal. feval. lra.
Qed.
Lemma half_not_nan m z : z <> XNan -> xmul m (XFin (1 / 2)) z <> XNan.
Proof.
  intro H. destruct z; simpl; try congruence.
  - destruct (Rcompare_spec (1 / 2) 0); try lra. discriminate.
  - destruct (Rcompare_spec (1 / 2) 0); try lra. discriminate.
  - apply xround_not_nan.
Qed.
Lemma half_up z : xleb z (XFin 768) = true -> xleb (xmul mode_UP (XFin (1 / 2)) z) (XFin 384) = true.
Proof.
  intro H. destruct z; simpl; try discriminate.
  - destruct (Rcompare_spec (1 / 2) 0); try lra. reflexivity.
  - apply xleb_fin in H. apply xround_UP_least; [|simpl; lra]. change 384 with (IZR 384). apply int_dbl. lia.
Qed.

Lemma faithful_le_int r v z : faithful r v -> v <= IZR z -> (Z.abs z <= 2 ^ 53)%Z -> B2R r <= IZR z.
Proof.
  intros (_ & [[H _]|[_ H]]) Hv Hz; [lra|]. destruct (xval_fl_small z Hz) as [F V].
  specialize (H (fl z 0) F). rewrite V in H. auto.
Qed.

Lemma sqrt_run L X m : exp_faithful L -> log_directed L -> log_faithful L ->
  small_itv X -> kd X = Classical -> finite_num (hi X) ->
  (exists x, member X x /\ 0 < x) ->
  exists Z, itv_sqrt L X m = (Ok Z, m) /\ forall x, member X x -> 0 < x -> member Z (sqrt x).
Proof.
  intros HE HL HF HS kX Fh (x0 & M0 & P0).
  destruct (log_full L X m x0 HL HS M0 P0) as (i & u & HZ & Hlow & Hup & HD).
  destruct (HD (num_val (hi X))) as (d & Fd & Vd & Hu); [now apply finite_num_x|].
  assert (Pd : 0 < B2R d).
  { rewrite Vd. apply member_x in M0. rewrite (proj1 (finite_num_x (hi X)) Fh) in M0. simpl in M0. lra. }
  assert (FU := HF FE_UPWARD d Fd Pd). rewrite <- Hu in FU.
  assert (Xu : xflt u = XFin (B2R u)) by (apply is_finite_x; apply FU).
  assert (Bu : B2R u <= 768) by (apply (faithful_le_int u _ 768 FU); [now apply ln_flt_le | lia]).
  assert (Bi : xleb (xflt i) (XFin 768) = true).
  { eapply xleb_trans; [|rewrite <- Xu in Bu || idtac; apply xleb_fin; exact Bu]. rewrite <- Xu.
    eapply member_order; [exact (Hlow x0 M0 P0) | exact (Hup x0 M0 P0)]. }
  set (l := mkitv (kd X) (PFlt i) (PFlt u)) in *.
  assert (Sl : small_itv l) by (split; exact I).
  assert (kl : kd l = Classical) by exact kX.
  destruct (rmul_gives l (PFlt fhalf) m Sl I kl) as (a & b & Hmul & Xa & Xb).
  rewrite fhalf_x in Xa, Xb. cbn [lo hi l xval] in Xa, Xb.
  assert (Ni : xflt i <> XNan) by (eapply xle_R_nnan; exact (Hlow x0 M0 P0)).
  assert (Nu : xflt u <> XNan) by (rewrite Xu; discriminate).
  assert (EN : forall x, member X x -> 0 < x -> xle_R (xflt a) (1 / 2 * ln x) /\ R_xle (1 / 2 * ln x) (xflt b)).
  { intros x M P. destruct (scale_encl (1 / 2) (xflt i) (xflt u) (ln x) (Hlow x M P) (Hup x M P)) as [[C _]|C].
    - exfalso. revert C. apply xmin2_nnan. now apply half_not_nan.
    - now rewrite Xa, Xb. }
  assert (Bb : exists bb, xflt b = XFin bb /\ bb <= 384).
  { assert (C : xleb (xflt b) (XFin 384) = true).
    { rewrite Xb. destruct (xmax2_or (xmul mode_UP (XFin (1 / 2)) (xflt i)) (xmul mode_UP (XFin (1 / 2)) (xflt u))) as [-> | ->];
        apply half_up; [assumption|]. rewrite Xu. now apply xleb_fin. }
    destruct (EN x0 M0 P0) as [_ C2]. destruct (xflt b) as [| | |bb]; try discriminate; try contradiction.
    exists bb. split; [reflexivity | now apply xleb_fin]. }
  destruct Bb as (bb & Xbb & Bbb).
  assert (P : forall x, member X x -> 0 < x -> exists Z, itv_sqrt L X m = (Ok Z, m) /\ member Z (sqrt x)).
  { intros x M Px. destruct (EN x M Px) as [E1 E2].
    destruct (exp_run L (mkitv Classical (PFlt a) (PFlt b)) m (1 / 2 * ln x) HE I I E1 E2) as (Z & RZ & _ & MZ).
    - exists bb. split; [exact Xbb | now apply exp_384].
    - exists Z. split.
      + unfold itv_sqrt. rewrite (bind_ok _ _ _ _ _ HZ). rewrite (bind_ok _ _ _ _ _ Hmul). exact RZ.
      + rewrite <- Rpower_sqrt by assumption. unfold Rpower. replace (/ 2) with (1 / 2) by lra. exact MZ. }
  destruct (P x0 M0 P0) as (Z & RZ & _). exists Z. split; [assumption|].
  intros x M Px. destruct (P x M Px) as (Z' & RZ' & MZ'). congruence.
Qed.

Lemma sqrt_encl L X m : exp_faithful L -> log_directed L -> log_faithful L ->
  small_itv X -> kd X = Classical -> finite_num (hi X) ->
  (exists x, member X x /\ 0 < x) ->
  exists Z, returns (itv_sqrt L X) m Z /\ forall x, member X x -> 0 <= x -> member Z (sqrt x).
Proof.
  intros HE HL HF HS kX Fh (x0 & M0 & P0).
  destruct (sqrt_run L X m HE HL HF HS kX Fh (ex_intro _ x0 (conj M0 P0))) as (Z & HZ & H).
  exists Z. split; [unfold returns, outcome; now rewrite HZ|].
  intros x M [Px|Px]; [now apply H|]. subst x. rewrite sqrt_0.
  assert (A : forall y, 0 < y -> y * y <= x0 -> member Z y).
  { intros y Py Hy. rewrite <- (sqrt_square y) by lra. apply H; [|nra].
    apply member_x. apply member_x in M, M0. destruct M as [M _], M0 as [_ M0]. split.
    - eapply xle_R_trans; [exact M|nra].
    - eapply R_xle_trans; [exact M0|assumption]. }
  assert (B := H x0 M0 P0). apply member_x in B. apply member_x. split.
  - destruct (xval (lo Z)) as [| | |a] eqn:E; simpl in *; try tauto.
    destruct (Rle_lt_dec a 0) as [|C]; [assumption|exfalso].
    set (y := Rmin (a / 2) (Rmin 1 x0)).
    assert (Y0 : 0 < y) by (unfold y; repeat apply Rmin_glb_lt; lra).
    assert (Y1 : y <= a / 2) by apply Rmin_l.
    assert (Y2 : y <= 1) by (eapply Rle_trans; [apply Rmin_r | apply Rmin_l]).
    assert (Y3 : y <= x0) by (eapply Rle_trans; [apply Rmin_r | apply Rmin_r]).
    assert (D := A y Y0). apply member_x in D; [|nra]. rewrite E in D. simpl in D. lra.
  - eapply R_xle_trans; [apply B | apply sqrt_pos].
Qed.
