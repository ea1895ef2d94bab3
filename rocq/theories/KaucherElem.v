(** The elementary functions of proper and improper intervals: how close the
    computed ends are to the exact ones. *)
From Coq Require Import ZArith Reals List Bool Lia Lra Psatz.
From Coq Require Import Floats.SpecFloat.
From Flocq Require Import Core IEEE754.BinarySingleNaN.
From Verif Require Import Base PyNum Kernel Spec XReal XArith KernelProofs Expr ExprProofs KaucherProofs Witness SpecElem ElemProofs TrigProofs SpecKaucher KaucherRound.
Import ListNotations.
Open Scope R_scope.

Definition closeR (v x : R) : Prop := forall g h : flt, is_finite g = true -> is_finite h = true ->
  ~ (x < B2R g /\ B2R g < B2R h /\ B2R h < v) /\ ~ (v < B2R h /\ B2R h < B2R g /\ B2R g < x).
Lemma close_of v x : finite_num x -> closeR v (num_val x) -> close v x.
Proof. intros F H. split; [exact F|]. intros (g & h & Fg & Fh & D). destruct (H g h Fg Fh). tauto. Qed.
Definition adjR (x r : R) : Prop := forall g : flt, is_finite g = true -> ~ (x < B2R g < r) /\ ~ (r < B2R g < x).
Lemma adj_close r v x : faithful r v -> adjR x (B2R r) -> closeR v x.
Proof.
  intros (F & H) A g h Fg Fh. destruct (A g Fg) as [A1 A2].
  split; intros (H1 & H2 & H3); destruct H as [[Q1 Q2] | [Q1 Q2]]; specialize (Q2 h Fh); lra.
Qed.
Lemma adj_refl r : adjR r r. Proof. intros g _. lra. Qed.
Lemma xflt_fin (f : flt) a : xflt f = XFin a -> finite_num (PFlt f) /\ num_val (PFlt f) = a.
Proof. intro E. now apply xfin_flt in E. Qed.

Lemma pred_adj (r : flt) : is_finite r = true -> - fmaxR < B2R r -> adjR (B2R (Bpred r)) (B2R r).
Proof.
  intros F Hr. assert (P := Bpred_correct 53 1024 _ _ r F).
  intros g Fg. assert (E : B2R (Bpred r) = pred radix2 fexp (B2R r)).
  { rewrite Rlt_bool_true in P; [apply P|].
    assert (- fmaxR <= pred radix2 fexp (B2R r)) by (apply pred_ge_gt; auto using gen_max_opp, gen_B2R with typeclass_instances).
    generalize fmaxR_lt. lra. }
  rewrite E. split; intros [Q1 Q2].
  - assert (B2R g <= pred radix2 fexp (B2R r)) by (apply pred_ge_gt; auto using gen_B2R with typeclass_instances). lra.
  - assert (pred radix2 fexp (B2R r) <= B2R r) by (apply pred_le_id). lra.
Qed.
Lemma succ_adj (r : flt) : is_finite r = true -> B2R r < fmaxR -> adjR (B2R (Bsucc r)) (B2R r).
Proof.
  intros F Hr. assert (P := Bsucc_correct 53 1024 _ _ r F).
  intros g Fg. assert (E : B2R (Bsucc r) = succ radix2 fexp (B2R r)).
  { rewrite Rlt_bool_true in P; [apply P|].
    assert (succ radix2 fexp (B2R r) <= fmaxR) by (apply succ_le_lt; auto using gen_max, gen_B2R with typeclass_instances).
    generalize fmaxR_lt. lra. }
  rewrite E. split; intros [Q1 Q2].
  - assert (B2R r <= succ radix2 fexp (B2R r)) by (apply succ_ge_id). lra.
  - assert (succ radix2 fexp (B2R r) <= B2R g) by (apply succ_le_lt; auto using gen_B2R with typeclass_instances). lra.
Qed.
Lemma down_adj (r : flt) : is_finite r = true -> exists q : flt, round_down r = q /\ is_finite q = true /\ adjR (B2R q) (B2R r).
Proof.
  intro Hf. assert (Hx := proj1 (is_finite_x r) Hf). assert (Hr := abs_flt_le_max r). apply Rabs_le_inv in Hr.
  unfold round_down, nextafter. rewrite (fin_not_nan _ Hf). change (is_nan (fneg fmaxfloat)) with false. cbn [orb].
  rewrite flt_eqb_x, flt_ltb_x, xmaxneg, Hx. destruct (xeqb (XFin (B2R r)) (XFin (- fmaxR))) eqn:E1.
  - apply xeqb_fin in E1. destruct (xfin_flt _ _ xmaxneg) as [F V]. eexists. split; [reflexivity|]. split; [exact F|]. rewrite V, E1. apply adj_refl.
  - assert (B2R r <> - fmaxR) by (intro E; apply (proj2 (xeqb_fin _ _)) in E; congruence).
    destruct (xltb (XFin (B2R r)) (XFin (- fmaxR))) eqn:E2; [apply xltb_fin in E2; lra|].
    destruct (Bpred_fin r Hf) as [P1 P2]; [lra|]. eexists. split; [reflexivity|]. split; [exact P1|]. apply pred_adj; [assumption | lra].
Qed.
Lemma up_adj (r : flt) : is_finite r = true -> exists q : flt, round_up r = q /\ is_finite q = true /\ adjR (B2R q) (B2R r).
Proof.
  intro Hf. assert (Hx := proj1 (is_finite_x r) Hf). assert (Hr := abs_flt_le_max r). apply Rabs_le_inv in Hr.
  unfold round_up, nextafter. rewrite (fin_not_nan _ Hf). change (is_nan fmaxfloat) with false. cbn [orb].
  rewrite flt_eqb_x, flt_ltb_x, xmaxpos, Hx. destruct (xeqb (XFin (B2R r)) (XFin fmaxR)) eqn:E1.
  - apply xeqb_fin in E1. destruct (xfin_flt _ _ xmaxpos) as [F V]. eexists. split; [reflexivity|]. split; [exact F|]. rewrite V, E1. apply adj_refl.
  - assert (B2R r <> fmaxR) by (intro E; apply (proj2 (xeqb_fin _ _)) in E; congruence).
    rewrite (proj2 (xltb_fin (B2R r) fmaxR)) by lra.
    destruct (Bsucc_fin r Hf) as [P1 P2]; [lra|]. eexists. split; [reflexivity|]. split; [exact P1|]. apply succ_adj; [assumption | lra].
Qed.

(** *** exp *)
Theorem exp_close L X m : exp_faithful L -> small_itv X -> finite_itv X -> exp (num_val (lo X)) <= max_double -> exp (num_val (hi X)) <= max_double ->
  exists Z, returns (itv_exp L X) m Z /\ kd Z = kd X /\
    num_le_R (lo Z) (exp (num_val (lo X))) /\ close (exp (num_val (lo X))) (lo Z) /\
    R_le_num (exp (num_val (hi X))) (hi Z) /\ close (exp (num_val (hi X))) (hi Z).
Proof.
  intros [HE _] [S1 S2] [F1 F2] O1 O2. apply finite_num_x in F1, F2.
  destruct (to_double_exact _ (small_exact _ S1)) as (fa & Da & Xa). destruct (to_double_exact _ (small_exact _ S2)) as (fb & Db & Xb).
  rewrite F1 in Xa. rewrite F2 in Xb. destruct (xfin_flt _ _ Xa) as [Fa Va]. destruct (xfin_flt _ _ Xb) as [Fb Vb].
  rewrite <- Va, <- Vb in *. assert (HA := HE m fa Fa O1). assert (HB := HE m fb Fb O2).
  destruct (down_adj _ (proj1 HA)) as (q & Q & Fq & Aq). destruct (up_adj _ (proj1 HB)) as (p & P & Fp & Ap).
  exists (mkitv (kd X) (PFlt q) (PFlt p)). split; [|split; [reflexivity|]].
  - unfold returns, outcome, itv_exp. rewrite (bind_ok _ _ _ _ _ (math_exp_fin L m (lo X) fa Da (proj1 HA))).
    rewrite (bind_ok _ _ _ _ _ (math_exp_fin L m (hi X) fb Db (proj1 HB))). cbn. now rewrite Q, P.
  - cbn [lo hi]. split; [|split; [|split]].
    + apply num_le_R_x. cbn [xval]. rewrite <- Q. apply faithful_down; [exact HA|]. generalize max_double_pos (exp_pos (B2R fa)); lra.
    + apply close_of; [exact Fq|]. now apply adj_close with (c_exp L m fa).
    + apply R_le_num_x. cbn [xval]. rewrite <- P. now apply faithful_up.
    + apply close_of; [exact Fp|]. now apply adj_close with (c_exp L m fb).
Qed.

(** *** log *)
Lemma log_exact_down L x : log_directed L -> log_faithful L -> small_num x -> finite_num x -> 0 < num_val x ->
  exists f, log_or_neginf L x FE_DOWNWARD = (Ok f, FE_DOWNWARD) /\ rounded_down (ln (num_val x)) (PFlt f).
Proof.
  intros [HL _] HF Sx Fx P. apply finite_num_x in Fx. destruct (to_double_exact _ (small_exact _ Sx)) as (d & Hd & Xd).
  rewrite Fx in Xd. destruct (xfin_flt _ _ Xd) as [Fd Vd]. rewrite <- Vd in *.
  exists (c_log L FE_DOWNWARD d). split.
  - unfold log_or_neginf. rewrite num_eq_x, Fx. change (xval pn0) with (XFin 0).
    replace (xeqb (XFin (B2R d)) (XFin 0)) with false by (symmetry; apply not_true_is_false; intro C; apply xeqb_fin in C; lra).
    unfold math_log. rewrite num_le_x, Fx. cbn [xval].
    replace (xleb (XFin (B2R d)) (XFin 0)) with false by (symmetry; apply not_true_is_false; intro C; apply xleb_fin in C; lra).
    erewrite bind_ok; [reflexivity|]. unfold mlift. now rewrite Hd.
  - destruct (HL d Fd P) as [H1 _]. destruct (HF FE_DOWNWARD d Fd P) as [FF H2]. apply flt_le_R_x in H1.
    assert (XF := proj1 (is_finite_x _) FF). rewrite XF in H1. cbn in H1. split.
    + intros r ->. apply num_le_R_x. cbn [xval]. rewrite XF. exact H1.
    + intros g Ng Hg. specialize (Hg _ eq_refl). apply flt_le_R_x in Hg. rewrite num_le_x. cbn [xval]. rewrite XF.
      destruct (xflt g) as [| | |v] eqn:Eg; cbn in Hg; try contradiction; [reflexivity|].
      destruct (xfin_flt _ _ Eg) as [Fg Vg]. subst v. apply xleb_fin. destruct H2 as [[_ H2] | [H2 _]]; [now apply H2 | lra].
Qed.
Lemma log_exact_up L x : log_directed L -> log_faithful L -> small_num x -> finite_num x -> 0 < num_val x ->
  exists f, log_or_neginf L x FE_UPWARD = (Ok f, FE_UPWARD) /\ rounded_up (ln (num_val x)) (PFlt f).
Proof.
  intros [HL _] HF Sx Fx P. apply finite_num_x in Fx. destruct (to_double_exact _ (small_exact _ Sx)) as (d & Hd & Xd).
  rewrite Fx in Xd. destruct (xfin_flt _ _ Xd) as [Fd Vd]. rewrite <- Vd in *.
  exists (c_log L FE_UPWARD d). split.
  - unfold log_or_neginf. rewrite num_eq_x, Fx. change (xval pn0) with (XFin 0).
    replace (xeqb (XFin (B2R d)) (XFin 0)) with false by (symmetry; apply not_true_is_false; intro C; apply xeqb_fin in C; lra).
    unfold math_log. rewrite num_le_x, Fx. cbn [xval].
    replace (xleb (XFin (B2R d)) (XFin 0)) with false by (symmetry; apply not_true_is_false; intro C; apply xleb_fin in C; lra).
    erewrite bind_ok; [reflexivity|]. unfold mlift. now rewrite Hd.
  - destruct (HL d Fd P) as [_ H1]. destruct (HF FE_UPWARD d Fd P) as [FF H2]. apply R_le_flt_x in H1.
    assert (XF := proj1 (is_finite_x _) FF). rewrite XF in H1. cbn in H1. split.
    + intros r ->. apply R_le_num_x. cbn [xval]. rewrite XF. exact H1.
    + intros g Ng Hg. specialize (Hg _ eq_refl). apply R_le_flt_x in Hg. rewrite num_le_x. cbn [xval]. rewrite XF.
      destruct (xflt g) as [| | |v] eqn:Eg; cbn in Hg; try contradiction; [reflexivity|].
      destruct (xfin_flt _ _ Eg) as [Fg Vg]. subst v. apply xleb_fin. destruct H2 as [[H2 _] | [_ H2]]; [lra | now apply H2].
Qed.
Lemma pro_vals2 X : finite_itv X -> (kd X = Classical -> num_val (lo X) <= num_val (hi X)) ->
  finite_itv (pro X) /\
  num_val (lo (pro X)) = Rmin (num_val (lo X)) (num_val (hi X)) /\ num_val (hi (pro X)) = Rmax (num_val (lo X)) (num_val (hi X)).
Proof.
  intros [F1 F2] K. split.
  - unfold pro. destruct (kd X); split; cbn [lo hi]; unfold num_min2, num_max2; try (match goal with |- context [num_lt ?a ?b] => destruct (num_lt a b) end); assumption.
  - apply finite_num_x in F1, F2. unfold pro. destruct (kd X).
    + specialize (K eq_refl). now rewrite Rmin_left, Rmax_right.
    + cbn [lo hi]. unfold num_min2, num_max2. rewrite !num_lt_x, F1, F2.
      destruct (Rtotal_order (num_val (lo X)) (num_val (hi X))) as [Q | [Q | Q]].
      * rewrite Rmin_left, Rmax_right by lra. rewrite (proj2 (xltb_fin _ _) Q).
        destruct (xltb (XFin (num_val (hi X))) (XFin (num_val (lo X)))) eqn:E1; [apply xltb_fin in E1; lra | auto].
      * rewrite Rmin_left, Rmax_right by lra. rewrite <- Q. destruct (xltb (XFin (num_val (lo X))) (XFin (num_val (lo X)))) eqn:E1; [apply xltb_fin in E1; lra | auto].
      * rewrite Rmin_right, Rmax_left by lra. rewrite (proj2 (xltb_fin _ _) Q).
        destruct (xltb (XFin (num_val (lo X))) (XFin (num_val (hi X)))) eqn:E1; [apply xltb_fin in E1; lra | auto].
Qed.
Lemma pro_cases X : finite_itv X -> (kd X = Classical -> num_val (lo X) <= num_val (hi X)) -> small_itv X ->
  finite_itv (pro X) /\ small_itv (pro X) /\
  num_val (lo (pro X)) = Rmin (num_val (lo X)) (num_val (hi X)) /\ num_val (hi (pro X)) = Rmax (num_val (lo X)) (num_val (hi X)).
Proof. intros F K S. destruct (pro_vals2 X F K) as (H1 & H2 & H3). split; [exact H1|]. split; [now apply pro_small | auto]. Qed.
Theorem log_exact L X m : log_directed L -> log_faithful L -> small_itv X -> finite_itv X -> (kd X = Classical -> num_val (lo X) <= num_val (hi X)) ->
  0 < num_val (lo X) -> 0 < num_val (hi X) ->
  exists Z, returns (itv_log L X) m Z /\ kd Z = kd X /\ rounded_down (ln (num_val (lo X))) (lo Z) /\ rounded_up (ln (num_val (hi X))) (hi Z).
Proof.
  intros HL HF S F K P1 P2. destruct (pro_cases X F K S) as ([G1 G2] & [T1 T2] & E1 & E2). destruct F as [F1 F2], S as [S1 S2].
  assert (Pl : 0 < num_val (lo (pro X))) by (rewrite E1; now apply Rmin_glb_lt).
  assert (Ph : 0 < num_val (hi (pro X))) by (rewrite E2; apply Rlt_le_trans with (1 := P1), Rmax_l).
  assert (X1 := proj1 (finite_num_x _) G1). assert (X2 := proj1 (finite_num_x _) G2).
  assert (M : num_max2 (lo (pro X)) pn0 = lo (pro X)).
  { unfold num_max2. rewrite num_lt_x, X1. change (xval pn0) with (XFin 0).
    destruct (xltb (XFin (num_val (lo (pro X)))) (XFin 0)) eqn:Q; [apply xltb_fin in Q; lra | reflexivity]. }
  unfold returns, outcome, itv_log. cbv zeta. rewrite M. rewrite num_le_x, X1, X2.
  rewrite (proj2 (xleb_fin (num_val (lo (pro X))) (num_val (hi (pro X))))) by (rewrite E1, E2; apply Rle_trans with (num_val (lo X)); [apply Rmin_l | apply Rmax_l]).
  rewrite num_le_x, (proj1 (finite_num_x _) F1), (proj1 (finite_num_x _) F2).
  destruct (xleb (XFin (num_val (lo X))) (XFin (num_val (hi X)))) eqn:O.
  - apply xleb_fin in O. rewrite Rmin_left in E1 by exact O. rewrite Rmax_right in E2 by exact O.
    destruct (log_exact_down L _ HL HF T1 G1 Pl) as (i & Ri & Di). destruct (log_exact_up L _ HL HF T2 G2 Ph) as (u & Ru & Du).
    rewrite (bind_ok _ _ _ _ _ (with_rounding_ok _ _ m _ _ Ri)), (bind_ok _ _ _ _ _ (with_rounding_ok _ _ m _ _ Ru)).
    eexists. split; [reflexivity|]. split; [reflexivity|]. cbn [lo hi]. rewrite <- E1, <- E2. auto.
  - assert (O' : num_val (hi X) < num_val (lo X)). { destruct (Rle_dec (num_val (lo X)) (num_val (hi X))) as [C|C]; [apply xleb_fin in C; congruence | lra]. }
    rewrite Rmin_right in E1 by lra. rewrite Rmax_left in E2 by lra.
    destruct (log_exact_down L _ HL HF T2 G2 Ph) as (u & Ru & Du). destruct (log_exact_up L _ HL HF T1 G1 Pl) as (i & Ri & Di).
    rewrite (bind_ok _ _ _ _ _ (with_rounding_ok _ _ m _ _ Ru)), (bind_ok _ _ _ _ _ (with_rounding_ok _ _ m _ _ Ri)).
    eexists. split; [reflexivity|]. split; [reflexivity|]. cbn [lo hi]. rewrite <- E1, <- E2. auto.
Qed.
