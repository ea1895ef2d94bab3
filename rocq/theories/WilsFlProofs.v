(** WILS.fit in binary64: what the returned point and value say. *)
From Coq Require Import ZArith Reals List Bool Arith Lia Lra.
From Flocq Require Import Core IEEE754.BinarySingleNaN.
From Verif Require Models.
From Verif Require Import Base PyNum Kernel Spec Expr Arrays Construct SpecArray XReal XArith KernelProofs KernelMore KernelAlg ExprProofs ArrayProofs ArrayMore ArrayMat ConstructProofs KaucherProofs
  RecogFl SpecRecogFl RecogFlProofs RecogFlCor HbrFl HbrFlProofs RohnFl GSProofs UssFl SpecUssFl UssFlProofs Ralgb5 RalgbProofs RalgbMore ConstrainedProofs RecogOpt SpecRecogOpt RecogOptProofs RecogOptMargin RecogOptSign RecogOptRun RecogOptTotal RecogOptFinal RecogOptAccuracy
  RecogOptCon SpecRecogOptCon RecogOptConProofs WilsFl SpecWilsFl.
Import ListNotations.
Open Scope R_scope.

(** ** The optimizer *)
Lemma run_best W P fg x0 : let r := fst (ralgb5 (ops_of W) P fg (length x0) x0) in is_nan (r_f _ r) = false ->
  r_f _ r = fst (fg (r_x _ r)) /\ is_nan (fst (fg x0)) = false /\ flt_leb (fneg (fst (fg x0))) (fneg (r_f _ r)) = true.
Proof.
  destruct (ralgb5 (ops_of W) P fg (length x0) x0) as [r tr] eqn:E. cbn [fst]. intro Nr.
  destruct (ralgb5_best _ _ _ _ _ _ _ E) as (_ & F & I0 & _). destruct (flt_order W) as [O1 O2]. assert (B : flt_ltb (fst (fg x0)) (r_f _ r) = false) by exact (ralgb5_no_better _ _ _ _ _ _ _ O1 O2 E x0 I0).
  split; [exact F|]. assert (N0 : is_nan (fst (fg x0)) = false).
  { destruct (is_nan (fst (fg x0))) eqn:Nf'; [|reflexivity]. exfalso. apply nan_only in Nf'. destruct (ralgb5_stays (ops_of W) P fg x0) with (m := length x0) as [_ Q].
    - intro y. exact (eq_trans (f_equal (flt_ltb (fst (fg y))) Nf') (ltb_nan_r _)).
    - rewrite E in Q. cbn [fst] in Q. assert (Q2 : r_f _ r = fnan) by exact (eq_trans Q Nf'). assert (Q3 : is_nan (r_f _ r) = is_nan fnan) by exact (f_equal (@is_nan 53 1024) Q2).
      rewrite Nr in Q3. discriminate. }
  split; [exact N0|]. rewrite flt_leb_x, !xflt_neg. rewrite flt_ltb_x in B.
  assert (X1 : xflt (fst (fg x0)) <> XNan) by (intro Q; apply is_nan_x in Q; congruence). assert (X2 : xflt (r_f _ r) <> XNan) by (intro Q; apply is_nan_x in Q; congruence).
  destruct (xflt (fst (fg x0))) as [| | |p], (xflt (r_f _ r)) as [| | |q]; try congruence; try reflexivity; try discriminate.
  cbn [xopp]. apply xleb_fin. apply Ropp_le_contravar. apply Rnot_lt_le. intro Q. apply xltb_fin in Q. congruence.
Qed.

(** ** The objective *)
Section Obj.
Variables (fdot : list (flt * flt) -> flt) (cdot : list flt -> list flt -> flt) (csum : list flt -> flt).
Variables (o : Models.objective) (X y : aitv) (w : arr pynum).
Lemma keeps_res x : keeps_mode (residual_fl fdot o X y w x).
Proof. destruct o; [apply keeps_tol | apply keeps_uni | apply keeps_uss]. Qed.
Lemma keeps_diff mc x : keeps_mode (diff_fl fdot o X y w mc x).
Proof. destruct o; [apply keeps_ends | apply keeps_ends | apply keeps_uss_grad]. Qed.
Lemma res_double x T v : returns (residual_fl fdot o X y w x) mode_NE T -> In v (adata T) -> is_double v.
Proof. destruct o; [apply tol_double | apply uni_double | apply uss_double]. Qed.
Lemma keeps_sum diff : (forall mc, keeps_mode (diff mc)) -> forall mcs acc, keeps_mode (sum_diffs diff acc mcs).
Proof. intros K mcs. induction mcs as [|mc l IH]; intro acc; [intro; reflexivity|]. cbn [sum_diffs]. apply keeps_bind; [apply K | intro; apply IH]. Qed.
Lemma all_doubles (l : list pynum) : (forall v, In v l -> is_double v) -> exists d, l = map PFlt d /\ res_map to_double l = Ok d.
Proof.
  induction l as [|v l IH]; intro H; [now exists []|]. destruct (H v (or_introl eq_refl)) as [f ->]. destruct IH as (d & -> & E); [intros; apply H; now right|].
  exists (f :: d). split; [reflexivity|]. cbn [res_map to_double rbind]. rewrite E. reflexivity.
Qed.
(** What a value that is not NaN says, before the penalty. *)
Definition at_norm (nm : Models.norm) (x : list flt) (t : flt) : Prop :=
  exists T, returns (residual_fl fdot o X y w (point x)) mode_NE T /\
    match nm with Models.NInf => least T t | Models.NL1 => exists l, doubles T l /\ t = csum l end.
Lemma calc_spec nm x f g : wils_calc_fl fdot csum o nm X y w x = (f, g) -> is_nan f = false -> at_norm nm x (fneg f).
Proof.
  unfold wils_calc_fl. fold (point x). set (c := T <- _ ;; _). destruct (fst (c mode_NE)) as [[t gl]|] eqn:E; intros H N; inversion H; subst; [|discriminate].
  assert (RC : returns c mode_NE (t, gl)) by exact E. unfold c in RC. clear c E H. rewrite neg_neg.
  rewrite keeps_returns in RC by apply keeps_res. destruct RC as (T & HT & RC).
  rewrite keeps_returns in RC by apply keeps_lift. destruct RC as ([t' mcs] & Hp & RC). unfold returns, outcome, mlift in Hp. cbn [fst] in Hp. cbn [fst snd] in RC.
  rewrite keeps_returns in RC by (apply keeps_sum; intro; apply keeps_diff). destruct RC as (s & _ & RC). unfold returns, outcome, mret in RC. cbn [fst] in RC. inversion RC; subst t' s. clear RC.
  exists T. split; [exact HT|]. unfold wrap_norm_fl in Hp. destruct nm.
  - destruct (np_argmin T) as [mc|] eqn:Hm; [|discriminate]. cbn [rbind] in Hp. destruct (argmin_spec T mc Hm) as (v & Hv & MN). rewrite Hv in Hp.
    assert (It := nth_error_In _ _ Hv). destruct (res_double _ T v HT It) as [ft ->]. cbn [to_double rbind] in Hp. inversion Hp; subst ft mcs.
    assert (Nt : is_nan_num (PFlt t) = false) by (cbn [is_nan_num]; destruct t; auto). split; [exact It|]. intros u Hu. now apply MN.
  - destruct (all_doubles (adata T)) as (d & Ed & Er); [intros v Hv; exact (res_double _ T v HT Hv)|]. rewrite Er in Hp. cbn [rbind] in Hp. inversion Hp. exists d. split; [exact Ed | reflexivity].
Qed.
Lemma same_zero t : is_nan t = false -> same_value (fneg (fadd mode_NE (fneg t) f0)) t.
Proof.
  intro N. assert (Q : xflt t <> XNan) by (intro Q; apply is_nan_x in Q; congruence).
  assert (E : xflt (fneg (fadd mode_NE (fneg t) f0)) = xflt t).
  { rewrite xflt_neg, fadd_x. change (xflt f0) with (XFin 0). rewrite xadd_0_r by apply flt_dbl. rewrite xflt_neg. destruct (xflt t); cbn [xopp]; try reflexivity. now rewrite Ropp_involutive. }
  split; rewrite flt_leb_x, E; destruct (xflt t); try congruence; try reflexivity; apply xleb_fin; lra.
Qed.
Variable constraint : option (flt * list (list flt * flt)).
Lemma objective_at nm x : is_nan (fst (wils_objective fdot cdot csum o nm constraint X y w x)) = false ->
  exists t, at_norm nm x t /\ is_nan t = false /\ less_penalty cdot csum constraint x t (fneg (fst (wils_objective fdot cdot csum o nm constraint X y w x))).
Proof.
  unfold wils_objective. destruct (wils_calc_fl fdot csum o nm X y w x) as [f g] eqn:E. intro N.
  assert (Nf : is_nan f = false).
  { destruct (is_nan f) eqn:Q; [|reflexivity]. exfalso. apply is_nan_x in Q.
    destruct constraint as [[mu rows]|]; cbn [penalty_fl fst] in N;
      match type of N with is_nan ?e = _ => assert (Q2 : is_nan e = true) by (apply is_nan_x; rewrite fadd_x, Q; reflexivity); congruence end. }
  exists (fneg f). split; [exact (calc_spec nm x f g E Nf)|]. split; [destruct f; auto|].
  destruct constraint as [[mu rows]|]; cbn [penalty_fl fst less_penalty].
  - unfold penalised. rewrite neg_neg. reflexivity.
  - assert (S0 := same_zero (fneg f)). rewrite neg_neg in S0. apply S0. destruct f; auto.
Qed.
End Obj.
