(** What a run of maximize returns. *)
From Coq Require Import ZArith Reals List Bool Arith Lia Lra.
From Flocq Require Import Core IEEE754.BinarySingleNaN.
From Verif Require Import Base PyNum Kernel Spec Expr Arrays Construct SpecArray XReal XArith KernelProofs KernelMore KernelAlg ExprProofs ArrayProofs ArrayMore ArrayMat ConstructProofs KaucherProofs
  RecogFl SpecRecogFl RecogFlProofs RecogFlCor HbrFl HbrFlProofs RohnFl GSProofs UssFl SpecUssFl UssFlProofs Ralgb5 RalgbProofs RalgbMore ConstrainedProofs RecogOpt SpecRecogOpt RecogOptProofs RecogOptMargin RecogOptSign.
Import ListNotations.
Open Scope R_scope.

(** ** argmin *)
Lemma le_refl_num v : is_nan_num v = false -> num_le v v = true.
Proof.
  intro H. rewrite num_le_x. destruct (xval v) eqn:E; try reflexivity.
  - apply is_nan_num_x in E. congruence.
  - apply xleb_fin. lra.
Qed.
Lemma le_trans_num a c d : num_le a c = true -> num_le c d = true -> num_le a d = true.
Proof. rewrite !num_le_x. apply xleb_trans. Qed.
Lemma not_lt_le a c : is_nan_num a = false -> is_nan_num c = false -> num_lt a c = false -> num_le c a = true.
Proof.
  intros A C L. rewrite num_lt_x in L. rewrite num_le_x. assert (NA : xval a <> XNan) by (intro E; apply is_nan_num_x in E; congruence).
  assert (NC : xval c <> XNan) by (intro E; apply is_nan_num_x in E; congruence).
  destruct (xval a) as [| | |p], (xval c) as [| | |q]; try congruence; try reflexivity; try discriminate.
  apply xleb_fin. apply Rnot_lt_le. intro Q. apply xltb_fin in Q. congruence.
Qed.
Lemma lt_le_num a c : num_lt a c = true -> num_le a c = true.
Proof.
  rewrite num_lt_x, num_le_x. destruct (xval a) as [| | |p], (xval c) as [| | |q]; try discriminate; try reflexivity. rewrite xltb_fin, xleb_fin. lra.
Qed.
Definition min_of (l : list pynum) (v : pynum) : Prop := is_nan_num v = false -> forall w, In w l -> is_nan_num w = false /\ num_le v w = true.
Lemma arg_from_spec l : forall pre best bv, nth_error pre best = Some bv -> min_of pre bv ->
  exists v, nth_error (pre ++ l) (arg_from (length pre) best bv l) = Some v /\ min_of (pre ++ l) v.
Proof.
  induction l as [|a l IH]; intros pre best bv Hb Hm.
  - rewrite app_nil_r. exists bv. auto.
  - cbn [arg_from]. assert (E : pre ++ a :: l = (pre ++ [a]) ++ l) by (rewrite <- app_assoc; reflexivity).
    assert (L : length (pre ++ [a]) = S (length pre)) by (rewrite app_length; simpl; lia).
    destruct (is_nan_num bv) eqn:Nb.
    + exists bv. split; [rewrite nth_error_app1; [exact Hb | apply nth_error_Some; congruence]|]. intro Q. congruence.
    + destruct (is_nan_num a || num_lt a bv) eqn:C.
      * rewrite E, <- L. apply IH; [rewrite nth_error_app2, Nat.sub_diag by lia; reflexivity|]. intros Na w Hw. rewrite Na in C. simpl in C. apply in_app_or in Hw. destruct Hw as [Hw|[<-|[]]].
        -- destruct (Hm Nb w Hw) as [Nw Lw]. split; [exact Nw|]. eapply le_trans_num; [apply lt_le_num; exact C | exact Lw].
        -- split; [exact Na | now apply le_refl_num].
      * rewrite E, <- L. apply orb_false_elim in C. destruct C as [Na C].
        apply IH; [rewrite nth_error_app1; [exact Hb | apply nth_error_Some; congruence]|]. intros _ w Hw. apply in_app_or in Hw. destruct Hw as [Hw|[<-|[]]].
        -- now apply Hm.
        -- split; [exact Na | now apply not_lt_le].
Qed.
Lemma argmin_spec T mc : np_argmin T = Ok mc -> exists v, nth_error (adata T) mc = Some v /\ min_of (adata T) v.
Proof.
  unfold np_argmin. destruct (adata T) as [|v l]; [discriminate|]. intro H. inversion H. apply (arg_from_spec l [v] 0 v); [reflexivity|].
  intros N w [<-|[]]. split; [exact N | now apply le_refl_num].
Qed.

(** ** The objective *)
Lemma neg_neg f : fneg (fneg f) = f. Proof. unfold fneg. apply Bopp_involutive. Qed.
Lemma nan_only f : is_nan f = true -> f = fnan. Proof. destruct f; try discriminate. reflexivity. Qed.
Section Objective.
Variables (con : arr pynum -> M (arr pynum)) (grad : nat -> list flt -> M (list flt)).
Hypothesis KC : forall x, keeps_mode (con x).
Hypothesis KG : forall mc x, keeps_mode (grad mc x).
Lemma objective_spec x f gr : objective con grad x = (f, gr) -> f = fnan \/
  exists T mc t gl, returns (con (point x)) mode_NE T /\ np_argmin T = Ok mc /\ nth_error (adata T) mc = Some t /\ to_double t = Ok (fneg f) /\ returns (grad mc x) mode_NE gl /\ gr = map fneg gl.
Proof.
  unfold objective. fold (point x). set (c := T <- con (point x) ;; _). destruct (fst (c mode_NE)) as [[t gl]|] eqn:E; intro H; inversion H; subst; [right|left; reflexivity].
  assert (RC : returns c mode_NE (t, gl)) by exact E. unfold c in RC.
  rewrite keeps_returns in RC by apply KC. destruct RC as (T & HT & RC).
  rewrite keeps_returns in RC by apply keeps_lift. destruct RC as (mc & Hmc & RC). unfold returns, outcome, mlift in Hmc. cbn [fst] in Hmc.
  rewrite keeps_returns in RC by apply keeps_lift. destruct RC as (t' & Ht & RC). unfold returns, outcome, mlift in Ht. cbn [fst] in Ht.
  rewrite keeps_returns in RC by apply KG. destruct RC as (gl' & Hg & RC). unfold returns, outcome, mret in RC. cbn [fst] in RC. inversion RC; subst t' gl'.
  destruct (nth_error (adata T) mc) as [v|] eqn:Ev; [|discriminate]. exists T, mc, v, gl. rewrite neg_neg. auto 10.
Qed.
Lemma flt_order W : (forall a, n_lt (ops_of W) a a = false) /\
  (forall a c d, n_lt (ops_of W) a c = true -> n_lt (ops_of W) d c = false -> n_lt (ops_of W) d a = false).
Proof.
  cbn [n_lt ops_of]. split.
  - intro a. rewrite flt_ltb_x. destruct (xflt a) as [| | |p]; try reflexivity. destruct (xltb (XFin p) (XFin p)) eqn:E; [apply xltb_fin in E; lra | reflexivity].
  - intros a c d. rewrite !flt_ltb_x. intros L N. destruct (xltb (xflt d) (xflt a)) eqn:Q; [|reflexivity]. rewrite <- N. symmetry.
    destruct (xflt a) as [| | |p], (xflt c) as [| | |q], (xflt d) as [| | |s]; try discriminate; try reflexivity. apply xltb_fin in L, Q. apply xltb_fin. lra.
Qed.
Lemma ltb_nan_r a : flt_ltb a fnan = false.
Proof. rewrite flt_ltb_x. destruct (xflt a); reflexivity. Qed.
Hypothesis DBL : forall x T v, returns (con x) mode_NE T -> In v (adata T) -> is_double v.
Theorem maximize_run W P x0 x v : maximize_fl W P con grad x0 = (x, v) -> is_nan v = false ->
  (exists T, returns (con (point x)) mode_NE T /\ least T v) /\
  exists T0 v0, returns (con (point x0)) mode_NE T0 /\ least T0 v0 /\ flt_leb v0 v = true.
Proof.
  unfold maximize_fl. destruct (ralgb5 (ops_of W) P (objective con grad) (length x0) x0) as [r tr] eqn:E. cbn [fst]. intros H N. assert (Ex : r_x _ r = x) by congruence. assert (Ev : fneg (r_f _ r) = v) by congruence. clear H.
  destruct (ralgb5_best _ _ _ _ _ _ _ E) as (_ & F & I0 & _). destruct (flt_order W) as [O1 O2]. assert (B := ralgb5_no_better _ _ _ _ _ _ _ O1 O2 E x0 I0). rewrite Ex in F.
  assert (Nf : r_f _ r <> fnan) by (intro Q; rewrite <- Ev, Q in N; discriminate).
  assert (LS : forall y f gr, objective con grad y = (f, gr) -> is_nan f = false -> exists T, returns (con (point y)) mode_NE T /\ least T (fneg f)).
  { intros y f gr Ho Nf'. destruct (objective_spec y f gr Ho) as [->|(T & mc & t & gl & HT & Hm & Hn & Hd & _)]; [discriminate|].
    exists T. split; [exact HT|]. destruct (argmin_spec T mc Hm) as (t' & Ht' & MN). assert (t' = t) by congruence. subst t'.
    assert (It := nth_error_In _ _ Hn). destruct (DBL _ T t HT It) as [ft ->]. cbn [to_double] in Hd. inversion Hd; subst ft.
    assert (Nt : is_nan_num (PFlt (fneg f)) = false) by (cbn [is_nan_num]; destruct f; auto). split; [exact It|]. intros w Hw. now apply MN. }
  assert (Nr : is_nan (r_f _ r) = false) by (rewrite <- N, <- Ev; destruct (r_f _ r); reflexivity).
  split.
  - destruct (objective con grad x) as [f gr] eqn:Eo. cbn [fst] in F. destruct (LS x f gr Eo) as (T & HT & L); [rewrite F in Nr; exact Nr|].
    exists T. split; [exact HT|]. rewrite <- Ev, F. exact L.
  - destruct (objective con grad x0) as [f gr] eqn:Eo. cbn [fst n_lt ops_of] in B. destruct (is_nan f) eqn:Nf'.
    + exfalso. apply nan_only in Nf'. subst f. destruct (ralgb5_stays (ops_of W) P (objective con grad) x0) with (m := length x0) as [_ Q].
      * intro y. cbn [n_lt ops_of]. rewrite Eo. apply ltb_nan_r.
      * rewrite E, Eo in Q. cbn [fst] in Q. contradiction.
    + destruct (LS x0 f gr Eo Nf') as (T & HT & L). exists T, (fneg f). split; [exact HT|]. split; [exact L|]. rewrite <- Ev.
      rewrite flt_leb_x, !xflt_neg. rewrite flt_ltb_x in B.
      assert (X1 : xflt f <> XNan) by (intro Q; apply is_nan_x in Q; congruence). assert (X2 : xflt (r_f _ r) <> XNan) by (intro Q; apply is_nan_x in Q; congruence).
      destruct (xflt f) as [| | |p], (xflt (r_f _ r)) as [| | |q]; try congruence; try reflexivity; try discriminate.
      cbn [xopp]. apply xleb_fin. apply Ropp_le_contravar. apply Rnot_lt_le. intro Q. apply xltb_fin in Q. congruence.
Qed.
End Objective.
