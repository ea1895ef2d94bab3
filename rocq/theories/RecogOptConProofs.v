(** maximize with a linear constraint: what the returned point and value say. *)
From Coq Require Import ZArith Reals List Bool Arith Lia Lra.
From Flocq Require Import Core IEEE754.BinarySingleNaN.
From Verif Require Import Base PyNum Kernel Spec Expr Arrays Construct SpecArray XReal XArith KernelProofs KernelMore KernelAlg ExprProofs ArrayProofs ArrayMore ArrayMat ConstructProofs KaucherProofs
  RecogFl SpecRecogFl RecogFlProofs RecogFlCor HbrFl HbrFlProofs RohnFl GSProofs UssFl SpecUssFl UssFlProofs Ralgb5 RalgbProofs RalgbMore ConstrainedProofs RecogOpt SpecRecogOpt RecogOptProofs RecogOptMargin RecogOptSign RecogOptRun RecogOptTotal RecogOptFinal
  RecogOptCon SpecRecogOptCon.
Import ListNotations.
Open Scope R_scope.

Lemma leb_f0 f : flt_leb f0 f = true <-> xleb (XFin 0) (xflt f) = true.
Proof. rewrite flt_leb_x. reflexivity. Qed.
Lemma in_turn_adds : adds_up in_turn.
Proof.
  split.
  - assert (G : forall l a, flt_leb f0 a = true -> Forall (fun a => flt_leb f0 a = true) l -> flt_leb f0 (fold_left (fadd mode_NE) l a) = true).
    { induction l as [|c l IH]; intros a Ha Hl; [exact Ha|]. inversion Hl; subst. cbn [fold_left]. apply IH; [|assumption]. rewrite leb_f0 in *. rewrite fadd_x.
      destruct (xflt a) as [| | |p], (xflt c) as [| | |q]; try discriminate; try reflexivity. cbn [xadd]. apply xleb_fin in Ha. rewrite xleb_fin in H1. apply xround_nn. lra. }
    intros l Hl. apply G; [reflexivity | exact Hl].
  - assert (G : forall l a, xflt a = XFin 0 -> Forall (fun a => is_finite a = true /\ B2R a = 0) l -> xflt (fold_left (fadd mode_NE) l a) = XFin 0).
    { induction l as [|c l IH]; intros a Ha Hl; [exact Ha|]. inversion Hl as [|? ? [F Z] Hl']; subst. cbn [fold_left]. apply IH; [|assumption]. rewrite fadd_x, Ha, (proj1 (is_finite_x c) F), Z. cbn [xadd]. rewrite Rplus_0_r. apply xround_0. }
    intros l Hl. specialize (G l f0 eq_refl Hl). fold (in_turn l) in G. assert (F : is_finite (in_turn l) = true). { destruct (in_turn l) as [?|[]| |]; try discriminate; reflexivity. }
    split; [exact F|]. rewrite (proj1 (is_finite_x _) F) in G. congruence.
Qed.
Section Pen.
Variables (cdot : list flt -> list flt -> flt) (csum : list flt -> flt) (mu : flt) (rows : list (list flt * flt)).
Hypothesis SU : adds_up csum.
Lemma excess_nn x row : flt_leb f0 (excess_fl cdot x row) = true.
Proof.
  unfold excess_fl. destruct (beyond cdot x row) eqn:B; [|reflexivity]. unfold beyond in B. rewrite flt_ltb_x in B. rewrite leb_f0, fsub_x.
  unfold xsub. destruct (xflt (snd row)) as [| | |p], (xflt (cdot (fst row) x)) as [| | |q]; try discriminate; try reflexivity. apply xltb_fin in B. cbn [xopp xadd]. apply xround_nn. lra.
Qed.
Lemma penalty_nn x : flt_leb f0 mu = true -> is_nan (fst (penalty_fl cdot csum mu rows x)) = false -> flt_leb f0 (fst (penalty_fl cdot csum mu rows x)) = true.
Proof.
  intros Hm N. cbn [penalty_fl fst] in *. assert (S0 : flt_leb f0 (csum (map (excess_fl cdot x) rows)) = true). { apply SU. apply Forall_forall. intros a Ha. apply in_map_iff in Ha. destruct Ha as (row & <- & _). apply excess_nn. }
  rewrite leb_f0 in *. assert (Q : xflt (fmul mode_NE mu (csum (map (excess_fl cdot x) rows))) <> XNan) by (intro Q; apply is_nan_x in Q; congruence). rewrite fmul_x in *.
  destruct (xflt mu) as [| | |p], (xflt (csum _)) as [| | |q]; try discriminate; try reflexivity; cbn [xmul] in *; unfold xinf_times in *.
  - apply xleb_fin in S0. destruct (Rcompare_spec q 0); try lra; [congruence | reflexivity].
  - apply xleb_fin in Hm. destruct (Rcompare_spec p 0); try lra; [congruence | reflexivity].
  - apply xleb_fin in Hm, S0. apply xround_nn. now apply Rmult_le_pos.
Qed.
Lemma penalty_zero x : is_finite mu = true -> holds cdot rows x -> xflt (fst (penalty_fl cdot csum mu rows x)) = XFin 0.
Proof.
  intros Fm Hx. cbn [penalty_fl fst]. destruct (proj2 SU (map (excess_fl cdot x) rows)) as [F Z].
  { apply Forall_forall. intros a Ha. apply in_map_iff in Ha. destruct Ha as (row & <- & Hr). unfold holds in Hx. rewrite Forall_forall in Hx. unfold excess_fl, beyond. rewrite (Hx row Hr). split; reflexivity. }
  rewrite fmul_x, (proj1 (is_finite_x _) F), Z, (proj1 (is_finite_x _) Fm). cbn [xmul]. rewrite Rmult_0_r. apply xround_0.
Qed.
(** Subtracting the penalty does not raise the value. *)
Lemma penalised_le x t v : flt_leb f0 mu = true -> v = penalised cdot csum mu rows x t -> is_nan v = false -> flt_leb v t = true.
Proof.
  intros Hm E N. assert (P := penalty_nn x Hm). change (fst (penalty_fl cdot csum mu rows x)) with (fmul mode_NE mu (csum (map (violation cdot x) rows))) in P. unfold penalised in E. set (p := fmul mode_NE mu _) in *.
  rewrite flt_leb_x, E, xflt_neg, fadd_x, xflt_neg.
  assert (NV : xflt v <> XNan) by (intro Q; apply is_nan_x in Q; congruence). rewrite E, xflt_neg, fadd_x, xflt_neg in NV.
  assert (NP : is_nan p = false). { destruct (is_nan p) eqn:Q; [|reflexivity]. apply is_nan_x in Q. rewrite Q in NV. exfalso. apply NV. destruct (xflt t); reflexivity. }
  specialize (P NP). rewrite leb_f0 in P. destruct (xflt t) as [| | |a] eqn:Et, (xflt p) as [| | |q]; try discriminate; try reflexivity; try (exfalso; apply NV; reflexivity).
  cbn [xopp xadd]. apply xleb_fin in P. assert (D : is_dbl (XFin (- a))). { assert (Q : XFin (- a) = xflt (fneg t)) by (rewrite xflt_neg, Et; reflexivity). rewrite Q. apply flt_dbl. }
  assert (L := xround_ge_dbl mode_NE (- a + q) (- a) D ltac:(lra)). destruct (xround mode_NE (- a + q)) as [| | |z]; try discriminate; try reflexivity.
  cbn [xopp]. apply xleb_fin in L. apply xleb_fin. lra.
Qed.
Lemma penalised_eq x t : is_finite mu = true -> holds cdot rows x -> xflt (penalised cdot csum mu rows x t) = xflt t.
Proof.
  intros Fm Hx. assert (Z := penalty_zero x Fm Hx). change (fst (penalty_fl cdot csum mu rows x)) with (fmul mode_NE mu (csum (map (violation cdot x) rows))) in Z. unfold penalised. rewrite xflt_neg, fadd_x, Z, xadd_0_r by apply flt_dbl. rewrite xflt_neg. destruct (xflt t); cbn [xopp]; try reflexivity. now rewrite Ropp_involutive.
Qed.
Lemma no_penalty_inside x t : is_finite mu = true -> holds cdot rows x -> is_nan t = false ->
  flt_leb t (penalised cdot csum mu rows x t) = true /\ flt_leb (penalised cdot csum mu rows x t) t = true.
Proof.
  intros Fm Hx N. rewrite !flt_leb_x, (penalised_eq x t Fm Hx). assert (Q : xflt t <> XNan) by (intro Q; apply is_nan_x in Q; congruence).
  destruct (xflt t) as [| | |a]; try congruence; try (split; reflexivity). split; apply xleb_fin; lra.
Qed.
Section Run.
Variables (con : arr pynum -> M (arr pynum)) (grad : nat -> list flt -> M (list flt)).
Hypothesis KC : forall x, keeps_mode (con x).
Hypothesis KG : forall mc x, keeps_mode (grad mc x).
Hypothesis DBL : forall x T v, returns (con x) mode_NE T -> In v (adata T) -> is_double v.
Lemma at_point y : is_nan (fst (objective_con cdot csum mu rows con grad y)) = false ->
  exists T t, returns (con (point y)) mode_NE T /\ least T t /\ fneg (fst (objective_con cdot csum mu rows con grad y)) = penalised cdot csum mu rows y t.
Proof.
  unfold objective_con. cbn [penalty_fl]. destruct (objective con grad y) as [f gr] eqn:Eo. cbn [fst]. intro N.
  assert (Nf : is_nan f = false). { destruct (is_nan f) eqn:Q; [|reflexivity]. apply is_nan_x in Q. rewrite <- N. symmetry. apply is_nan_x. rewrite fadd_x, Q. reflexivity. }
  destruct (objective_spec con grad KC KG y f gr Eo) as [->|(T & mc & t & gl & HT & Hm & Hn & Hd & _)]; [discriminate|].
  exists T, (fneg f). split; [exact HT|]. destruct (argmin_spec T mc Hm) as (t' & Ht' & MN). assert (t' = t) by congruence. subst t'.
  assert (It := nth_error_In _ _ Hn). destruct (DBL _ T t HT It) as [ft ->]. cbn [to_double] in Hd. inversion Hd; subst ft.
  assert (Nt : is_nan_num (PFlt (fneg f)) = false) by (cbn [is_nan_num]; destruct f; auto). split; [split; [exact It|]; intros w Hw; now apply MN|]. unfold penalised. rewrite neg_neg. reflexivity.
Qed.
Theorem con_run W P x0 x v : maximize_con cdot csum mu rows W P con grad x0 = (x, v) -> is_nan v = false ->
  (exists T t, returns (con (point x)) mode_NE T /\ least T t /\ v = penalised cdot csum mu rows x t) /\
  exists T0 t0, returns (con (point x0)) mode_NE T0 /\ least T0 t0 /\ flt_leb (penalised cdot csum mu rows x0 t0) v = true.
Proof.
  unfold maximize_con. set (fg := objective_con cdot csum mu rows con grad) in *. destruct (ralgb5 (ops_of W) P fg (length x0) x0) as [r tr] eqn:E. cbn [fst]. intros H N. assert (Ex : r_x _ r = x) by congruence. assert (Ev : fneg (r_f _ r) = v) by congruence. clear H.
  destruct (ralgb5_best _ _ _ _ _ _ _ E) as (_ & F & I0 & _). destruct (flt_order W) as [O1 O2]. assert (B := ralgb5_no_better _ _ _ _ _ _ _ O1 O2 E x0 I0). rewrite Ex in F.
  assert (Nf : r_f _ r <> fnan) by (intro Q; rewrite <- Ev, Q in N; discriminate).
  assert (Nr : is_nan (r_f _ r) = false) by (rewrite <- N, <- Ev; destruct (r_f _ r); reflexivity).
  split.
  - destruct (at_point x) as (T & t & HT & L & E2); [exact (eq_trans (f_equal (@is_nan 53 1024) (eq_sym F)) Nr)|]. exists T, t. split; [exact HT|]. split; [exact L|]. rewrite <- Ev. exact (eq_trans (f_equal fneg F) E2).
  - assert (B' : flt_ltb (fst (fg x0)) (r_f _ r) = false) by exact B. clear B. rename B' into B. destruct (is_nan (fst (fg x0))) eqn:Nf'.
    + exfalso. apply nan_only in Nf'. destruct (ralgb5_stays (ops_of W) P fg x0) with (m := length x0) as [_ Q].
      * intro y. exact (eq_trans (f_equal (flt_ltb (fst (fg y))) Nf') (ltb_nan_r _)).
      * rewrite E in Q. cbn [fst] in Q. exact (Nf (eq_trans Q Nf')).
    + destruct (at_point x0 Nf') as (T & t & HT & L & E2). exists T, t. split; [exact HT|]. split; [exact L|]. rewrite <- E2, <- Ev. fold fg.
      rewrite flt_leb_x, !xflt_neg. rewrite flt_ltb_x in B.
      assert (X1 : xflt (fst (fg x0)) <> XNan) by (intro Q; apply is_nan_x in Q; congruence). assert (X2 : xflt (r_f _ r) <> XNan) by (intro Q; apply is_nan_x in Q; congruence).
      destruct (xflt (fst (fg x0))) as [| | |p], (xflt (r_f _ r)) as [| | |q]; try congruence; try reflexivity; try discriminate.
      cbn [xopp]. apply xleb_fin. apply Ropp_le_contravar. apply Rnot_lt_le. intro Q. apply xltb_fin in Q. congruence.
Qed.
End Run.
Section Three.
Variables (fdot : list (flt * flt) -> flt) (A b : aitv) (w : arr pynum) (W : vops) (P : params (ops_of W)) (x0 x : list flt) (v : flt).
Theorem tol_con_run : tol_maximize_con cdot csum mu rows fdot W P A b w x0 = (x, v) -> is_nan v = false ->
  (exists T t, returns (tol_calc fdot A b (point x) w) mode_NE T /\ least T t /\ v = penalised cdot csum mu rows x t) /\
  exists T0 t0, returns (tol_calc fdot A b (point x0) w) mode_NE T0 /\ least T0 t0 /\ flt_leb (penalised cdot csum mu rows x0 t0) v = true.
Proof. exact (con_run (fun x => tol_calc fdot A b x w) (ends_grad fdot true A b w) (keeps_tol fdot A b w) (keeps_ends fdot A b w true) (tol_double fdot A b w) W P x0 x v). Qed.
Theorem uni_con_run : uni_maximize_con cdot csum mu rows fdot W P A b w x0 = (x, v) -> is_nan v = false ->
  (exists T t, returns (uni_calc fdot A b (point x) w) mode_NE T /\ least T t /\ v = penalised cdot csum mu rows x t) /\
  exists T0 t0, returns (uni_calc fdot A b (point x0) w) mode_NE T0 /\ least T0 t0 /\ flt_leb (penalised cdot csum mu rows x0 t0) v = true.
Proof. exact (con_run (fun x => uni_calc fdot A b x w) (ends_grad fdot false A b w) (keeps_uni fdot A b w) (keeps_ends fdot A b w false) (uni_double fdot A b w) W P x0 x v). Qed.
Theorem uss_con_run : uss_maximize_con cdot csum mu rows fdot W P A b w x0 = (x, v) -> is_nan v = false ->
  (exists T t, returns (uss_constituent_fl fdot A b (point x) w) mode_NE T /\ least T t /\ v = penalised cdot csum mu rows x t) /\
  exists T0 t0, returns (uss_constituent_fl fdot A b (point x0) w) mode_NE T0 /\ least T0 t0 /\ flt_leb (penalised cdot csum mu rows x0 t0) v = true.
Proof. exact (con_run (fun x => uss_calc fdot A b x w) (uss_grad fdot A b w) (fun x => keeps_uss fdot A b x w) (keeps_uss_grad fdot A b w) (uss_double fdot A b w) W P x0 x v). Qed.
End Three.
Lemma leb_trans a c d : flt_leb a c = true -> flt_leb c d = true -> flt_leb a d = true.
Proof. rewrite !flt_leb_x. apply xleb_trans. Qed.
Lemma ltb_same a c : xflt a = xflt c -> flt_ltb a f0 = flt_ltb c f0.
Proof. intro E. now rewrite !flt_ltb_x, E. Qed.
Section Meaning.
Variables (fdot : list (flt * flt) -> flt) (g h : R) (r n : nat) (A b : aitv) (w : arr pynum) (W : vops) (P : params (ops_of W)) (x0 x : list flt) (v : flt).
Hypothesis HD : dot_within fdot n g h.
Hypothesis Hg : 0 <= g <= 1.
Hypothesis Hh : 0 <= h <= 1.
Hypothesis Hn : (Z.of_nat n <= 2 ^ 100)%Z.
Hypothesis SY : system r n A b (point x).
Hypothesis MO : moderate A b (point x).
Theorem tol_con_nn : flt_leb f0 mu = true -> weights_from 1 r w -> tol_maximize_con cdot csum mu rows fdot W P A b w x0 = (x, v) -> flt_leb f0 v = true ->
  forall Q, in_matrix A Q -> in_rhs_by b (uss_margin g h n A b (point x)) (row_value n Q (point x)).
Proof.
  intros Hm Hw E L. destruct (tol_con_run fdot A b w W P x0 x v E (nn_num v L)) as [(T & t & HT & LT & V) _].
  exact (tol_calc_nn fdot g h r n A b (point x) w HD Hg Hh Hn SY MO (proj1 (proj2 Hw)) T Hw HT (least_nn T t LT (leb_trans _ _ _ L (penalised_le x t v Hm V (nn_num v L))))).
Qed.
Theorem uni_con_nn : flt_leb f0 mu = true -> weights_from 1 r w -> uni_maximize_con cdot csum mu rows fdot W P A b w x0 = (x, v) -> flt_leb f0 v = true ->
  exists Q, in_matrix A Q /\ in_rhs_by b (fun i => uss_margin g h n A b (point x) i + bpow radix2 (-536)) (row_value n Q (point x)).
Proof.
  intros Hm Hw E L. destruct (uni_con_run fdot A b w W P x0 x v E (nn_num v L)) as [(T & t & HT & LT & V) _].
  exact (uni_calc_nn fdot g h r n A b (point x) w HD Hg Hh Hn SY MO (proj1 (proj2 Hw)) T Hw HT (least_nn T t LT (leb_trans _ _ _ L (penalised_le x t v Hm V (nn_num v L))))).
Qed.
Theorem uss_con_nn : flt_leb f0 mu = true -> weights_from 1 r w -> uss_maximize_con cdot csum mu rows fdot W P A b w x0 = (x, v) -> flt_leb f0 v = true ->
  exists Q, in_matrix A Q /\ in_rhs_by b (uss_margin g h n A b (point x)) (row_value n Q (point x)).
Proof.
  intros Hm Hw E L. destruct (uss_con_run fdot A b w W P x0 x v E (nn_num v L)) as [(T & t & HT & LT & V) _].
  assert (L2 := leb_trans _ _ _ L (penalised_le x t v Hm V (nn_num v L))).
  destruct (uss_value_of fdot A b w x t T HT LT (nn_num t L2)) as (t' & Ht & Xt).
  apply (uss_fl_margin fdot g h r n A b (point x) w t' HD Hg Hh Hn SY MO Hw Ht). rewrite num_le_x, Xt. rewrite flt_leb_x in L2. exact L2.
Qed.
(** At a point that satisfies the constraint the sign of the functional is reported. *)
Theorem tol_con_neg : is_finite mu = true -> holds cdot rows x -> weights_from 0 r w -> tol_maximize_con cdot csum mu rows fdot W P A b w x0 = (x, v) -> flt_ltb v f0 = true ->
  exists Q, in_matrix A Q /\ ~ in_rhs_by b (fun i => - uss_margin g h n A b (point x) i) (row_value n Q (point x)).
Proof.
  intros Fm Hx Hw E L. destruct (tol_con_run fdot A b w W P x0 x v E (neg_num v L)) as [(T & t & HT & LT & V) _]. rewrite V, (ltb_same _ t (penalised_eq x t Fm Hx)) in L.
  exact (tol_calc_neg fdot g h r n A b (point x) w HD Hg Hh Hn SY MO (proj1 (proj2 Hw)) T Hw HT (least_neg T t LT L)).
Qed.
Theorem uni_con_neg : is_finite mu = true -> holds cdot rows x -> weights_from 0 r w -> uni_maximize_con cdot csum mu rows fdot W P A b w x0 = (x, v) -> flt_ltb v f0 = true ->
  forall Q, in_matrix A Q -> ~ in_rhs_by b (fun i => - uss_margin g h n A b (point x) i) (row_value n Q (point x)).
Proof.
  intros Fm Hx Hw E L. destruct (uni_con_run fdot A b w W P x0 x v E (neg_num v L)) as [(T & t & HT & LT & V) _]. rewrite V, (ltb_same _ t (penalised_eq x t Fm Hx)) in L.
  exact (uni_calc_neg fdot g h r n A b (point x) w HD Hg Hh Hn SY MO (proj1 (proj2 Hw)) T Hw HT (least_neg T t LT L)).
Qed.
Theorem uss_con_neg : is_finite mu = true -> holds cdot rows x -> weights_from 0 r w -> uss_maximize_con cdot csum mu rows fdot W P A b w x0 = (x, v) -> flt_ltb v f0 = true ->
  forall Q, in_matrix A Q -> ~ in_rhs_by b (fun i => - uss_margin g h n A b (point x) i) (row_value n Q (point x)).
Proof.
  intros Fm Hx Hw E L. destruct (uss_con_run fdot A b w W P x0 x v E (neg_num v L)) as [(T & t & HT & LT & V) _]. rewrite V, (ltb_same _ t (penalised_eq x t Fm Hx)) in L.
  destruct (uss_value_of fdot A b w x t T HT LT (neg_num t L)) as (t' & Ht & Xt).
  apply (uss_fl_excludes fdot g h r n A b (point x) w t' HD Hg Hh Hn SY MO Hw Ht). rewrite num_lt_x, Xt. rewrite flt_ltb_x in L. exact L.
Qed.
End Meaning.
End Pen.
