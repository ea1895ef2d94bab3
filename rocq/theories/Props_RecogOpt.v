(** C93: what maximize of Tol, Uni and Uss returns in binary64. *)
From Coq Require Import ZArith Reals Lra Lia List Bool.
From Flocq Require Import Core IEEE754.BinarySingleNaN.
From Verif Require Import Base PyNum Kernel Spec Expr Arrays Construct SpecArray RecogFl SpecRecogFl RecogFlRefute Props_RecogFl UssFl SpecUssFl UssFlRefute Props_UssFl
  Ralgb5 RecogOpt SpecRecogOpt RecogOptFinal RecogOptAccuracy RecogOptRefute Witness.
Import ListNotations.
Open Scope R_scope.

(** The reported value, unless it is NaN, is the least constituent at the
    reported point, and no less than at the starting point; whatever the vector
    operations [W], the parameters [P] and the inner product [fdot]. *)
Theorem C93_tol_reported_value : forall fdot A b w W P x0 x v, tol_maximize_fl fdot W P A b w x0 = (x, v) -> is_nan v = false ->
  (exists T, returns (tol_calc fdot A b (point x) w) mode_NE T /\ least T v) /\
  exists T0 v0, returns (tol_calc fdot A b (point x0) w) mode_NE T0 /\ least T0 v0 /\ flt_leb v0 v = true.
Proof. exact tol_run. Qed.
Print Assumptions C93_tol_reported_value.
Theorem C93_uni_reported_value : forall fdot A b w W P x0 x v, uni_maximize_fl fdot W P A b w x0 = (x, v) -> is_nan v = false ->
  (exists T, returns (uni_calc fdot A b (point x) w) mode_NE T /\ least T v) /\
  exists T0 v0, returns (uni_calc fdot A b (point x0) w) mode_NE T0 /\ least T0 v0 /\ flt_leb v0 v = true.
Proof. exact uni_run. Qed.
Print Assumptions C93_uni_reported_value.
Theorem C93_uss_reported_value : forall fdot A b w W P x0 x v, uss_maximize_fl fdot W P A b w x0 = (x, v) -> is_nan v = false ->
  (exists T, returns (uss_constituent_fl fdot A b (point x) w) mode_NE T /\ least T v) /\
  exists T0 v0, returns (uss_constituent_fl fdot A b (point x0) w) mode_NE T0 /\ least T0 v0 /\ flt_leb v0 v = true.
Proof. exact uss_run. Qed.
Print Assumptions C93_uss_reported_value.

(** Started at a point of moderate size it is not NaN, so that no exception was
    raised at the starting point and a number is reported. *)
Theorem C93_tol_reports_a_number : forall fdot g h r n A b w W P x0,
  dot_within fdot n g h -> 0 <= g <= 1 -> 0 <= h <= 1 -> (Z.of_nat n <= 2 ^ 100)%Z -> (0 < r)%nat ->
  system r n A b (point x0) -> moderate A b (point x0) -> weights_from 1 r w ->
  is_nan (snd (tol_maximize_fl fdot W P A b w x0)) = false.
Proof. exact tol_max_num. Qed.
Print Assumptions C93_tol_reports_a_number.
Theorem C93_uni_reports_a_number : forall fdot g h r n A b w W P x0,
  dot_within fdot n g h -> 0 <= g <= 1 -> 0 <= h <= 1 -> (Z.of_nat n <= 2 ^ 100)%Z -> (0 < r)%nat ->
  system r n A b (point x0) -> moderate A b (point x0) -> weights_from 1 r w ->
  is_nan (snd (uni_maximize_fl fdot W P A b w x0)) = false.
Proof. exact uni_max_num. Qed.
Print Assumptions C93_uni_reports_a_number.
Theorem C93_uss_reports_a_number : forall fdot g h r n A b w W P x0,
  dot_within fdot n g h -> 0 <= g <= 1 -> 0 <= h <= 1 -> (Z.of_nat n <= 2 ^ 100)%Z -> (0 < r)%nat ->
  system r n A b (point x0) -> moderate A b (point x0) -> weights_from 1 r w ->
  is_nan (snd (uss_maximize_fl fdot W P A b w x0)) = false.
Proof. exact uss_max_num. Qed.
Print Assumptions C93_uss_reports_a_number.

(** Tol: a non-negative value, then every matrix sends the reported point into
    the right-hand side widened by the margin; a negative one, then some matrix
    does not send it into the right-hand side narrowed by it. *)
Theorem C93_tol_nonnegative : forall fdot g h r n A b w W P x0 x v,
  dot_within fdot n g h -> 0 <= g <= 1 -> 0 <= h <= 1 -> (Z.of_nat n <= 2 ^ 100)%Z ->
  system r n A b (point x) -> moderate A b (point x) -> weights_from 1 r w ->
  tol_maximize_fl fdot W P A b w x0 = (x, v) -> flt_leb f0 v = true ->
  forall Q, in_matrix A Q -> in_rhs_by b (uss_margin g h n A b (point x)) (row_value n Q (point x)).
Proof. exact tol_max_nn. Qed.
Print Assumptions C93_tol_nonnegative.
Theorem C93_tol_negative : forall fdot g h r n A b w W P x0 x v,
  dot_within fdot n g h -> 0 <= g <= 1 -> 0 <= h <= 1 -> (Z.of_nat n <= 2 ^ 100)%Z ->
  system r n A b (point x) -> moderate A b (point x) -> weights_from 0 r w ->
  tol_maximize_fl fdot W P A b w x0 = (x, v) -> flt_ltb v f0 = true ->
  exists Q, in_matrix A Q /\ ~ in_rhs_by b (fun i => - uss_margin g h n A b (point x) i) (row_value n Q (point x)).
Proof. exact tol_max_neg. Qed.
Print Assumptions C93_tol_negative.
(** Uni and Uss: the same for some and for no matrix.  In Uni a product of two
    tiny numbers underflows, hence the second margin. *)
Theorem C93_uni_nonnegative : forall fdot g h r n A b w W P x0 x v,
  dot_within fdot n g h -> 0 <= g <= 1 -> 0 <= h <= 1 -> (Z.of_nat n <= 2 ^ 100)%Z ->
  system r n A b (point x) -> moderate A b (point x) -> weights_from 1 r w ->
  uni_maximize_fl fdot W P A b w x0 = (x, v) -> flt_leb f0 v = true ->
  exists Q, in_matrix A Q /\ in_rhs_by b (fun i => uss_margin g h n A b (point x) i + bpow radix2 (-536)) (row_value n Q (point x)).
Proof. exact uni_max_nn. Qed.
Print Assumptions C93_uni_nonnegative.
Theorem C93_uni_negative : forall fdot g h r n A b w W P x0 x v,
  dot_within fdot n g h -> 0 <= g <= 1 -> 0 <= h <= 1 -> (Z.of_nat n <= 2 ^ 100)%Z ->
  system r n A b (point x) -> moderate A b (point x) -> weights_from 0 r w ->
  uni_maximize_fl fdot W P A b w x0 = (x, v) -> flt_ltb v f0 = true ->
  forall Q, in_matrix A Q -> ~ in_rhs_by b (fun i => - uss_margin g h n A b (point x) i) (row_value n Q (point x)).
Proof. exact uni_max_neg. Qed.
Print Assumptions C93_uni_negative.
Theorem C93_uss_nonnegative : forall fdot g h r n A b w W P x0 x v,
  dot_within fdot n g h -> 0 <= g <= 1 -> 0 <= h <= 1 -> (Z.of_nat n <= 2 ^ 100)%Z ->
  system r n A b (point x) -> moderate A b (point x) -> weights_from 1 r w ->
  uss_maximize_fl fdot W P A b w x0 = (x, v) -> flt_leb f0 v = true ->
  exists Q, in_matrix A Q /\ in_rhs_by b (uss_margin g h n A b (point x)) (row_value n Q (point x)).
Proof. exact uss_max_nn. Qed.
Print Assumptions C93_uss_nonnegative.
Theorem C93_uss_negative : forall fdot g h r n A b w W P x0 x v,
  dot_within fdot n g h -> 0 <= g <= 1 -> 0 <= h <= 1 -> (Z.of_nat n <= 2 ^ 100)%Z ->
  system r n A b (point x) -> moderate A b (point x) -> weights_from 0 r w ->
  uss_maximize_fl fdot W P A b w x0 = (x, v) -> flt_ltb v f0 = true ->
  forall Q, in_matrix A Q -> ~ in_rhs_by b (fun i => - uss_margin g h n A b (point x) i) (row_value n Q (point x)).
Proof. exact uss_max_neg. Qed.
Print Assumptions C93_uss_negative.

(** How accurate the value is, with weights 1: up to twice the margin it is the
    greatest amount by which the right-hand side can be narrowed so that every
    matrix (Tol), some matrix (Uni and, for a value up to 0, Uss) still sends the
    reported point into it.  Narrowing by less than zero is widening. *)
Theorem C93_tol_accuracy : forall fdot g h r n A b w W P x0 x v,
  dot_within fdot n g h -> 0 <= g <= 1 -> 0 <= h <= 1 -> (Z.of_nat n <= 2 ^ 100)%Z ->
  system r n A b (point x) -> moderate A b (point x) -> ones r w -> is_finite v = true ->
  tol_maximize_fl fdot W P A b w x0 = (x, v) ->
  (forall Q, in_matrix A Q -> in_rhs_by b (fun i => 2 * uss_margin g h n A b (point x) i - B2R v) (row_value n Q (point x))) /\
  exists Q, in_matrix A Q /\ ~ in_rhs_by b (fun i => - (2 * uss_margin g h n A b (point x) i) - B2R v) (row_value n Q (point x)).
Proof. exact tol_accuracy. Qed.
Print Assumptions C93_tol_accuracy.
Theorem C93_uni_accuracy : forall fdot g h r n A b w W P x0 x v,
  dot_within fdot n g h -> 0 <= g <= 1 -> 0 <= h <= 1 -> (Z.of_nat n <= 2 ^ 100)%Z ->
  system r n A b (point x) -> moderate A b (point x) -> ones r w -> is_finite v = true ->
  uni_maximize_fl fdot W P A b w x0 = (x, v) ->
  (exists Q, in_matrix A Q /\ in_rhs_by b (fun i => 2 * uss_margin g h n A b (point x) i + bpow radix2 (-536) - B2R v) (row_value n Q (point x))) /\
  forall Q, in_matrix A Q -> ~ in_rhs_by b (fun i => - (2 * uss_margin g h n A b (point x) i) - B2R v) (row_value n Q (point x)).
Proof. exact uni_accuracy. Qed.
Print Assumptions C93_uni_accuracy.
Theorem C93_uss_accuracy : forall fdot g h r n A b w W P x0 x v,
  dot_within fdot n g h -> 0 <= g <= 1 -> 0 <= h <= 1 -> (Z.of_nat n <= 2 ^ 100)%Z ->
  system r n A b (point x) -> moderate A b (point x) -> ones r w -> is_finite v = true ->
  uss_maximize_fl fdot W P A b w x0 = (x, v) ->
  (B2R v <= 0 -> exists Q, in_matrix A Q /\ in_rhs_by b (fun i => 2 * uss_margin g h n A b (point x) i - B2R v) (row_value n Q (point x))) /\
  forall Q, in_matrix A Q -> ~ in_rhs_by b (fun i => - (2 * uss_margin g h n A b (point x) i) - B2R v) (row_value n Q (point x)).
Proof. exact uss_accuracy. Qed.
Print Assumptions C93_uss_accuracy.

(** Without the margin it is false, for the default parameters: *)
Theorem C93_tol_exact_refuted : exists A b x0 x v, tol_maximize_fl seq_dot flt_vops (default_params flt_vops) A b (np_ones 1) x0 = (x, v) /\
  system 1 1 A b (point x) /\ moderate A b (point x) /\ flt_leb f0 v = true /\ forall Q, in_matrix A Q -> ~ in_rhs b (row_value 1 Q (point x)).
Proof. exact tol_max_x. Qed.
Print Assumptions C93_tol_exact_refuted.
Theorem C93_uni_exact_refuted : exists A b x0 x v, uni_maximize_fl seq_dot flt_vops (default_params flt_vops) A b (np_ones 1) x0 = (x, v) /\
  system 1 1 A b (point x) /\ moderate A b (point x) /\ flt_leb f0 v = true /\ forall Q, in_matrix A Q -> ~ in_rhs b (row_value 1 Q (point x)).
Proof. exact uni_max_x. Qed.
Print Assumptions C93_uni_exact_refuted.
Theorem C93_uss_exact_refuted : exists A b x0 x v, uss_maximize_fl seq_dot flt_vops (default_params flt_vops) A b (np_ones 1) x0 = (x, v) /\
  system 1 1 A b (point x) /\ moderate A b (point x) /\ flt_leb f0 v = true /\ forall Q, in_matrix A Q -> ~ in_rhs b (row_value 1 Q (point x)).
Proof. exact uss_max_x. Qed.
Print Assumptions C93_uss_exact_refuted.
(** Tol.value at the reported point may be negative where Tol.maximize reports
    a non-negative value: *)
Theorem C93_tol_value_agrees_refuted : exists A b x0 x v t, tol_maximize_fl seq_dot flt_vops (default_params flt_vops) A b (np_ones 1) x0 = (x, v) /\ flt_leb f0 v = true /\
  returns (tol_value_fl A b (point x) (np_ones 1)) mode_NE t /\ num_lt t (PInt 0) = true.
Proof. exact tol_disagree. Qed.
Print Assumptions C93_tol_value_agrees_refuted.
(** A negative maximum does not show that the solution set is empty: *)
Theorem C93_tol_negative_means_empty_refuted : exists A b x0 x v, tol_maximize_fl seq_dot flt_vops (default_params flt_vops) A b (np_ones 1) x0 = (x, v) /\
  system 1 1 A b (point x) /\ moderate A b (point x) /\ flt_ltb v f0 = true /\ exists y, forall Q, in_matrix A Q -> in_rhs b (row_value 1 Q y).
Proof. exact tol_max_neg_x. Qed.
Print Assumptions C93_tol_negative_means_empty_refuted.
Theorem C93_uni_negative_means_empty_refuted : exists A b x0 x v, uni_maximize_fl seq_dot flt_vops (default_params flt_vops) A b (np_ones 1) x0 = (x, v) /\
  system 1 1 A b (point x) /\ moderate A b (point x) /\ flt_ltb v f0 = true /\ exists y, forall Q, in_matrix A Q -> in_rhs b (row_value 1 Q y).
Proof. exact uni_max_neg_x. Qed.
Print Assumptions C93_uni_negative_means_empty_refuted.
Theorem C93_uss_negative_means_empty_refuted : exists A b x0 x v, uss_maximize_fl seq_dot flt_vops (default_params flt_vops) A b (np_ones 1) x0 = (x, v) /\
  system 1 1 A b (point x) /\ moderate A b (point x) /\ flt_ltb v f0 = true /\ exists y, forall Q, in_matrix A Q -> in_rhs b (row_value 1 Q y).
Proof. exact uss_max_neg_x. Qed.
Print Assumptions C93_uss_negative_means_empty_refuted.

(** The system of Props_RecogFl.v started at (1, 2) meets the hypotheses for a
    non-negative value; the runs above meet those for a negative one. *)
Definition start : list flt := [f1; fl 1 1].
Definition found (x : list flt) (v : flt) : bool :=
  match x with [y; z] => inside (fneg f_big) y f_big && inside (fneg f_big) z f_big && flt_leb f0 v | _ => false end.
Lemma f_ready x v : found x v = true -> system 2 2 fA fb (point x) /\ moderate fA fb (point x) /\ flt_leb f0 v = true.
Proof.
  intro H. destruct x as [|y [|z [|]]]; [discriminate H | discriminate H | | discriminate H]. unfold found in H.
  apply andb_prop in H. destruct H as [H Hv]. apply andb_prop in H. destruct H as [Hy Hz].
  apply inside_R in Hy; [|vm_compute; reflexivity|vm_compute; reflexivity]. apply inside_R in Hz; [|vm_compute; reflexivity|vm_compute; reflexivity].
  rewrite b_big, b_nbig in Hy, Hz. destruct Hy as [Fy By]. destruct Hz as [Fz Bz].
  split; [apply f_system; [reflexivity | reflexivity |]; constructor; [split; [exact I | exact Fy]|]; constructor; [split; [exact I | exact Fz] | constructor]|].
  split; [|exact Hv]. apply f_moderate. constructor; [cbn [num_val]; apply Rabs_le; lra|]. constructor; [cbn [num_val]; apply Rabs_le; lra | constructor].
Qed.
Example C93_case : system 2 2 fA fb (point start) /\ moderate fA fb (point start) /\ weights_from 1 2 (np_ones 2) /\
  (exists x v, tol_maximize_fl seq_dot flt_vops (default_params flt_vops) fA fb (np_ones 2) start = (x, v) /\
     system 2 2 fA fb (point x) /\ moderate fA fb (point x) /\ flt_leb f0 v = true) /\
  (exists x v, uni_maximize_fl seq_dot flt_vops (default_params flt_vops) fA fb (np_ones 2) start = (x, v) /\
     system 2 2 fA fb (point x) /\ moderate fA fb (point x) /\ flt_leb f0 v = true) /\
  (exists x v, uss_maximize_fl seq_dot flt_vops (default_params flt_vops) fA fb (np_ones 2) start = (x, v) /\
     system 2 2 fA fb (point x) /\ moderate fA fb (point x) /\ flt_leb f0 v = true).
Proof.
  destruct (f_ready start f1) as (P1 & P2 & _); [vm_compute; reflexivity|].
  split; [exact P1|]. split; [exact P2|]. split; [apply ones_weights; lra|]. split; [|split].
  - destruct (ran (tol_maximize_fl seq_dot flt_vops (default_params flt_vops) fA fb (np_ones 2) start) found) as (x & v & E & T); [vm_compute; reflexivity|]. exists x, v. split; [exact E | now apply f_ready].
  - destruct (ran (uni_maximize_fl seq_dot flt_vops (default_params flt_vops) fA fb (np_ones 2) start) found) as (x & v & E & T); [vm_compute; reflexivity|]. exists x, v. split; [exact E | now apply f_ready].
  - destruct (ran (uss_maximize_fl seq_dot flt_vops (default_params flt_vops) fA fb (np_ones 2) start) found) as (x & v & E & T); [vm_compute; reflexivity|]. exists x, v. split; [exact E | now apply f_ready].
Qed.
Lemma ones_all r : ones r (np_ones r).
Proof.
  destruct (ones_weights r 1 (Rle_refl 1)) as (H1 & H2 & _). split; [exact H1|]. split; [exact H2|].
  apply Forall_forall. intros v H. apply repeat_spec in H. subst v. split; [exact I|]. split; [reflexivity|].
  change (B2R (fl 1 0) = 1). rewrite (B2R_sf _ false 4503599627370496 (-52)) by (vm_compute; reflexivity). feval. lra.
Qed.
Definition found_fin (x : list flt) (v : flt) : bool := found x v && is_finite v.
Example C93_accuracy_case : ones 2 (np_ones 2) /\
  (exists x v, tol_maximize_fl seq_dot flt_vops (default_params flt_vops) fA fb (np_ones 2) start = (x, v) /\
     system 2 2 fA fb (point x) /\ moderate fA fb (point x) /\ is_finite v = true) /\
  (exists x v, uni_maximize_fl seq_dot flt_vops (default_params flt_vops) fA fb (np_ones 2) start = (x, v) /\
     system 2 2 fA fb (point x) /\ moderate fA fb (point x) /\ is_finite v = true) /\
  (exists x v, uss_maximize_fl seq_dot flt_vops (default_params flt_vops) fA fb (np_ones 2) start = (x, v) /\
     system 2 2 fA fb (point x) /\ moderate fA fb (point x) /\ is_finite v = true).
Proof.
  split; [apply ones_all|].
  assert (K : forall c, found_fin (fst c) (snd c) = true -> exists x v, c = (x, v) /\ system 2 2 fA fb (point x) /\ moderate fA fb (point x) /\ is_finite v = true).
  { intros c H. destruct (ran c found_fin H) as (x & v & E & T). apply andb_prop in T. destruct T as [T F]. destruct (f_ready x v T) as (H1 & H2 & _). exists x, v. repeat (split; [assumption|]). assumption. }
  split; [|split]; apply K; vm_compute; reflexivity.
Qed.
