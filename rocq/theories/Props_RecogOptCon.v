(** C94: what maximize of Tol, Uni and Uss returns in binary64 under a linear
    constraint C x <= c. *)
From Coq Require Import ZArith Reals Lra Lia List Bool.
From Flocq Require Import Core IEEE754.BinarySingleNaN.
From Verif Require Import Base PyNum Kernel Spec Expr Arrays Construct SpecArray RecogFl SpecRecogFl RecogFlRefute UssFl SpecUssFl
  Ralgb5 RecogOpt SpecRecogOpt RecogOptRefute RecogOptCon SpecRecogOptCon RecogOptConProofs RecogOptConRefute.
Import ListNotations.
Open Scope R_scope.

(** The reported value, unless it is NaN, is the least constituent at the
    reported point minus mu times the total violation there, and no less than
    at the starting point. *)
Theorem C94_tol_reported_value : forall cdot csum mu rows fdot A b w W P x0 x v,
  tol_maximize_con cdot csum mu rows fdot W P A b w x0 = (x, v) -> is_nan v = false ->
  (exists T t, returns (tol_calc fdot A b (point x) w) mode_NE T /\ least T t /\ v = penalised cdot csum mu rows x t) /\
  exists T0 t0, returns (tol_calc fdot A b (point x0) w) mode_NE T0 /\ least T0 t0 /\ flt_leb (penalised cdot csum mu rows x0 t0) v = true.
Proof. exact tol_con_run. Qed.
Print Assumptions C94_tol_reported_value.
Theorem C94_uni_reported_value : forall cdot csum mu rows fdot A b w W P x0 x v,
  uni_maximize_con cdot csum mu rows fdot W P A b w x0 = (x, v) -> is_nan v = false ->
  (exists T t, returns (uni_calc fdot A b (point x) w) mode_NE T /\ least T t /\ v = penalised cdot csum mu rows x t) /\
  exists T0 t0, returns (uni_calc fdot A b (point x0) w) mode_NE T0 /\ least T0 t0 /\ flt_leb (penalised cdot csum mu rows x0 t0) v = true.
Proof. exact uni_con_run. Qed.
Print Assumptions C94_uni_reported_value.
Theorem C94_uss_reported_value : forall cdot csum mu rows fdot A b w W P x0 x v,
  uss_maximize_con cdot csum mu rows fdot W P A b w x0 = (x, v) -> is_nan v = false ->
  (exists T t, returns (uss_constituent_fl fdot A b (point x) w) mode_NE T /\ least T t /\ v = penalised cdot csum mu rows x t) /\
  exists T0 t0, returns (uss_constituent_fl fdot A b (point x0) w) mode_NE T0 /\ least T0 t0 /\ flt_leb (penalised cdot csum mu rows x0 t0) v = true.
Proof. exact uss_con_run. Qed.
Print Assumptions C94_uss_reported_value.

(** With mu >= 0 it is at most the least constituent [t]; with a finite mu and
    the constraint satisfied it is [t] (as a number). *)
Theorem C94_penalty_lowers : forall cdot csum mu rows, adds_up csum -> forall x t v,
  flt_leb f0 mu = true -> v = penalised cdot csum mu rows x t -> is_nan v = false -> flt_leb v t = true.
Proof. exact penalised_le. Qed.
Print Assumptions C94_penalty_lowers.
Theorem C94_no_penalty_inside : forall cdot csum mu rows, adds_up csum -> forall x t,
  is_finite mu = true -> holds cdot rows x -> is_nan t = false ->
  flt_leb t (penalised cdot csum mu rows x t) = true /\ flt_leb (penalised cdot csum mu rows x t) t = true.
Proof. exact no_penalty_inside. Qed.
Print Assumptions C94_no_penalty_inside.

(** A non-negative reported value means what it means without the constraint,
    whether or not the reported point satisfies it. *)
Theorem C94_tol_nonnegative : forall cdot csum mu rows, adds_up csum -> forall fdot g h r n A b w W P x0 x v,
  dot_within fdot n g h -> 0 <= g <= 1 -> 0 <= h <= 1 -> (Z.of_nat n <= 2 ^ 100)%Z ->
  system r n A b (point x) -> moderate A b (point x) -> flt_leb f0 mu = true -> weights_from 1 r w ->
  tol_maximize_con cdot csum mu rows fdot W P A b w x0 = (x, v) -> flt_leb f0 v = true ->
  forall Q, in_matrix A Q -> in_rhs_by b (uss_margin g h n A b (point x)) (row_value n Q (point x)).
Proof. exact tol_con_nn. Qed.
Print Assumptions C94_tol_nonnegative.
Theorem C94_uni_nonnegative : forall cdot csum mu rows, adds_up csum -> forall fdot g h r n A b w W P x0 x v,
  dot_within fdot n g h -> 0 <= g <= 1 -> 0 <= h <= 1 -> (Z.of_nat n <= 2 ^ 100)%Z ->
  system r n A b (point x) -> moderate A b (point x) -> flt_leb f0 mu = true -> weights_from 1 r w ->
  uni_maximize_con cdot csum mu rows fdot W P A b w x0 = (x, v) -> flt_leb f0 v = true ->
  exists Q, in_matrix A Q /\ in_rhs_by b (fun i => uss_margin g h n A b (point x) i + bpow radix2 (-536)) (row_value n Q (point x)).
Proof. exact uni_con_nn. Qed.
Print Assumptions C94_uni_nonnegative.
Theorem C94_uss_nonnegative : forall cdot csum mu rows, adds_up csum -> forall fdot g h r n A b w W P x0 x v,
  dot_within fdot n g h -> 0 <= g <= 1 -> 0 <= h <= 1 -> (Z.of_nat n <= 2 ^ 100)%Z ->
  system r n A b (point x) -> moderate A b (point x) -> flt_leb f0 mu = true -> weights_from 1 r w ->
  uss_maximize_con cdot csum mu rows fdot W P A b w x0 = (x, v) -> flt_leb f0 v = true ->
  exists Q, in_matrix A Q /\ in_rhs_by b (uss_margin g h n A b (point x)) (row_value n Q (point x)).
Proof. exact uss_con_nn. Qed.
Print Assumptions C94_uss_nonnegative.

(** A negative one does if the reported point satisfies the constraint. *)
Theorem C94_tol_negative : forall cdot csum mu rows, adds_up csum -> forall fdot g h r n A b w W P x0 x v,
  dot_within fdot n g h -> 0 <= g <= 1 -> 0 <= h <= 1 -> (Z.of_nat n <= 2 ^ 100)%Z ->
  system r n A b (point x) -> moderate A b (point x) -> is_finite mu = true -> holds cdot rows x -> weights_from 0 r w ->
  tol_maximize_con cdot csum mu rows fdot W P A b w x0 = (x, v) -> flt_ltb v f0 = true ->
  exists Q, in_matrix A Q /\ ~ in_rhs_by b (fun i => - uss_margin g h n A b (point x) i) (row_value n Q (point x)).
Proof. exact tol_con_neg. Qed.
Print Assumptions C94_tol_negative.
Theorem C94_uni_negative : forall cdot csum mu rows, adds_up csum -> forall fdot g h r n A b w W P x0 x v,
  dot_within fdot n g h -> 0 <= g <= 1 -> 0 <= h <= 1 -> (Z.of_nat n <= 2 ^ 100)%Z ->
  system r n A b (point x) -> moderate A b (point x) -> is_finite mu = true -> holds cdot rows x -> weights_from 0 r w ->
  uni_maximize_con cdot csum mu rows fdot W P A b w x0 = (x, v) -> flt_ltb v f0 = true ->
  forall Q, in_matrix A Q -> ~ in_rhs_by b (fun i => - uss_margin g h n A b (point x) i) (row_value n Q (point x)).
Proof. exact uni_con_neg. Qed.
Print Assumptions C94_uni_negative.
Theorem C94_uss_negative : forall cdot csum mu rows, adds_up csum -> forall fdot g h r n A b w W P x0 x v,
  dot_within fdot n g h -> 0 <= g <= 1 -> 0 <= h <= 1 -> (Z.of_nat n <= 2 ^ 100)%Z ->
  system r n A b (point x) -> moderate A b (point x) -> is_finite mu = true -> holds cdot rows x -> weights_from 0 r w ->
  uss_maximize_con cdot csum mu rows fdot W P A b w x0 = (x, v) -> flt_ltb v f0 = true ->
  forall Q, in_matrix A Q -> ~ in_rhs_by b (fun i => - uss_margin g h n A b (point x) i) (row_value n Q (point x)).
Proof. exact uss_con_neg. Qed.
Print Assumptions C94_uss_negative.

(** The reported point may violate the constraint, far beyond rounding, even if
    the starting point satisfies it: here x <= 1 with mu = 1, which is what the
    library computes when no mu is given, and x = 1.5 is reported. *)
Theorem C94_satisfied_refuted : exists A b x0 x v,
  tol_maximize_con l_dot in_turn f1 at_most_one seq_dot flt_vops (default_params flt_vops) A b (np_ones 1) x0 = (x, v) /\
  system 1 1 A b (point x) /\ moderate A b (point x) /\ holds l_dot at_most_one x0 /\ flt_leb f0 v = true /\ exists y, x = [y] /\ 1 < B2R y.
Proof. exact con_outside. Qed.
Print Assumptions C94_satisfied_refuted.

(** Adding up in turn is one way of adding, and runs with mu = 10 meet the
    hypotheses for a non-negative and for a negative value. *)
Theorem C94_adding_in_turn : adds_up in_turn.
Proof. exact in_turn_adds. Qed.
Print Assumptions C94_adding_in_turn.
Example C94_case : flt_leb f0 f_ten = true /\ is_finite f_ten = true /\ weights_from 1 1 (np_ones 1) /\
  (exists x v, tol_maximize_con l_dot in_turn f_ten at_most_one seq_dot flt_vops (default_params flt_vops) (one_eq (PInt 1)) (one_rhs (PInt 0) (PInt 4)) (np_ones 1) [f_half] = (x, v) /\
     system 1 1 (one_eq (PInt 1)) (one_rhs (PInt 0) (PInt 4)) (point x) /\ moderate (one_eq (PInt 1)) (one_rhs (PInt 0) (PInt 4)) (point x) /\
     holds l_dot at_most_one x /\ flt_leb f0 v = true) /\
  (exists x v, tol_maximize_con l_dot in_turn f_ten at_most_one seq_dot flt_vops (default_params flt_vops) (one_eq (PInt 1)) (one_rhs (PInt 3) (PInt 4)) (np_ones 1) [f_half] = (x, v) /\
     system 1 1 (one_eq (PInt 1)) (one_rhs (PInt 3) (PInt 4)) (point x) /\ moderate (one_eq (PInt 1)) (one_rhs (PInt 3) (PInt 4)) (point x) /\
     holds l_dot at_most_one x /\ flt_ltb v f0 = true).
Proof.
  split; [vm_compute; reflexivity|]. split; [vm_compute; reflexivity|]. split; [apply ones_weights; lra|]. split.
  - destruct (ran (tol_maximize_con l_dot in_turn f_ten at_most_one seq_dot flt_vops (default_params flt_vops) (one_eq (PInt 1)) (one_rhs (PInt 0) (PInt 4)) (np_ones 1) [f_half]) (kept false)) as (x & v & E & T); [vm_compute; reflexivity|].
    exists x, v. split; [exact E | exact (kept_ok false 0 x v ltac:(lia) T)].
  - destruct (ran (tol_maximize_con l_dot in_turn f_ten at_most_one seq_dot flt_vops (default_params flt_vops) (one_eq (PInt 1)) (one_rhs (PInt 3) (PInt 4)) (np_ones 1) [f_half]) (kept true)) as (x & v & E & T); [vm_compute; reflexivity|].
    exists x, v. split; [exact E | exact (kept_ok true 3 x v ltac:(lia) T)].
Qed.
