(** The splitting method PSS on doubles: C45. *)
From Coq Require Import ZArith Reals List Bool.
From Flocq Require Import Core IEEE754.BinarySingleNaN.
From Verif Require Import Base PyNum Kernel Spec SpecSolvers PssFl SpecPssFl PssFlProofs PssFlDiv PssFlRest PssFlMain PssFlBoth PssFlRefute.
Open Scope R_scope.

(** Whatever the tolerance and the iteration limit: the interval contains the
    double nearest to the component of every solution. *)
Theorem C45_floating_point : forall eo1 eo2 m n nu A b V1 V2 tol maxiter Z x, (nu < n)%nat -> fl_system m n nu A b -> fl_box n nu V1 -> fl_box n nu V2 ->
  lp_bounds eo1 (to_dbl mode_NE) m n nu A b V1 -> lp_bounds eo2 (to_dbl mode_NE) m n nu A (fun i => neg (b i)) V2 ->
  returns (pss_fl eo1 eo2 m n nu A b V1 V2 tol maxiter) mode_NE Z ->
  fl_solution m n A b x -> in_fl_box n V1 x -> in_fl_box n V2 (fun j => - x j) -> member Z (to_dbl mode_NE (x nu)).
Proof. exact box_rounded. Qed.
Print Assumptions C45_floating_point.

(** If no entry of column [nu] contains zero, every solution itself is kept, in
    every rounding mode. *)
Theorem C45_floating_point_clear_column : forall eo1 eo2 m n nu A b V1 V2 tol maxiter md Z x, (nu < n)%nat -> fl_system m n nu A b -> (forall i, (i < m)%nat -> clear_of_zero (A i nu)) ->
  fl_box n nu V1 -> fl_box n nu V2 ->
  lp_bounds eo1 (fun v => v) m n nu A b V1 -> lp_bounds eo2 (fun v => v) m n nu A (fun i => neg (b i)) V2 ->
  returns (pss_fl eo1 eo2 m n nu A b V1 V2 tol maxiter) md Z ->
  fl_solution m n A b x -> in_fl_box n V1 x -> in_fl_box n V2 (fun j => - x j) -> member Z (x nu).
Proof. exact box_exact. Qed.
Print Assumptions C45_floating_point_clear_column.

(** The lower end in any rounding mode. *)
Theorem C45_floating_point_lower_bound : forall eo m n nu A b V tol maxiter md q x, (nu < n)%nat -> fl_system m n nu A b -> fl_box n nu V -> lp_bounds eo (to_dbl md) m n nu A b V ->
  returns (algo_fl eo m n nu A b V tol maxiter) md q -> fl_solution m n A b x -> in_fl_box n V x -> num_le_R q (to_dbl md (x nu)).
Proof. exact lower_rounded. Qed.
Print Assumptions C45_floating_point_lower_bound.

(** The quotients by intervals with zero are rounded to nearest, not outward: a
    solution may be lost. *)
Theorem C45_floating_point_rounding_refuted : exists eo1 eo2 m n nu A b V1 V2 tol maxiter Z x, (nu < n)%nat /\ fl_system m n nu A b /\ fl_box n nu V1 /\ fl_box n nu V2 /\
  lp_bounds eo1 (fun v => v) m n nu A b V1 /\ lp_bounds eo2 (fun v => v) m n nu A (fun i => neg (b i)) V2 /\
  returns (pss_fl eo1 eo2 m n nu A b V1 V2 tol maxiter) mode_NE Z /\ fl_solution m n A b x /\ in_fl_box n V1 x /\ in_fl_box n V2 (fun j => - x j) /\ ~ member Z (x nu).
Proof. exact pss_fl_loses. Qed.
Print Assumptions C45_floating_point_rounding_refuted.

Example C45_floating_point_case : fl_system 1 2 0 px_A px_b /\ (forall i, (i < 1)%nat -> clear_of_zero (px_A i 0%nat)) /\ fl_box 2 0 px_V /\
  lp_bounds px_eo1 (fun v => v) 1 2 0 px_A px_b px_V /\ lp_bounds px_eo2 (fun v => v) 1 2 0 px_A (fun i => neg (px_b i)) px_V /\
  lp_bounds px_eo1 (to_dbl mode_NE) 1 2 0 px_A px_b px_V /\ lp_bounds px_eo2 (to_dbl mode_NE) 1 2 0 px_A (fun i => neg (px_b i)) px_V /\
  (exists q, returns (algo_fl px_eo1 1 2 0 px_A px_b px_V (PFlt fhalf) 5) mode_NE q /\ num_lt (PInt (-8)) q = true) /\
  (exists Z, returns (pss_fl px_eo1 px_eo2 1 2 0 px_A px_b px_V px_V (PFlt fhalf) 5) mode_NE Z /\ num_lt (PInt (-8)) (lo Z) = true /\ num_lt (hi Z) (PInt 8) = true) /\
  exists x, fl_solution 1 2 px_A px_b x /\ in_fl_box 2 px_V x /\ in_fl_box 2 px_V (fun j => - x j).
Proof. exact px_case. Qed.
