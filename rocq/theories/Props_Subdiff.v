(** The subdifferential Newton method over exact reals: C52. *)
From Coq Require Import Reals ZArith List Bool Arith Lia Lra.
From Verif Require Import Exact SpecExact ExactProofs Spec Subdiff SpecSubdiff SubdiffProofs SubdiffEx SubdiffStop.
Import ListNotations.
Open Scope R_scope.

(** The matrix built at a point, times the point, is the Kaucher product. *)
Theorem C52_linearization : forall n A x, (forall i j, (i < n)%nat -> (j < n)%nat -> proper (A i j) \/ proper (mkr (x j) (x (n + j)%nat))) ->
  forall i, (i < n)%nat -> kaucher_row n A (unflat n x) i (mkr (times (2 * n) (sd_F n A x) x i) (times (2 * n) (sd_F n A x) x (n + i)%nat)).
Proof. exact linearization. Qed.
Print Assumptions C52_linearization.

(** Not so for an improper coefficient times an improper unknown around zero. *)
Theorem C52_improper_refuted : exists A x, ~ kaucher_row 1 A (unflat 1 x) 0 (mkr (times 2 (sd_F 1 A x) x 0%nat) (times 2 (sd_F 1 A x) x 1%nat)).
Proof. exact linearization_refuted. Qed.
Print Assumptions C52_improper_refuted.

(** What is returned: formal solutions. *)
Theorem C52_point_matrix : forall solve n A b tol tau nmv maxiter X, solver_ok solve -> 0 <= tol ->
  (forall i j, (i < n)%nat -> (j < n)%nat -> rl (A i j) = rh (A i j)) ->
  subdiff solve n A b tol tau nmv maxiter = Some X -> formal_solution n A b X.
Proof. exact subdiff_point_matrix. Qed.
Print Assumptions C52_point_matrix.

Theorem C52_settled : forall solve n A b tau nmv maxiter X Y, solver_ok solve -> 0 <= nmv -> tau <> 0 -> (-1 <= maxiter)%Z ->
  subdiff solve n A b 0 tau nmv maxiter = Some X -> subdiff solve n A b 0 tau nmv (maxiter + 1) = Some Y -> (forall j, (j < n)%nat -> Y j = X j) ->
  formal_solution n A b X.
Proof. exact subdiff_settled. Qed.
Print Assumptions C52_settled.

Theorem C52_same_matrix : forall solve n A b nmv x y r q, solver_ok solve -> proper_mat n n A ->
  sd_step solve n A b 1 nmv x = Some (y, r, q) -> (forall i j, (i < 2 * n)%nat -> (j < 2 * n)%nat -> sd_F n A y i j = sd_F n A x i j) -> formal_solution n A b (unflat n y).
Proof. exact subdiff_same_matrix. Qed.
Print Assumptions C52_same_matrix.

(** What formal solutions are good for. *)
Theorem C52_box_tolerable : forall n A b X, proper_mat n n A -> proper_vec n X -> formal_solution n A b X -> forall v, in_ivec n X v -> tolerable n n A b v.
Proof. exact formal_tolerable. Qed.
Print Assumptions C52_box_tolerable.

Theorem C52_box_united : forall n A b X, proper_mat n n A -> proper_vec n X -> proper_vec n b -> formal_solution n (dual_mat A) b X -> forall v, in_ivec n X v -> united n n A b v.
Proof. exact formal_united. Qed.
Print Assumptions C52_box_united.

(** A solver, and a run of the method on [1,2] x = [2,6] that returns [2,3]. *)
Example C52_case : solver_ok solve2 /\ proper_mat 1 1 sx_A /\ (exists X, subdiff solve2 1 sx_A sx_b 0 1 0 0 = Some X /\ X 0%nat = mkr 2 3 /\ formal_solution 1 sx_A sx_b X).
Proof. split; [exact solve2_ok|]. split; [intros i j _ _; unfold proper, sx_A; simpl; lra | exact subdiff_case]. Qed.
(** The step from (2,3) keeps the matrix; *)
Example C52_case_step : exists y r q, sd_step solve2 1 sx_A sx_b 1 0 (v2 2 3) = Some (y, r, q) /\ y 0%nat = 2 /\ y 1%nat = 3.
Proof. destruct (sx_step 2 3 ltac:(lra) ltac:(lra)) as (y & r & q & H1 & H2 & H3 & _). exists y, r, q. auto. Qed.
(** When the method stops: it starts at the formal solution of the system of
    midpoints, every step is a step of Newton's method, every test but the last
    failed, and the last one held or maxiter was exceeded.  The misfit tested is
    that of the point before the last. *)
Theorem C52_run : forall solve n A b tol tau nmv maxiter X, solver_ok solve -> proper_mat n n A ->
  subdiff solve n A b tol tau nmv maxiter = Some X ->
  exists xs k, formal_solution n (centre A) b (as_box n (xs O)) /\ newton_run n A b tol tau nmv (Z.to_nat (maxiter + 1)) k xs /\ X = as_box n (xs k).
Proof. exact subdiff_run. Qed.
Print Assumptions C52_run.
(** So the answer itself need not meet the tolerance, whatever maxiter is. *)
Theorem C52_tolerance_refuted : exists solve A b X tol, solver_ok solve /\ proper_mat 2 2 A /\
  (forall maxiter, (0 <= maxiter)%Z -> subdiff solve 2 A b tol 1 0 maxiter = Some (as_box 2 X)) /\
  misfit 2 A b (as_box 2 X) 8 /\ tol < 8 / norm1 2 X.
Proof. exact (ex_intro _ solve4 (ex_intro _ st_A (ex_intro _ st_b (ex_intro _ st_y (ex_intro _ (1 / 2) (conj solve4_ok tolerance_x)))))). Qed.
Print Assumptions C52_tolerance_refuted.
