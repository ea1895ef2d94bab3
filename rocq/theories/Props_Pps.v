(** The parameter partitioning method PPS over exact reals: C65. *)
From Coq Require Import Reals ZArith List Bool Arith Lia Lra.
From Verif Require Import Exact SpecExact Estim SpecEstim Pps SpecPps PpsProofs PpsLoop PpsMore PpsCase.
Import ListNotations.
Open Scope R_scope.

(** Whatever the tolerance and the iteration limit. *)
Theorem C65_encloses : forall hbr inverse solve det hang n A b tol maxiter nu X x1 x2, (nu < n)%nat ->
  estimates_enclose hbr n A b -> estimates_enclose hbr n A (negated b) -> inverses_enclose inverse n A -> solutions_exact solve n ->
  generic_minimum n A b nu x1 -> generic_minimum n A (negated b) nu x2 ->
  pps hbr inverse solve det hang n A b tol maxiter nu = POk X -> forall x, united n n A b x -> inI X (x nu).
Proof. exact pps_encloses. Qed.
Print Assumptions C65_encloses.
(** All hypotheses hold of a 2 x 2 system, for which the call returns. *)
Example C65_encloses_case : forall tol hang (maxiter : nat), (0 < 2)%nat /\ estimates_enclose cs_hbr 2 cs_A cs_b /\ estimates_enclose cs_hbr 2 cs_A (negated cs_b) /\ inverses_enclose cs_inv 2 cs_A /\ solutions_exact cs_solve 2 /\
  generic_minimum 2 cs_A cs_b 0 (vec2 (18 / 23) (43 / 23)) /\ generic_minimum 2 cs_A (negated cs_b) 0 (vec2 (- (43 / 23)) (- (18 / 23))) /\
  pps cs_hbr cs_inv cs_solve (fun _ => 1) hang 2 cs_A cs_b tol (Z.of_nat maxiter) 0 = POk (mkr (/ 2) (- -3)).
Proof. exact pps_case. Qed.

(** The line that reads the name [rt], defined nowhere, is never reached. *)
Theorem C65_never_reads_undefined_name : forall hbr inverse solve det hang n A b tol maxiter nu,
  pps hbr inverse solve det hang n A b tol maxiter nu <> PNameError.
Proof. exact pps_no_name_error. Qed.
Print Assumptions C65_never_reads_undefined_name.

(** A matrix of numbers: UnboundLocalError, whatever the right-hand side. *)
Theorem C65_point_matrix_raises : forall hbr inverse solve det hang n A b tol maxiter nu iA vx, (forall i j, (i < n)%nat -> (j < n)%nat -> rl (A i j) = rh (A i j)) ->
  det (mids A) <> 0 -> inverse A = Some iA -> hbr A b = Some vx -> pps hbr inverse solve det hang n A b tol maxiter nu = PUnbound.
Proof. exact pps_point_matrix. Qed.
Print Assumptions C65_point_matrix_raises.

(** Without the genericity of the minimum the answer may miss solutions, even when
    everything PPS calls tells the truth. *)
Theorem C65_block_triangular_refuted : exists A b hbr inverse solve det x, (forall i j, (i < 2)%nat -> (j < 2)%nat -> proper (A i j)) /\
  estimates_enclose hbr 2 A b /\ estimates_enclose hbr 2 A (negated b) /\ inverses_enclose inverse 2 A /\ solutions_exact solve 2 /\
  united 2 2 A b x /\ forall tol hang (maxiter : nat), exists X, pps hbr inverse solve det hang 2 A b tol (Z.of_nat maxiter) 0 = POk X /\ ~ inI X (x 0%nat).
Proof. exact pps_block_triangular. Qed.
Print Assumptions C65_block_triangular_refuted.
