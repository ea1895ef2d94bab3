(** Termination and accuracy of the parameter partitioning method PPS over exact
    reals: C77. *)
From Coq Require Import Reals ZArith List Bool Arith Lia Lra.
From Verif Require Import Exact SpecExact Estim SpecEstim EstimMat Pps SpecPps HbrCall PpsAcc PpsEnds PpsHbr PpsCase PpsCaseAll PpsAccCase.
Import ListNotations.
Open Scope R_scope.

(** Whatever HBR, Gauss and the real solver answer: the repeated propagation of
    signs takes at most 4 n + 3 passes, so the call ends. *)
Theorem C77_ends : forall hbr inverse solve det hang n A b tol maxiter nu, (nu < n)%nat -> (4 * n + 3 <= hang)%nat ->
  pps hbr inverse solve det hang n A b tol maxiter nu <> PHang.
Proof. exact pps_ends. Qed.
Print Assumptions C77_ends.

(** When the calls it makes return and the matrix is not a matrix of numbers, PPS
    returns an interval. *)
Theorem C77_returns : forall hbr inverse solve det hang n A b tol maxiter nu, (nu < n)%nat -> (4 * n + 3 <= hang)%nat -> proper_mat n n A -> proper_vec n b ->
  (exists i j, (i < n)%nat /\ (j < n)%nat /\ rl (A i j) <> rh (A i j)) -> det (mids A) <> 0 ->
  calls_return hbr inverse solve n A b -> calls_return hbr inverse solve n A (negated b) -> (0 <= maxiter)%Z ->
  exists X, pps hbr inverse solve det hang n A b tol maxiter nu = POk X.
Proof. exact pps_returns. Qed.
Print Assumptions C77_returns.

(** Both ends of the answer are within [tol] of solutions, once the limit on
    iterations is large enough for the number of unknowns. *)
Theorem C77_accurate : forall hbr inverse solve det hang n A b tol maxiter nu X, (nu < n)%nat -> proper_mat n n A -> proper_vec n b ->
  solutions_exact solve n -> exact_on_numbers hbr n A b -> exact_on_numbers hbr n A (negated b) -> 0 <= tol ->
  (2 ^ (n * n + n + 1) <= maxiter)%nat -> pps hbr inverse solve det hang n A b tol (Z.of_nat maxiter) nu = POk X ->
  (exists x, united n n A b x /\ Rabs (x nu - rl X) <= tol) /\ (exists x, united n n A b x /\ Rabs (x nu - rh X) <= tol).
Proof. exact pps_accurate. Qed.
Print Assumptions C77_accurate.

(** The hypothesis on the estimator holds of HBR when the matrix inversions it
    makes are exact: on a matrix of numbers it returns the hull. *)
Theorem C77_hbr_exact_on_numbers : forall inv k Q r v, inverses_exact inv (S k) ->
  (forall i j, (i < S k)%nat -> (j < S k)%nat -> rl (Q i j) = rh (Q i j)) -> (forall i, (i < S k)%nat -> proper (r i)) -> hbr_call inv k Q r = Some v ->
  forall j, (j < S k)%nat -> coordinate_range (united (S k) (S k) Q r) j (v j).
Proof. exact hbr_hull_numbers. Qed.
Print Assumptions C77_hbr_exact_on_numbers.

(** With the hypotheses of C65_encloses as well, the answer is the hull up to [tol]. *)
Theorem C77_hull : forall hbr inverse solve det hang n A b tol maxiter nu X H x1 x2, (nu < n)%nat -> proper_mat n n A -> proper_vec n b ->
  estimates_enclose hbr n A b -> estimates_enclose hbr n A (negated b) -> inverses_enclose inverse n A -> solutions_exact solve n ->
  exact_on_numbers hbr n A b -> exact_on_numbers hbr n A (negated b) ->
  generic_minimum n A b nu x1 -> generic_minimum n A (negated b) nu x2 -> 0 <= tol -> (2 ^ (n * n + n + 1) <= maxiter)%nat ->
  pps hbr inverse solve det hang n A b tol (Z.of_nat maxiter) nu = POk X -> coordinate_range (united n n A b) nu H ->
  rl H - tol <= rl X <= rl H /\ rh H <= rh X <= rh H + tol.
Proof. exact pps_hull. Qed.
Print Assumptions C77_hull.

(** All these hypotheses hold of a 2 x 2 system and the default limit of 2000
    iterations; the call returns the hull [18/23, 43/23] up to [tol]. *)
Example C77_case : forall tol, 0 <= tol -> exists X, pps ct_hbr ca_inv cs_solve (fun _ => 1) 11 2 cs_A cs_b tol 2000 0 = POk X /\
  18 / 23 - tol <= rl X <= 18 / 23 /\ 43 / 23 <= rh X <= 43 / 23 + tol.
Proof.
  intros tol Ht. destruct ct_proper as [PA Pb].
  destruct (C77_returns ct_hbr ca_inv cs_solve (fun _ => 1) 11 2 cs_A cs_b tol 2000 0) as (X & E); auto; try lia; try lra.
  { exists 0%nat, 0%nat. split; [lia|]. split; [lia|]. cbn [cs_A Nat.eqb rl rh]. lra. }
  { apply ct_calls. } { apply ct_calls. }
  exists X. split; [exact E|]. change 2000%Z with (Z.of_nat 2000) in E.
  assert (L : (2 ^ (2 * 2 + 2 + 1) <= 2000)%nat) by (apply Nat.leb_le; reflexivity).
  exact (C77_hull ct_hbr ca_inv cs_solve (fun _ => 1) 11 2 cs_A cs_b tol 2000 0 X (mkr (18 / 23) (43 / 23)) _ _ ltac:(lia) PA Pb (ct_est _ cs_est1) (ct_est _ cs_est2)
    ca_inverses cs_solutions (ct_exact _) (ct_exact _) cs_min cs_max Ht L E ct_hull).
Qed.
