(** Vocabulary for formal (algebraic) solutions of interval systems. *)
From Coq Require Import Reals List Arith.
From Verif Require Import Exact SpecExact Spec.
Open Scope R_scope.

(** [Z] is the product of [X] and [Y] in Kaucher arithmetic (see Spec.v). *)
Definition kaucher_times (X Y Z : rit) : Prop :=
  kaucher_lo (rl X) (rh X) (rl Y) (rh Y) (rl Z) /\ kaucher_hi (rl X) (rh X) (rl Y) (rh Y) (rh Z).
(** [Z] is component [i] of the product of an interval matrix with [n] columns
    and an interval vector in Kaucher arithmetic. *)
Definition kaucher_row (n : nat) (A : imat) (x : ivec) (i : nat) (Z : rit) : Prop :=
  exists T : ivec, (forall j, (j < n)%nat -> kaucher_times (A i j) (x j) (T j)) /\
    rl Z = total n (fun j => rl (T j)) /\ rh Z = total n (fun j => rh (T j)).
(** Substituting [x] turns the equations into true equalities. *)
Definition formal_solution (n : nat) (A : imat) (b x : ivec) : Prop := forall i, (i < n)%nat -> kaucher_row n A x i (b i).
(** numpy.linalg.solve: an answer solves the system, and the matrix is then
    not singular. *)
Definition solver_ok (solve : nat -> mat -> vec -> option vec) : Prop := forall N F v y, solve N F v = Some y ->
  solves N N F v y /\ forall z, solves N N F (fun _ => 0) z -> forall i, (i < N)%nat -> z i = 0.
(** By how much the equations fail for [x]: the sum over the rows of the larger
    difference of endpoints between the Kaucher product and [b]. *)
Definition misfit (n : nat) (A : imat) (b x : ivec) (r : R) : Prop :=
  exists Z : ivec, (forall i, (i < n)%nat -> kaucher_row n A x i (Z i)) /\
    r = total n (fun i => Rmax (Rabs (rl (Z i) - rl (b i))) (Rabs (rh (Z i) - rh (b i)))).
(** The vector of 2n endpoints [v] (lower ones first) as intervals, its norm, and
    what the misfit is divided by. *)
Definition as_box (n : nat) (v : vec) : ivec := fun j => mkr (v j) (v (n + j)%nat).
Definition norm1 (n : nat) (v : vec) : R := total (2 * n) (fun j => Rabs (v j)).
Definition divisor (nmv : R) (s : R) : R := if Rle_dec s nmv then 1 else s.
(** One step of Newton's method with relaxation [tau]: F is a matrix that
    reproduces the product at [x], and F d = F x - b. *)
Definition newton (n : nat) (A : imat) (b : ivec) (tau : R) (x y : vec) : Prop :=
  exists (F : mat) (d : vec),
    (forall i, (i < n)%nat -> kaucher_row n A (as_box n x) i (mkr (times (2 * n) F x i) (times (2 * n) F x (n + i)%nat))) /\
    (forall i, (i < n)%nat -> times (2 * n) F d i = times (2 * n) F x i - rl (b i) /\ times (2 * n) F d (n + i)%nat = times (2 * n) F x (n + i)%nat - rh (b i)) /\
    (forall j, (j < 2 * n)%nat -> y j = x j - tau * d j).
(** [xs 0 ... xs k] are the iterates of a run of at most [limit] steps: every test
    but the last failed, and the last one held unless the limit was reached. *)
Definition newton_run (n : nat) (A : imat) (b : ivec) (tol tau nmv : R) (limit k : nat) (xs : nat -> vec) : Prop :=
  (k <= limit)%nat /\ (forall i, (i < k)%nat -> newton n A b tau (xs i) (xs (S i))) /\
  (forall i, (S i < k)%nat -> exists r, misfit n A b (as_box n (xs i)) r /\ tol < r / divisor nmv (norm1 n (xs (S i)))) /\
  ((k < limit)%nat -> exists i r, k = S i /\ misfit n A b (as_box n (xs i)) r /\ r / divisor nmv (norm1 n (xs k)) <= tol).
(** The real matrix of the midpoints. *)
Definition centre (A : imat) : imat := fun i j => mkr ((rl (A i j) + rh (A i j)) / 2) ((rl (A i j) + rh (A i j)) / 2).
