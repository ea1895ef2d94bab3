(** What ive is measured against. *)
From Coq Require Import Reals List Arith.
From Verif Require Import Exact SpecExact.
Open Scope R_scope.

(** A corner matrix of A. *)
Definition corner (m n : nat) (A : imat) (M : mat) : Prop :=
  forall i j, (i < m)%nat -> (j < n)%nat -> M i j = rl (A i j) \/ M i j = rh (A i j).
(** Euclidean length. *)
Definition length2 (n : nat) (x : vec) : R := sqrt (total n (fun j => x j * x j)).
(** sqrt n * (maximum of Tol) * condition number * |x| / |b|. *)
Definition measure (m n : nat) (b : ivec) (x : vec) (t c : R) : R :=
  sqrt (INR n) * t * c * length2 n x / length2 m (fun i => r_mag (b i)).
(** The right-hand side has a nonzero endpoint. *)
Definition nonzero_rhs (m : nat) (b : ivec) : Prop := exists i, (i < m)%nat /\ ~ (rl (b i) = 0 /\ rh (b i) = 0).
(** The matrix of round [r]: upper ends where the random choice says so, lower
    ends elsewhere. *)
Definition sampled (A : imat) (coin : nat -> nat -> nat -> bool) (r : nat) : mat :=
  fun i j => if coin r i j then rh (A i j) else rl (A i j).
