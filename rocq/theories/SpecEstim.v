(** Vocabulary for the linear estimation methods. *)
From Coq Require Import Reals List Arith.
From Verif Require Import Exact SpecExact.
Open Scope R_scope.

(** [y] satisfies the [N] inequalities [G y <= h] in [V] variables. *)
Definition feasible (N V : nat) (G : mat) (h y : vec) : Prop := forall i, (i < N)%nat -> times V G y i <= h i.
(** A truthful answer to "minimize c.y subject to G y <= h": an optimal point,
    or nothing when the problem is infeasible or unbounded. *)
Definition lp_truthful (N V : nat) (c : vec) (G : mat) (h : vec) (answer : option vec) : Prop :=
  match answer with
  | Some x => feasible N V G h x /\ forall y, feasible N V G h y -> dot V c x <= dot V c y
  | None => (forall y, ~ feasible N V G h y) \/ (forall t, exists y, feasible N V G h y /\ dot V c y < t)
  end.
(** [X] is the exact range of the [j]-th coordinate over the set [S]. *)
Definition coordinate_range (S : vec -> Prop) (j : nat) (X : rit) : Prop :=
  (forall x, S x -> inI X (x j)) /\ (exists x, S x /\ x j = rl X) /\ (exists x, S x /\ x j = rh X).
(** [B] is a two-sided inverse of the [n] x [n] matrix [A]. *)
Definition inverse_of (n : nat) (A B : mat) : Prop := forall i j, (i < n)%nat -> (j < n)%nat ->
  total n (fun l => A i l * B l j) = (if Nat.eqb i j then 1 else 0) /\ total n (fun l => B i l * A l j) = (if Nat.eqb i j then 1 else 0).
(** The interval matrix is an H-matrix: some positive vector [p] satisfies
    |a| p_i > sum over j <> i of |a_ij| p_j for all members. *)
Definition h_matrix (n : nat) (A : imat) : Prop := exists p, positive n p /\
  forall M, in_imat n n A M -> forall i, (i < n)%nat -> total n (fun j => if Nat.eqb j i then 0 else Rabs (M i j) * p j) < Rabs (M i i) * p i.
(** A minimizer of c.a over the box [l, u]. *)
Definition box_minimizer (n : nat) (c l u a : vec) : Prop := (forall j, (j < n)%nat -> l j <= a j <= u j) /\
  forall z, (forall j, (j < n)%nat -> l j <= z j <= u j) -> dot n c a <= dot n c z.
(** [t] is the largest weighted distance between a member of [b] and the value
    of a member of [A] at [x], over all rows. *)
Definition worst_deviation (m n : nat) (A : imat) (b : ivec) (w x : vec) (t : R) : Prop :=
  (forall M v, in_imat m n A M -> in_ivec m b v -> forall i, (i < m)%nat -> w i * Rabs (v i - times n M x i) <= t) /\
  exists M v i, in_imat m n A M /\ in_ivec m b v /\ (i < m)%nat /\ w i * Rabs (v i - times n M x i) = t.
