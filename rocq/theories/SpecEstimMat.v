(** Words for systems with a matrix on the right-hand side. *)
From Coq Require Import Reals.
From Verif Require Import Exact SpecExact.
Open Scope R_scope.

(** The interval matrix whose entries are the numbers of [M]; the identity. *)
Definition point_mat (M : mat) : imat := fun i j => mkr (M i j) (M i j).
Definition identity : mat := fun i j => if Nat.eqb i j then 1 else 0.
(** [X], with [p] columns, solves some system of numbers within [A X = b]. *)
Definition united_mat (n p : nat) (A b : imat) (X : mat) : Prop :=
  exists M v, in_imat n n A M /\ in_imat n p b v /\ forall i c, (i < n)%nat -> (c < p)%nat -> total n (fun l => M i l * X l c) = v i c.
(** The weight of direction [j]; without weights all are 1. *)
Definition weight_of (w : option vec) (j : nat) : R := match w with Some w => w j | None => 1 end.
