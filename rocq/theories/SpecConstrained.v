(** Vocabulary for maximization under linear constraints. *)
From Coq Require Import Reals List Arith.
From Verif Require Import Exact Recog SpecExact.
Import ListNotations.
Open Scope R_scope.

(** [lb <= C x <= ub] for every row with a non-zero entry and every finite bound. *)
Definition satisfies (r n : nat) (C : mat) (lb ub : option (nat -> bound)) (x : vec) : Prop :=
  forall k, (k < r)%nat -> (exists j, (j < n)%nat /\ C k j <> 0) ->
    (forall f v, lb = Some f -> f k = BFin v -> v <= times n C x k) /\
    (forall f v, ub = Some f -> f k = BFin v -> times n C x k <= v).
(** By how much [x] violates the constraints, summed over the bounds. *)
Definition excess (v : R) : R := Rmax 0 v.
Definition violation (n : nat) (rows : list (vec * R)) (x : vec) : R :=
  fold_right Rplus 0 (map (fun row => excess (dot n (fst row) x - snd row)) rows).
(** Every row has a variable that occurs in no other row. *)
Definition own_variables (n : nat) (rows : list (vec * R)) : Prop :=
  forall i row, nth_error rows i = Some row -> exists j, (j < n)%nat /\ fst row j <> 0 /\
    forall i' row', nth_error rows i' = Some row' -> i' <> i -> fst row' j = 0.
(** Weights between 0 and 1. *)
Definition at_most_one (m : nat) (w : vec) : Prop := forall i, (i < m)%nat -> 0 <= w i <= 1.
