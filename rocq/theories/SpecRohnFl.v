(** Vocabulary for Neumaier on doubles. *)
From Coq Require Import ZArith Reals List Bool Arith.
From Verif Require Import Base PyNum Kernel Spec Expr Arrays Construct SpecArray.
Import ListNotations.
Open Scope R_scope.

(** [x] is a tolerable point of an [n] by [n] system: whatever the coefficients in [A],
    every equation has its value in [b]. *)
Definition tolerates (n : nat) (A b : aitv) (x : nat -> R) : Prop :=
  forall P : nat -> nat -> R,
    (forall i k, (i < n)%nat -> (k < n)%nat -> exists a, aget (adat A) [i; k] = Some a /\ member a (P i k)) ->
    forall i, (i < n)%nat -> exists c, aget (adat b) [i] = Some c /\ member c (Rsum n (fun k => P i k * x k)).
