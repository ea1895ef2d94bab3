(** Specification vocabulary for the solvers: usable starting intervals and
    what it means for a user-supplied interval function to enclose a real one. *)
From Coq Require Import Reals List.
From Flocq Require Import Core.
From Verif Require Import Base PyNum Kernel Spec.
Open Scope R_scope.

(** Finite proper interval whose endpoints are at most 2^1022 in magnitude, so
    that the sum of two of them does not overflow. *)
Definition modest (X : itv) : Prop :=
  kd X = Classical /\ small_itv X /\ proper_fin X /\ Rabs (num_val (lo X)) <= bpow radix2 1022 /\ Rabs (num_val (hi X)) <= bpow radix2 1022.

(** [F] leaves the rounding mode alone and, on every usable interval inside
    [B], returns (if it returns) an interval containing the values of [f] (or
    the NaN interval). *)
Definition encloses_on (B : itv) (F : itv -> M itv) (f : R -> R) : Prop :=
  (forall X m, snd (F X m) = m) /\
  forall X m Z, good X -> (forall r, member X r -> member B r) -> returns (F X) m Z ->
    good Z /\ forall r, member X r -> member_or_nan Z (f r).

(** [X] is a usable, non-empty part of [B]. *)
Definition part (B X : itv) : Prop := good X /\ (exists r, member X r) /\ forall r, member X r -> member B r.

(** An interval with finite ends of absolute value at most 2^k. *)
Definition sized (k : Z) (X : itv) : Prop :=
  good X /\ finite_itv X /\ Rabs (num_val (lo X)) <= bpow radix2 k /\ Rabs (num_val (hi X)) <= bpow radix2 k.
(** Real points of a box (a list of intervals). *)
Definition in_box (Y : list itv) (xs : list R) : Prop := Forall2 member Y xs.

(** The same for a function of a box: on every box of usable intervals inside
    [B] the interval [F] returns contains the values of [f]. *)
Definition encloses_box (B : list itv) (F : list itv -> M itv) (f : list R -> R) : Prop :=
  (forall Y m, snd (F Y m) = m) /\
  forall Y m Z, Forall modest Y -> (forall xs, in_box Y xs -> in_box B xs) -> returns (F Y) m Z ->
    forall xs, in_box Y xs -> member Z (f xs).
