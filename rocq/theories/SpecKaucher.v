(** What C85-C88 say: rounding of a single real, and the exact operations on
    generalized (proper or improper) intervals. *)
From Coq Require Import ZArith Reals List Bool.
From Flocq Require Import Core IEEE754.BinarySingleNaN.
From Verif Require Import Base PyNum Kernel Spec.
Open Scope R_scope.

(** [x] is the greatest double (or -oo) not above [v]; the least (or +oo) not below. *)
Definition rounded_down (v : R) (x : pynum) : Prop := greatest_lower_double (fun r => r = v) x.
Definition rounded_up (v : R) (x : pynum) : Prop := least_upper_double (fun r => r = v) x.
(** The neighbouring double on the side of zero, and on the other side. *)
Definition toward_zero (v : R) (x : pynum) : Prop := (0 <= v -> rounded_down v x) /\ (v <= 0 -> rounded_up v x).
Definition away_from_zero (v : R) (x : pynum) : Prop := (0 <= v -> rounded_up v x) /\ (v <= 0 -> rounded_down v x).

(** [l] and [u] are the ends of the exact Kaucher product of [a, b] and [c, d]. *)
Definition kaucher_ends (a b c d l u : R) : Prop := kaucher_lo a b c d l /\ kaucher_hi a b c d u.

(** The reciprocals of the ends are ordinary doubles and have the same sign. *)
Definition divisor (Y : itv) : Prop :=
  (min_normal <= num_val (lo Y) /\ min_normal <= num_val (hi Y)) \/ (num_val (lo Y) <= - min_normal /\ num_val (hi Y) <= - min_normal).

(** The double [x] is next to the real [v], up to at most one double strictly between them. *)
Definition close (v : R) (x : pynum) : Prop :=
  finite_num x /\
  ~ exists g h : flt, is_finite g = true /\ is_finite h = true /\
      ((num_val x < B2R g /\ B2R g < B2R h /\ B2R h < v) \/ (v < B2R h /\ B2R h < B2R g /\ B2R g < num_val x)).

(** [v] is the greatest (least) value of [f] between [a] and [b]. *)
Definition greatest_value (f : R -> R) (a b v : R) : Prop := extremum false (fun s => exists x, between a b x /\ s = f x) v.
Definition least_value (f : R -> R) (a b v : R) : Prop := extremum true (fun s => exists x, between a b x /\ s = f x) v.

(** [l] and [u] are the least and the greatest value of [f] on [X], and the ends
    of [Z] are close to them: to [l] and [u] for a proper [X], to [u] and [l]
    for an improper one. *)
Definition trig_ends (f : R -> R) (X Z : itv) (l u : R) : Prop :=
  least_value f (num_val (lo X)) (num_val (hi X)) l /\ greatest_value f (num_val (lo X)) (num_val (hi X)) u /\
  (num_val (lo X) <= num_val (hi X) -> close l (lo Z) /\ close u (hi Z)) /\
  (num_val (hi X) < num_val (lo X) -> close u (lo Z) /\ close l (hi Z)).

(** [Z] has the least and the greatest value of [f] on [X] as ends, in this
    order for a proper and in the other for an improper [X]. *)
Definition range_ends (f : R -> R) (X Z : itv) : Prop := finite_itv Z /\ exists l u,
  least_value f (num_val (lo X)) (num_val (hi X)) l /\ greatest_value f (num_val (lo X)) (num_val (hi X)) u /\
  (num_val (lo X) <= num_val (hi X) -> num_val (lo Z) = l /\ num_val (hi Z) = u) /\
  (num_val (hi X) < num_val (lo X) -> num_val (lo Z) = u /\ num_val (hi Z) = l).
