(** Vocabulary for Neumaier on doubles. *)
From Coq Require Import ZArith Reals List Bool Arith.
From Flocq Require Import Core IEEE754.BinarySingleNaN.
From Verif Require Import Base PyNum Kernel Spec Expr Arrays Construct SpecArray SpecUssFl.
Import ListNotations.
Open Scope R_scope.

(** What [mag] gives for the [n] entries of row [i] of [A]. *)
Definition magnitudes (m : rmode) (A : aitv) (i n : nat) (l : list flt) : Prop :=
  length l = n /\ forall k, (k < n)%nat -> exists a, aget (adat A) [i; k] = Some a /\ returns (mag a) m (nth k l fnan).
(** [e] is the smallest interval with ends among the doubles that contains all
    numbers at a distance of at most [q] from [c]. *)
Definition double_hull (c q : R) (e : itv) : Prop :=
  (forall x, Rabs (x - c) <= q -> member e x) /\
  forall g : flt, is_finite g = true ->
    (B2R g <= c - q -> forall x, member e x -> B2R g <= x) /\
    (c + q <= B2R g -> forall x, member e x -> x <= B2R g).
(** The sum of [n] finite numbers, not too large, is off by at most [g] times the sum of
    their absolute values. *)
Definition sum_within (fsum : list flt -> flt) (n : nat) (g : R) : Prop :=
  forall l, length l = n -> Forall (fun f => is_finite f = true) l -> Rsum n (fun k => Rabs (B2R (nth k l fnan))) <= bpow radix2 1000 ->
    is_finite (fsum l) = true /\ Rabs (B2R (fsum l) - Rsum n (fun k => B2R (nth k l fnan))) <= g * Rsum n (fun k => Rabs (B2R (nth k l fnan))).
(** How far outside the right-hand side of a single equation the products with points of
    the answer can be. *)
Definition single_margin (g : R) (n : nat) (A b : aitv) (y : arr flt) : R :=
  (4 * g + bpow radix2 (-48)) * mag_at b [0%nat] + bpow radix2 (-52) * Rsum n (fun k => mag_at A [0%nat; k] * abs_at (amap PFlt y) k) + bpow radix2 (-1070) * (1 + Rsum n (fun k => mag_at A [0%nat; k])).
(** Adding up from the left. *)
Definition sum_rounded (l : list flt) : flt := fold_left (fadd mode_NE) l f0.
