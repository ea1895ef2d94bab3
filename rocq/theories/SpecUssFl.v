(** How far the computed Uss may be off. *)
From Coq Require Import ZArith Reals List.
From Flocq Require Import Core IEEE754.BinarySingleNaN.
From Verif Require Import Base PyNum Kernel Spec Expr Arrays SpecArray SpecRecogFl.
Import ListNotations.
Open Scope R_scope.

Definition lsum (l : list R) : R := fold_right Rplus 0 l.
Definition products (l : list (flt * flt)) : list R := map (fun p => B2R (fst p) * B2R (snd p)) l.
(** The inner product of [n] terms is off by at most [g] times the sum of the
    absolute values of the terms, plus [h]. *)
Definition dot_within (fdot : list (flt * flt) -> flt) (n : nat) (g h : R) : Prop :=
  forall l, length l = n -> Forall (fun p => is_finite (fst p) = true /\ is_finite (snd p) = true) l ->
    lsum (map Rabs (products l)) <= bpow radix2 1000 ->
    is_finite (fdot l) = true /\ Rabs (B2R (fdot l) - lsum (products l)) <= g * lsum (map Rabs (products l)) + h.

(** Finite data, so far from the largest double that nothing overflows. *)
Definition moderate (A b : aitv) (x : arr pynum) : Prop :=
  Forall (fun e => small_itv e /\ proper_fin e /\ magnitude e <= bpow radix2 400) (adata (adat A)) /\
  Forall (fun e => magnitude e <= bpow radix2 400) (adata (adat b)) /\
  Forall (fun v => Rabs (num_val v) <= bpow radix2 400) (adata x).

Definition mag_at (X : aitv) (idx : list nat) : R := match aget (adat X) idx with Some e => magnitude e | None => 0 end.
Definition abs_at (x : arr pynum) (k : nat) : R := match aget x [k] with Some v => Rabs (num_val v) | None => 0 end.
(** The margin of equation [i]. *)
Definition uss_margin (g h : R) (n : nat) (A b : aitv) (x : arr pynum) (i : nat) : R :=
  (3 * g + bpow radix2 (-49)) * (mag_at b [i] + Rsum n (fun k => mag_at A [i; k] * abs_at x k)) +
  3 * h + bpow radix2 (-1070) * (1 + Rsum n (abs_at x)).
(** [y] lies in [b] with the ends of entry [i] moved outwards by [d i]. *)
Definition in_rhs_by (b : aitv) (d : nat -> R) (y : nat -> R) : Prop :=
  forall i e, aget (adat b) [i] = Some e -> num_val (lo e) - d i <= y i <= num_val (hi e) + d i.
