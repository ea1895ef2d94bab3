(** What the search directions of Tol, Uni and Uss are. *)
From Coq Require Import ZArith Reals Bool List.
From Flocq Require Import Core IEEE754.BinarySingleNaN.
From Verif Require Import Base PyNum Kernel Spec Expr Arrays Exact SpecExact Ralgb5 RecogOpt SpecRecogOpt.
Open Scope R_scope.

(** The least and the greatest value of a row with the elements [l k, u k] times [y]. *)
Definition least_product (n : nat) (l u y : vec) : R := total n (fun k => Rmin (l k * y k) (u k * y k)).
Definition greatest_product (n : nat) (l u y : vec) : R := total n (fun k => Rmax (l k * y k) (u k * y k)).
(** [h] bounds the growth of [f] from [x] from above. *)
Definition supergradient (n : nat) (f : vec -> R) (x h : vec) : Prop := forall y, f y <= f x + dot n h (minus y x).
(** [a] is [r] up to one rounding to nearest. *)
Definition rounded_once (a : flt) (r : R) : Prop := is_finite a = true /\ Rabs (B2R a - r) <= bpow radix2 (-52) * Rabs r + bpow radix2 (-1074).
(** The components of the point [x]. *)
Definition coords (x : list flt) : vec := fun k => B2R (nth k x f0).
(** [s] is a sign of [t]: any number of [-1, 1] if [t] is zero. *)
Definition sign_of (s t : R) : Prop := Rabs s <= 1 /\ s * t = Rabs t.
(** [fg] is what an optimizer of the least of the constituents [con] should be given:
    at [x] the negated least constituent, and the negated direction [grad] of one
    that attains it. *)
Definition given (con : arr pynum -> M (arr pynum)) (grad : nat -> list flt -> M (list flt)) (fg : list flt -> flt * list flt) : Prop :=
  forall x, is_nan (fst (fg x)) = false -> exists T mc d, returns (con (point x)) mode_NE T /\ nth_error (adata T) mc = Some (PFlt (fneg (fst (fg x)))) /\ least T (fneg (fst (fg x))) /\
    returns (grad mc x) mode_NE d /\ snd (fg x) = map fneg d.
(** The point and the value of a run of the optimizer on [fg] that started at [x0]. *)
Definition ran_on (W : vops) (P : params (ops_of W)) (fg : list flt -> flt * list flt) (x0 : list flt) : list flt * flt :=
  let r := fst (ralgb5 (ops_of W) P fg (length x0) x0) in (r_x _ r, fneg (r_f _ r)).
