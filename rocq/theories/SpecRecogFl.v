(** Vocabulary for statements about Tol and Uni in floating point. *)
From Coq Require Import ZArith Reals List.
From Flocq Require Import Core IEEE754.BinarySingleNaN.
From Verif Require Import Base PyNum Kernel Spec Expr Arrays Construct SpecArray.
Import ListNotations.
Open Scope R_scope.

(** An interval system of [r] equations in [n] unknowns and a point: a matrix
    of non-empty or NaN classical intervals, a right-hand side of bounded
    intervals, a vector of finite numbers (doubles or small ints). *)
Definition system (r n : nat) (A b : aitv) (x : arr pynum) : Prop :=
  (0 < n)%nat /\
  consistent A /\ shp A = [r; n] /\ Forall good (adata (adat A)) /\
  consistent b /\ shp b = [r] /\ Forall (fun e => small_itv e /\ proper_fin e) (adata (adat b)) /\
  awf x /\ ashape x = [n] /\ Forall (fun v => small_num v /\ finite_num v) (adata x).
(** [r] finite weights, at least [w0]. *)
Definition weights_from (w0 : R) (r : nat) (w : arr pynum) : Prop :=
  awf w /\ ashape w = [r] /\ Forall (fun v => small_num v /\ finite_num v /\ w0 <= num_val v) (adata w).

(** The real matrix [P] lies in the interval matrix. *)
Definition in_matrix (A : aitv) (P : nat -> nat -> R) : Prop :=
  forall i k e, aget (adat A) [i; k] = Some e -> member e (P i k).
(** Component [i] of [P x]. *)
Definition row_value (n : nat) (P : nat -> nat -> R) (x : arr pynum) (i : nat) : R :=
  Rsum n (fun k => P i k * match aget x [k] with Some v => num_val v | None => 0 end).
(** [P x] lies in [b], in [b] with every end moved outwards by [d i] (inwards
    for a negative number). *)
Definition in_rhs (b : aitv) (y : nat -> R) : Prop :=
  forall i e, aget (adat b) [i] = Some e -> member e (y i).
Definition in_rhs_moved (b : aitv) (d : itv -> R) (y : nat -> R) : Prop :=
  forall i e, aget (adat b) [i] = Some e -> num_val (lo e) - d e <= y i <= num_val (hi e) + d e.

(** [X.mid] and [X.rad] return (in rounding mode [m]) these finite numbers. *)
Definition mid_rad (m : rmode) (X : itv) (c r : R) : Prop :=
  exists vc vr, returns (mid X) m vc /\ returns (rad X) m vr /\ finite_num vc /\ finite_num vr /\
    num_val vc = c /\ num_val vr = r.
(** No rounding error in the midpoint and radius of the right-hand side. *)
Definition exact_mid_rad (m : rmode) (X : itv) : Prop :=
  mid_rad m X ((num_val (lo X) + num_val (hi X)) / 2) ((num_val (hi X) - num_val (lo X)) / 2).

(** The largest absolute value of a member. *)
Definition magnitude (X : itv) : R := Rmax (Rabs (num_val (lo X))) (Rabs (num_val (hi X))).
(** Two units of rounding error of the largest member, and a little more for
    underflow. *)
Definition rounding_margin (X : itv) : R := bpow radix2 (-52) * magnitude X + bpow radix2 (-1073).
(** So far from the largest double that midpoint and radius do not overflow. *)
Definition bounded_entry (X : itv) : Prop := magnitude X <= bpow radix2 1022.
(** An interval with int endpoints. *)
Definition int_entry (X : itv) : Prop := exists a b, lo X = PInt a /\ hi X = PInt b.
