(** Vocabulary for the statements about elementary functions: what is assumed
    of the platform's C library.  Nothing here refers to how the code computes. *)
From Coq Require Import ZArith Reals.
From Flocq Require Import Core IEEE754.BinarySingleNaN.
From Verif Require Import Base PyNum Kernel Spec.
Open Scope R_scope.

(** [r] is one of the two doubles next to the real [v]: the greatest double
    below it or the least double above it ("error less than one ulp"). *)
Definition faithful (r : flt) (v : R) : Prop :=
  is_finite r = true /\
  ((B2R r <= v /\ forall g : flt, is_finite g = true -> B2R g <= v -> B2R g <= B2R r) \/
   (v <= B2R r /\ forall g : flt, is_finite g = true -> v <= B2R g -> B2R r <= B2R g)).

(** The largest finite double. *)
Definition max_double : R := B2R fmaxfloat.

(** The platform [exp] is faithful, in every rounding mode, wherever e^d is in
    the range of doubles, and exp(-inf) = 0. *)
Definition exp_faithful (L : libm) : Prop :=
  (forall m (d : flt), is_finite d = true -> exp (B2R d) <= max_double -> faithful (c_exp L m d) (exp (B2R d))) /\
  (forall m, c_exp L m fninf = f0).

(** The platform [log] honours the rounding direction, and log(+inf) = +inf. *)
Definition log_directed (L : libm) : Prop :=
  (forall d : flt, is_finite d = true -> 0 < B2R d ->
     flt_le_R (c_log L FE_DOWNWARD d) (ln (B2R d)) /\ R_le_flt (ln (B2R d)) (c_log L FE_UPWARD d)) /\
  (forall m, c_log L m finf = finf).

(** The platform [pow] honours the rounding direction for a positive base and
    the exponent [n]. *)
Definition pow_directed (L : libm) (n : nat) : Prop :=
  forall (w d : flt), int_to_double (Z.of_nat n) = Ok w -> is_finite d = true -> 0 < B2R d ->
    (forall r, c_pow L FE_DOWNWARD d w = Ok r -> flt_le_R r (B2R d ^ n)) /\
    (forall r, c_pow L FE_UPWARD d w = Ok r -> R_le_flt (B2R d ^ n) r).

(** The platform [sin] and [cos] are faithful in every rounding mode. *)
Definition sin_faithful (L : libm) : Prop :=
  forall m (d : flt), is_finite d = true -> faithful (c_sin L m d) (sin (B2R d)).
Definition cos_faithful (L : libm) : Prop :=
  forall m (d : flt), is_finite d = true -> faithful (c_cos L m d) (cos (B2R d)).

(** Integer endpoints (Python ints of any size). *)
Definition int_ends (X : itv) : Prop := exists a b, lo X = PInt a /\ hi X = PInt b.
(** All members are >= 0. *)
Definition nonneg_itv (X : itv) : Prop := forall x, member X x -> 0 <= x.

(** The platform [log] is faithful in every rounding mode. *)
Definition log_faithful (L : libm) : Prop :=
  forall m (d : flt), is_finite d = true -> 0 < B2R d -> faithful (c_log L m d) (ln (B2R d)).
