(** Independent vocabulary for the theorem statements: what it means for a
    real number to be bounded by a Python number, to belong to an interval,
    and so on.  Nothing here refers to how the code computes. *)
From Coq Require Import ZArith Reals List Bool.
From Flocq Require Import Core IEEE754.BinarySingleNaN.
From Verif Require Import Base PyNum Kernel.
Open Scope R_scope.

(** [f <= r] for a double [f] and a real [r]; false for NaN. *)
Definition flt_le_R (f : flt) (r : R) : Prop :=
  match f with
  | B754_nan => False
  | B754_infinity s => s = true
  | _ => B2R f <= r
  end.
(** [r <= f]. *)
Definition R_le_flt (r : R) (f : flt) : Prop :=
  match f with
  | B754_nan => False
  | B754_infinity s => s = false
  | _ => r <= B2R f
  end.

(** The same for Python numbers; ints have their exact value. *)
Definition num_le_R (x : pynum) (r : R) : Prop :=
  match x with PInt z => IZR z <= r | PFlt f => flt_le_R f r end.
Definition R_le_num (r : R) (x : pynum) : Prop :=
  match x with PInt z => r <= IZR z | PFlt f => R_le_flt r f end.

(** [r] is a member of the interval: lower <= r <= upper.  No real is a member
    of an interval with a NaN endpoint or with lower > upper. *)
Definition member (X : itv) (r : R) : Prop := num_le_R (lo X) r /\ R_le_num r (hi X).

(** Both endpoints are NaN: the value the library uses for "undefined". *)
Definition nan_itv (X : itv) : Prop := is_nan_num (lo X) = true /\ is_nan_num (hi X) = true.

(** Membership unless the interval is the NaN interval. *)
Definition member_or_nan (X : itv) (r : R) : Prop := nan_itv X \/ member X r.

(** Endpoints that are doubles (any, including infinities and NaN) or ints of
    magnitude at most 2^26. *)
Definition small_num (x : pynum) : Prop :=
  match x with PInt z => (Z.abs z <= 2 ^ 26)%Z | PFlt _ => True end.
Definition small_itv (X : itv) : Prop := small_num (lo X) /\ small_num (hi X).

(** Finite endpoints. *)
Definition finite_num (x : pynum) : Prop :=
  match x with PInt _ => True | PFlt f => is_finite f = true end.
Definition finite_itv (X : itv) : Prop := finite_num (lo X) /\ finite_num (hi X).

(** Finite double endpoints. *)
Definition fin_double (x : pynum) : Prop :=
  match x with PInt _ => False | PFlt f => is_finite f = true end.
Definition fin_double_itv (X : itv) : Prop := fin_double (lo X) /\ fin_double (hi X).

(** The real value of a finite Python number (0 on NaN and infinities, which
    the statements exclude with [finite_num]). *)
Definition num_val (x : pynum) : R :=
  match x with PInt z => IZR z | PFlt f => B2R f end.

(** [X] is a (bounded, non-empty) set: finite endpoints in order. *)
Definition proper_fin (X : itv) : Prop := finite_itv X /\ num_val (lo X) <= num_val (hi X).

(** [l] is the greatest double bounding the set [S] from below: it bounds it,
    and every double that bounds it is <= l. *)
Definition greatest_lower_double (S : R -> Prop) (l : pynum) : Prop :=
  (forall r, S r -> num_le_R l r) /\
  (forall g : flt, is_nan g = false -> (forall r, S r -> flt_le_R g r) -> num_le (PFlt g) l = true).
Definition least_upper_double (S : R -> Prop) (u : pynum) : Prop :=
  (forall r, S r -> R_le_num r u) /\
  (forall g : flt, is_nan g = false -> (forall r, S r -> R_le_flt r g) -> num_le u (PFlt g) = true).

(** The set of results of a real operation on members. *)
Definition image2 (op : R -> R -> R) (X Y : itv) (r : R) : Prop :=
  exists x y, member X x /\ member Y y /\ r = op x y.

(** The outcome (value or exception) of running a computation in mode [m]. *)
Definition outcome {A} (c : M A) (m : rmode) : res A := fst (c m).
(** [c], started in mode [m], returns [v] / raises [e]. *)
Definition returns {A} (c : M A) (m : rmode) (v : A) : Prop := outcome c m = Ok v.
Definition raises {A} (c : M A) (m : rmode) (e : exn) : Prop := outcome c m = Err e.

(** A classical interval that denotes a set: double or small-int endpoints, and
    either NaN ("undefined") or containing some real. *)
Definition good (X : itv) : Prop :=
  kd X = Classical /\ small_itv X /\ (nan_itv X \/ exists r, member X r).

(** Same value (so 0 and -0 are the same), or both NaN; same interval. *)
Definition same_num (x y : pynum) : Prop :=
  num_eq x y = true \/ (is_nan_num x = true /\ is_nan_num y = true).
Definition same_itv (X Y : itv) : Prop := kd X = kd Y /\ same_num (lo X) (lo Y) /\ same_num (hi X) (hi Y).

(** Endpoint-wise inclusion of [X] in [Y]. *)
Definition inside (X Y : itv) : Prop := num_le (lo Y) (lo X) = true /\ num_le (hi X) (hi Y) = true.

(** The object's class agrees with its orientation: Classical iff lower <= upper. *)
Definition well_kinded (X : itv) : Prop := kd X = Classical <-> num_le (lo X) (hi X) = true.

(** No endpoint is NaN. *)
Definition no_nan (X : itv) : Prop := is_nan_num (lo X) = false /\ is_nan_num (hi X) = false.

(** The rounding to a double of the sum of the endpoints does not overflow. *)
Definition no_overflow (m : rmode) (r : R) : Prop :=
  Rabs (round radix2 (SpecFloat.fexp 53 1024) (round_mode m) r) < bpow radix2 1024.

(** Integer-valued endpoints of magnitude at most 2^24, as ints or as doubles:
    on these every operation of the kernel is exact. *)
Definition int_num (x : pynum) : Prop := finite_num x /\ exists z, num_val x = IZR z /\ (Z.abs z <= 2 ^ 24)%Z.
Definition int_itv (X : itv) : Prop := int_num (lo X) /\ int_num (hi X).

(** The exact Kaucher product [a,b]*[c,d], as the lattice extension of the real
    product: the lower endpoint takes, over the members of each operand, a
    minimum if that operand is proper (lower <= upper) and a maximum if it is
    improper; the upper endpoint takes the opposite. *)
Definition extremum (is_min : bool) (S : R -> Prop) (v : R) : Prop :=
  S v /\ forall s, S s -> if is_min then v <= s else s <= v.
Definition between (a b x : R) : Prop := Rmin a b <= x <= Rmax a b.
Definition kaucher_end (mx my : bool) (a b c d v : R) : Prop :=
  extremum mx (fun w => exists x, between a b x /\ extremum my (fun t => exists y, between c d y /\ t = x * y) w) v.
Definition kaucher_lo (a b c d : R) : R -> Prop := kaucher_end (Rle_bool a b) (Rle_bool c d) a b c d.
Definition kaucher_hi (a b c d : R) : R -> Prop := kaucher_end (negb (Rle_bool a b)) (negb (Rle_bool c d)) a b c d.
(** The endpoints of [Z] are the exact Kaucher product of [X] and [Y]. *)
Definition kaucher_product (X Y Z : itv) : Prop :=
  finite_itv Z /\
  kaucher_lo (num_val (lo X)) (num_val (hi X)) (num_val (lo Y)) (num_val (hi Y)) (num_val (lo Z)) /\
  kaucher_hi (num_val (lo X)) (num_val (hi X)) (num_val (lo Y)) (num_val (hi Y)) (num_val (hi Z)).

(** Endpoints that are doubles or ints of magnitude at most 2^52. *)
Definition medium_num (x : pynum) : Prop :=
  match x with PInt z => (Z.abs z <= 2 ^ 52)%Z | PFlt _ => True end.
Definition medium_itv (X : itv) : Prop := medium_num (lo X) /\ medium_num (hi X).

(** The reciprocal of the number is a double. *)
Definition exact_reciprocal (c : pynum) : Prop :=
  exists f : flt, is_finite f = true /\ B2R f * num_val c = 1.

(** The smallest positive normal double. *)
Definition min_normal : R := bpow radix2 (-1022).
