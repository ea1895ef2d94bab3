(** Vocabulary for the objectives of ISPAE in binary64. *)
From Coq Require Import ZArith Reals List.
From Flocq Require Import Core IEEE754.BinarySingleNaN.
From Verif Require Import Base PyNum Kernel Spec SpecRecogFl IspaeFl SpecIspaeFl IspaeFlObj.
Import ListNotations.
Open Scope R_scope.

(** The errors of the value of a row (C98): from outside and from inside. *)
Definition outer_error (M delta : R) (beta : list flt) (cols : list (nat * (flt * flt))) : R := over_row (fun b => delta + rounding M b) beta cols.
Definition inner_error (M : R) (beta : list flt) (cols : list (nat * (flt * flt))) : R :=
  over_row (rounding M) beta cols + INR (length cols) * bpow radix2 (-50) * over_row (fun b => bulk M (0 :: reals b)) beta cols.
(** An observation in the range of the analysis, with a weight of at least 1. *)
Definition usable (M delta : R) (roots : list flt -> list flt) (beta : list flt) (r : observation) : Prop :=
  let '((cols, y), w) := r in
  tame_row M delta roots beta cols /\ cols <> [] /\ (Z.of_nat (length cols) <= 2 ^ 40)%Z /\
  small_itv y /\ proper_fin y /\ bounded_entry y /\ is_finite w = true /\ 1 <= B2R w.
(** All values of the model over the row lie in the target widened by [e]. *)
Definition all_in (beta : list flt) (cols : list (nat * (flt * flt))) (y : itv) (e : R) : Prop :=
  forall xs, in_row cols xs -> num_val (lo y) - e <= model beta cols xs <= num_val (hi y) + e.
(** Some value of the model over the row leaves the target shrunk by [e]. *)
Definition some_out (beta : list flt) (cols : list (nat * (flt * flt))) (y : itv) (e : R) : Prop :=
  exists xs, in_row cols xs /\ (model beta cols xs < num_val (lo y) + e \/ num_val (hi y) - e < model beta cols xs).
(** No value of the model over the row lies in the target shrunk by [e]. *)
Definition none_in (beta : list flt) (cols : list (nat * (flt * flt))) (y : itv) (e : R) : Prop :=
  forall xs, in_row cols xs -> model beta cols xs < num_val (lo y) + e \/ num_val (hi y) - e < model beta cols xs.
(** Some value of the model over the row lies in the target widened by [e]. *)
Definition some_in (beta : list flt) (cols : list (nat * (flt * flt))) (y : itv) (e : R) : Prop :=
  exists xs, in_row cols xs /\ num_val (lo y) - e <= model beta cols xs <= num_val (hi y) + e.
