(** C80: the printed form of an interval.  [reads s r]: the text [s] is a decimal
    literal with value [r]; [nearest_six x r]: no number with at most six
    significant digits is closer to [x] than [r], and if another is as close the last
    digit of [r] is even (SpecRepr.v). *)
From Coq Require Import ZArith Reals Ascii String.
From Flocq Require Import Core IEEE754.BinarySingleNaN.
From Verif Require Import Base PyNum Kernel Spec XReal XArith Repr SpecRepr ReprProofs.
Open Scope R_scope.

(** Both endpoints are shown to six significant digits, correctly rounded. *)
Theorem C80_nearest : forall X, exact_num (lo X) -> exact_num (hi X) -> finite_itv X ->
  exists s t a b, repr X = Ok ("'[" ++ s ++ ", " ++ t ++ "]'")%string /\ reads s a /\ reads t b /\ nearest_six (num_val (lo X)) a /\ nearest_six (num_val (hi X)) b.
Proof. exact repr_finite. Qed.
Print Assumptions C80_nearest.
(** A proper interval is shown as a proper interval. *)
Theorem C80_ordered : forall X, exact_num (lo X) -> exact_num (hi X) -> finite_itv X -> num_val (lo X) <= num_val (hi X) ->
  exists s t a b, repr X = Ok ("'[" ++ s ++ ", " ++ t ++ "]'")%string /\ reads s a /\ reads t b /\ a <= b.
Proof. exact repr_ordered. Qed.
Print Assumptions C80_ordered.
(** What has at most six digits is shown exactly. *)
Theorem C80_exact : forall X, exact_num (lo X) -> exact_num (hi X) -> finite_itv X -> six_digits (num_val (lo X)) -> six_digits (num_val (hi X)) ->
  exists s t, repr X = Ok ("'[" ++ s ++ ", " ++ t ++ "]'")%string /\ reads s (num_val (lo X)) /\ reads t (num_val (hi X)).
Proof. exact repr_exact. Qed.
Print Assumptions C80_exact.
(** The shown interval need not contain the interval, may be shared by different
    intervals, and for a huge int there is none. *)
Theorem C80_outward_refuted : exists X s t a b, proper_fin X /\ repr X = Ok ("'[" ++ s ++ ", " ++ t ++ "]'")%string /\ reads s a /\ reads t b /\ exists r, member X r /\ ~ a <= r <= b.
Proof. exact repr_not_outward. Qed.
Print Assumptions C80_outward_refuted.
Theorem C80_injective_refuted : exists X Y, proper_fin X /\ proper_fin Y /\ num_val (hi X) <> num_val (hi Y) /\ repr X = repr Y.
Proof. exact repr_not_injective. Qed.
Print Assumptions C80_injective_refuted.
Theorem C80_always_prints_refuted : exists X, kd X = Classical /\ num_val (lo X) <= num_val (hi X) /\ repr X = Err OverflowError.
Proof. exact repr_overflow. Qed.
Print Assumptions C80_always_prints_refuted.
(** Infinite and undefined endpoints. *)
Theorem C80_special : forall k x y s t,
  fmt_num x = Ok s -> fmt_num y = Ok t ->
  repr (mkitv k x (PFlt finf)) = Ok ("'[" ++ s ++ ", inf]'")%string /\
  repr (mkitv k (PFlt fninf) y) = Ok ("'[-inf, " ++ t ++ "]'")%string /\
  repr (mkitv k (PFlt fnan) (PFlt fnan)) = Ok "'[nan, nan]'"%string.
Proof. exact repr_special. Qed.
Print Assumptions C80_special.
Example C80_case : exact_num (PInt 3) /\ exact_num (PFlt third) /\ finite_num (PFlt third) /\
  repr (mkitv Classical (PFlt third) (PInt 3)) = Ok "'[0.333333, 3]'"%string /\
  repr (mkitv Classical (PFlt (fl (-1234567) 0)) (PFlt (fl 1 (-1074)))) = Ok "'[-1.23457e+06, 4.94066e-324]'"%string /\
  repr (mkitv Kaucher (PFlt (fl 999999 0)) (PFlt (fl 9999995 (-1)))) = Ok "'[999999, 5e+06]'"%string /\
  repr (mkitv Classical (PFlt (fdiv mode_NE (fl 1 0) (fl 10000 0))) (PFlt finf)) = Ok "'[0.0001, inf]'"%string.
Proof. repeat split; vm_compute; reflexivity || (intro; discriminate). Qed.
