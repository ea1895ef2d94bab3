(** C99: what a fit of ISPAE (monomials) reports in double precision. *)
From Coq Require Import ZArith Reals List.
From Flocq Require Import Core IEEE754.BinarySingleNaN.
From Verif Require Models.
From Verif Require Import Base PyNum Kernel Spec Expr Witness SpecRecogFl Ralgb5 RecogOpt SpecRecogOpt IspaeFl SpecIspaeFl IspaeFlCase IspaeFlObj SpecIspaeFlObj IspaeFlObjProofs IspaeFlFit IspaeFlUni IspaeFlObjCase IspaeFlPred SpecIspaeFlPred IspaeFlPredProofs IspaeFlPredTight IspaeFlPredCase.
Import ListNotations.
Open Scope R_scope.

(** The value reported is that of the objective at the coefficients reported,
    and not less than at the starting point. *)
Theorem C99_fit : forall roots csum o nm W P grad rows x0 x v, ispae_fit_fl roots csum o nm W P grad rows x0 = (x, v) -> is_nan v = false ->
  returns (ispae_value roots csum o nm x rows) mode_NE v /\ exists v0, returns (ispae_value roots csum o nm x0 rows) mode_NE v0 /\ flt_leb v0 v = true.
Proof. exact fit_reports. Qed.
Print Assumptions C99_fit.

(** Tol (norm inf) is a number ... *)
Theorem C99_tol_computed : forall M delta roots csum beta rows, 0 <= delta -> Forall (usable M delta roots beta) rows -> rows <> [] ->
  exists v, returns (ispae_value roots csum ITol Models.NInf beta rows) mode_NE v /\ is_nan v = false.
Proof. exact tol_computed. Qed.
Print Assumptions C99_tol_computed.

(** ... which, if not negative, says that the values of the model over every row
    lie in the target, up to the errors of the values and of the midpoint and
    the radius of the target; *)
Theorem C99_tol_nonnegative : forall M delta roots csum beta rows v, 0 <= delta -> Forall (usable M delta roots beta) rows ->
  returns (ispae_value roots csum ITol Models.NInf beta rows) mode_NE v -> flt_leb f0 v = true ->
  forall cols y w, In ((cols, y), w) rows -> all_in beta cols y (outer_error M delta beta cols + rounding_margin y).
Proof. exact tol_all. Qed.
Print Assumptions C99_tol_nonnegative.

(** if negative, that over some row some value leaves the target, up to the same. *)
Theorem C99_tol_negative : forall M delta roots csum beta rows v, 0 <= delta -> Forall (usable M delta roots beta) rows ->
  returns (ispae_value roots csum ITol Models.NInf beta rows) mode_NE v -> flt_ltb v f0 = true ->
  exists cols y w, In ((cols, y), w) rows /\ some_out beta cols y (inner_error M beta cols + rounding_margin y).
Proof. exact tol_some. Qed.
Print Assumptions C99_tol_negative.

(** Uni (norm inf), not negative: over every row some value lies in the target, *)
Theorem C99_uni_nonnegative : forall M delta roots csum beta rows v, 0 <= delta -> Forall (usable M delta roots beta) rows ->
  returns (ispae_value roots csum IUni Models.NInf beta rows) mode_NE v -> flt_leb f0 v = true ->
  forall cols y w, In ((cols, y), w) rows -> some_in beta cols y (inner_error M beta cols + 4 * rounding_margin y + bpow radix2 (-536)).
Proof. exact uni_all. Qed.
Print Assumptions C99_uni_nonnegative.

(** negative: over some row none does. *)
Theorem C99_uni_negative : forall M delta roots csum beta rows v, 0 <= delta -> Forall (usable M delta roots beta) rows ->
  returns (ispae_value roots csum IUni Models.NInf beta rows) mode_NE v -> flt_ltb v f0 = true ->
  exists cols y w, In ((cols, y), w) rows /\ none_in beta cols y (outer_error M delta beta cols + rounding_margin y).
Proof. exact uni_some. Qed.
Print Assumptions C99_uni_negative.

(** x + x^2 over [-1, 1] and a bias 3, with the value [11/4, 5], against [2, 6],
    [1, 5], [3, 6] and [6, 9]. *)
Example C99_case : Forall (usable 1 0 c_roots c_beta) [obs 2 6; obs 1 5; obs 3 6; obs 6 9] /\
  (exists v, returns (ispae_value c_roots no_sum ITol Models.NInf c_beta [obs 2 6; obs 1 5]) mode_NE v /\ (flt_leb f0 v, flt_ltb v f0) = (true, false)) /\
  (exists v, returns (ispae_value c_roots no_sum ITol Models.NInf c_beta [obs 2 6; obs 3 6]) mode_NE v /\ (flt_leb f0 v, flt_ltb v f0) = (false, true)) /\
  (exists v, returns (ispae_value c_roots no_sum IUni Models.NInf c_beta [obs 2 6; obs 3 6]) mode_NE v /\ (flt_leb f0 v, flt_ltb v f0) = (true, false)) /\
  (exists v, returns (ispae_value c_roots no_sum IUni Models.NInf c_beta [obs 2 6; obs 6 9]) mode_NE v /\ (flt_leb f0 v, flt_ltb v f0) = (false, true)) /\
  (exists x v, ispae_fit_fl c_roots no_sum ITol Models.NInf flt_vops five_steps slope [obs 2 6; obs 1 5] c_beta = (x, v) /\ is_nan v = false /\ flt_leb f0 v = true).
Proof.
  destruct case_signs as (A & B & C & D). split; [|exact (conj (signs_run _ _ _ A) (conj (signs_run _ _ _ B) (conj (signs_run _ _ _ C) (conj (signs_run _ _ _ D) case_fit))))].
  repeat (constructor; [apply obs_usable; discriminate|]). constructor.
Qed.

(** A prediction contains every value of the model over the row, up to the errors
    of the powers, unless it overflows to NaN.  (It is in general wider than the
    range: the powers of one column are treated as independent.) *)
Theorem C99_predict : forall M delta roots beta cols m, 0 <= delta -> tame_powers M delta roots cols -> length beta = orders cols -> beta <> [] -> Forall (fun f => is_finite f = true) beta ->
  exists Z, returns (predict_fl roots beta cols) m (OItv Z) /\
    forall xs, in_row cols xs -> exists s, member_or_nan Z s /\ Rabs (s - model beta cols xs) <= over_row (power_error M delta 1) beta cols.
Proof. exact predict_contains. Qed.
Print Assumptions C99_predict.

(** It is no wider than that: each end is finite and, up to rounding, the sum of
    the coefficients times powers of points of the row, one point for each power. *)
Theorem C99_predict_ends : forall M delta roots (beta : list flt) cols m, 0 <= delta -> tame_powers M delta roots cols -> length beta = orders cols -> beta <> [] -> Forall (fun f => is_finite f = true) beta ->
  power_size M beta (powers cols) <= bpow radix2 1000 -> INR (length beta) <= bpow radix2 40 ->
  exists Z, returns (predict_fl roots beta cols) m (OItv Z) /\ finite_itv Z /\
    (exists ys, in_row (powers cols) ys /\ Rabs (num_val (lo Z) - power_sum beta (powers cols) ys) <= inner_powers M beta (powers cols) + INR (S (length beta)) * bpow radix2 (-50) * power_size M beta (powers cols)) /\
    (exists ys, in_row (powers cols) ys /\ Rabs (num_val (hi Z) - power_sum beta (powers cols) ys) <= inner_powers M beta (powers cols) + INR (S (length beta)) * bpow radix2 (-50) * power_size M beta (powers cols)).
Proof. exact predict_ends. Qed.
Print Assumptions C99_predict_ends.

(** The prediction for the row above is [2, 5]; its value is [11/4, 5]. *)
Example C99_predict_case : tame_powers 1 0 p_roots c_cols /\ length c_beta = orders c_cols /\ c_beta <> [] /\ Forall (fun f => is_finite f = true) c_beta /\
  power_size 1 c_beta (powers c_cols) <= bpow radix2 1000 /\ INR (length c_beta) <= bpow radix2 40 /\
  exists Z, returns (predict_fl p_roots c_beta c_cols) mode_NE (OItv Z) /\ num_eq (lo Z) (PFlt (fl 2 0)) = true /\ num_eq (hi Z) (PFlt (fl 5 0)) = true.
Proof.
  split; [exact case_powers|]. split; [reflexivity|]. split; [discriminate|]. split; [repeat (constructor; [vm_compute; reflexivity|]); constructor|]. split; [apply case_size|]. split; [apply case_size | exact case_predict].
Qed.
