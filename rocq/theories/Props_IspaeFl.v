(** C98: the values of an ISPAE model (monomials) in double precision. *)
From Coq Require Import ZArith Reals List.
From Flocq Require Import Core IEEE754.BinarySingleNaN.
From Verif Require Import Base PyNum Kernel Spec Expr Witness IspaeFl SpecIspaeFl IspaeFlRange IspaeFlTight IspaeFlCase.
Import ListNotations.
Open Scope R_scope.

(** The value of a column is the range of its polynomial over the interval:
    from outside up to rounding and the error [delta] of the roots found, from
    inside up to rounding. *)
Theorem C98_column : forall M delta beta l u roots m, tame M beta l u -> 0 <= delta -> critical_near (polynomial beta) l u delta roots ->
  exists Z, returns (col_fl roots beta l u) m Z /\ range_within (polynomial beta) l u (delta + rounding M beta) (rounding M beta) Z.
Proof. exact column_within. Qed.
Print Assumptions C98_column.

(** The same for a row and the sum of the polynomials of its columns. *)
Theorem C98_row : forall M delta roots beta cols m, 0 <= delta -> tame_row M delta roots beta cols -> cols <> [] -> (Z.of_nat (length cols) <= 2 ^ 40)%Z ->
  exists Z, returns (value_fl roots beta cols) m (OItv Z) /\
    row_range_within beta cols (over_row (fun b => delta + rounding M b) beta cols)
      (over_row (rounding M) beta cols + INR (length cols) * bpow radix2 (-50) * over_row (fun b => bulk M (0 :: reals b)) beta cols) Z.
Proof. exact row_within. Qed.
Print Assumptions C98_row.

(** The rounding is not outwards: the value need not contain the range, even
    for a point and a polynomial of degree one. *)
Theorem C98_enclosure_refuted : forall m, exists M beta l u Z x, tame M beta l u /\ critical_near (polynomial beta) l u 0 [] /\ returns (col_fl [] beta l u) m Z /\
  B2R l <= x <= B2R u /\ ~ member Z (polynomial beta x).
Proof. exact not_enclosure. Qed.
Print Assumptions C98_enclosure_refuted.

(** x + x^2 over [-1, 1] and a bias 3: the value is [11/4, 5]. *)
Example C98_case : tame_row 1 0 c_roots c_beta c_cols /\ tame 1 [f1; f1] neg1 f1 /\ tame 3 [tenth] three three /\
  exists Z, returns (value_fl c_roots c_beta c_cols) mode_NE (OItv Z) /\ num_eq (lo Z) (PFlt (fl 11 (-2))) = true /\ num_eq (hi Z) (PFlt (fl 5 0)) = true.
Proof. exact (conj case_tame (conj case_first (conj tenth_tame case_value))). Qed.
