(** Vocabulary for the predictions of ISPAE in binary64. *)
From Coq Require Import ZArith Reals List.
From Flocq Require Import Core IEEE754.BinarySingleNaN.
From Verif Require Import Base PyNum Kernel Spec IspaeFl SpecIspaeFl IspaeFlPred.
Import ListNotations.
Open Scope R_scope.

(** The powers of every column up to its order are in the range of C98. *)
Definition tame_powers (M delta : R) (roots : list flt -> list flt) (cols : list (nat * (flt * flt))) : Prop :=
  forall o l u, In (o, (l, u)) cols -> forall d, (1 <= d <= o)%nat ->
    tame M (monomial d) l u /\ critical_near (fun x => x ^ d) l u delta (roots (monomial d)).
(** The errors of the powers times the coefficients, of degrees [d], [d] + 1, ... *)
Fixpoint power_error (M delta : R) (d : nat) (bs : list flt) : R :=
  match bs with [] => 0 | b :: bs' => Rabs (B2R b) * (delta + rounding M (monomial d)) + power_error M delta (S d) bs' end.
(** The number of coefficients of the model. *)
Fixpoint orders (cols : list (nat * (flt * flt))) : nat := match cols with [] => 0%nat | (o, _) :: cols' => (o + orders cols')%nat end.
(** The powers in the order of the coefficients: degree and interval of each. *)
Definition powers (cols : list (nat * (flt * flt))) : list (nat * (flt * flt)) := flat_map (fun c => map (fun d => (d, snd c)) (seq 1 (fst c))) cols.
(** The sum of the coefficients times the powers of the numbers [ys], one for each power. *)
Fixpoint power_sum (bs : list flt) (ps : list (nat * (flt * flt))) (ys : list R) : R :=
  match bs, ps, ys with b :: bs', (d, _) :: ps', y :: ys' => B2R b * y ^ d + power_sum bs' ps' ys' | _, _, _ => 0 end.
(** The rounding errors of the powers times the coefficients, and the size of these terms. *)
Fixpoint inner_powers (M : R) (bs : list flt) (ps : list (nat * (flt * flt))) : R :=
  match bs, ps with b :: bs', (d, _) :: ps' => Rabs (B2R b) * rounding M (monomial d) + inner_powers M bs' ps' | _, _ => 0 end.
Fixpoint power_size (M : R) (bs : list flt) (ps : list (nat * (flt * flt))) : R :=
  match bs, ps with b :: bs', (d, _) :: ps' => 2 * Rabs (B2R b) * bulk M (0 :: reals (monomial d)) + bpow radix2 (-1000) + power_size M bs' ps' | _, _ => 0 end.
