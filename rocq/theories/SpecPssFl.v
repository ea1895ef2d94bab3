(** Vocabulary for statements about PSS on doubles. *)
From Coq Require Import ZArith Reals List Arith.
From Flocq Require Import Core IEEE754.BinarySingleNaN.
From Verif Require Import Base PyNum Kernel Spec SpecIso SpecArray SpecSolvers.
Import ListNotations.
Open Scope R_scope.

(** [x] solves some real system of [m] equations in [n] unknowns inside the
    interval system. *)
Definition fl_solution (m n : nat) (A : nat -> nat -> itv) (b : nat -> itv) (x : nat -> R) : Prop :=
  exists P y, (forall i j, (i < m)%nat -> (j < n)%nat -> member (A i j) (P i j)) /\ (forall i, (i < m)%nat -> member (b i) (y i)) /\
    forall i, (i < m)%nat -> Rsum n (fun j => P i j * x j) = y i.
(** Finite proper intervals; the entries of column [nu] have doubles as ends. *)
Definition fl_system (m n nu : nat) (A : nat -> nat -> itv) (b : nat -> itv) : Prop :=
  (forall i j, (i < m)%nat -> (j < n)%nat -> plain (A i j)) /\ (forall i, (i < m)%nat -> plain (b i)) /\
  forall i, (i < m)%nat -> is_double (lo (A i nu)) /\ is_double (hi (A i nu)).
(** A starting box: ends up to 2^1022, doubles in component [nu]. *)
Definition fl_box (n nu : nat) (V : nat -> itv) : Prop :=
  (forall j, (j < n)%nat -> modest (V j)) /\ is_double (lo (V nu)) /\ is_double (hi (V nu)).
Definition in_fl_box (n : nat) (V : nat -> itv) (x : nat -> R) : Prop := forall j, (j < n)%nat -> member (V j) (x j).
(** The components other than [nu]. *)
Definition remaining (n nu : nat) (x : nat -> R) : list R := map x (seq 0 nu ++ seq (S nu) (n - S nu)).
(** The answers of ExactOmega are lower bounds of [f (x nu)] over the solutions
    [x] in the box. *)
Definition lp_bounds (eo : list itv -> pynum) (f : R -> R) (m n nu : nat) (A : nat -> nat -> itv) (b V : nat -> itv) : Prop :=
  forall Q x, length Q = (n - 1)%nat -> Forall modest Q -> Forall (fun X => ~ member X 0) Q -> in_box Q (remaining n nu x) ->
    fl_solution m n A b x -> in_fl_box n V x -> num_le_R (eo Q) (f (x nu)).
(** The double nearest to a real (in the rounding mode [r]), as long as it does not overflow. *)
Definition to_dbl (r : rmode) (v : R) : R := round radix2 (FLT_exp (-1074) 53) (round_mode r) v.
(** No entry of the column contains 0 or is so small that the product of its ends
    underflows to 0. *)
Definition clear_of_zero (X : itv) : Prop := bpow radix2 (-1074) <= num_val (lo X) * num_val (hi X).
