(** Vocabulary for HBR in floating point. *)
From Coq Require Import ZArith Reals List Bool Arith.
From Flocq Require Import Core IEEE754.BinarySingleNaN.
From Verif Require Import Base PyNum Kernel Spec Expr Arrays Construct SpecArray.
Import ListNotations.
Open Scope R_scope.

(** [C] is the inverse of the [n] by [n] matrix [P] with a relative error of at
    most [u] in every entry. *)
Definition inverse_within (u : R) (n : nat) (P : arr pynum) (C : arr flt) : Prop :=
  exists X : nat -> nat -> R,
    (forall i j, (i < n)%nat -> (j < n)%nat ->
       Rsum n (fun k => match aget P [i; k] with Some v => num_val v | None => 0 end * X k j) = if (i =? j)%nat then 1 else 0) /\
    (forall i j, (i < n)%nat -> (j < n)%nat -> exists f, aget C [i; j] = Some f /\ is_finite f = true /\ Rabs (B2R f - X i j) <= u * Rabs (X i j)).
(** 2^-53 *)
Definition unit_roundoff : R := / 9007199254740992.
(** Inner products of doubles: every product and every sum rounded, or with
    fused multiply-add. *)
Definition dot_rounded (l : list (flt * flt)) : flt :=
  match l with
  | [] => f0
  | (a, b) :: l' => fold_left (fun s p => fadd mode_NE s (fmul mode_NE (fst p) (snd p))) l' (fmul mode_NE a b)
  end.
Definition dot_fused (l : list (flt * flt)) : flt :=
  fold_left (fun s p => Bfma mode_NE (fst p) (snd p) s) l f0.
(** An array of point intervals with int ends. *)
Definition int_points (s : list nat) (l : list Z) : aitv := array_interval (mkarr s (map (fun z => mkitv Classical (PInt z) (PInt z)) l)).
(** One equation in one unknown. *)
Definition single_mat (a : itv) : aitv := array_interval (mkarr [1%nat; 1%nat] [a]).
Definition single_vec (b : itv) : aitv := array_interval (mkarr [1%nat] [b]).
(** [x] solves a system with coefficients in [A] and right-hand sides in [b]. *)
Definition solution (n : nat) (A b : aitv) (x : nat -> R) : Prop :=
  exists (P : nat -> nat -> R) (q : nat -> R),
    (forall i k, (i < n)%nat -> (k < n)%nat -> exists a, aget (adat A) [i; k] = Some a /\ member a (P i k)) /\
    (forall i, (i < n)%nat -> exists a, aget (adat b) [i] = Some a /\ member a (q i)) /\
    forall i, (i < n)%nat -> Rsum n (fun k => P i k * x k) = q i.
(** An [n] by [n] system of intervals. *)
Definition fl_system (n : nat) (A b : aitv) : Prop :=
  (0 < n)%nat /\ consistent A /\ consistent b /\ shp A = [n; n] /\ shp b = [n] /\ Forall good (adata (adat A)) /\ Forall good (adata (adat b)).
(** Off the diagonal, nothing but zero. *)
Definition diagonal_itv (n : nat) (A : aitv) : Prop :=
  forall i k a r, (i < n)%nat -> (k < n)%nat -> i <> k -> aget (adat A) [i; k] = Some a -> member a r -> r = 0.
Definition diagonal_flt (n : nat) (C : arr flt) : Prop :=
  awf C /\ ashape C = [n; n] /\ Forall (fun f => is_finite f = true) (adata C) /\
  forall i k f, i <> k -> aget C [i; k] = Some f -> B2R f = 0.
