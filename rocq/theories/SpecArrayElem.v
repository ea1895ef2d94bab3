(** The real functions behind the elementary functions, where they are defined,
    and the intervals for which C25, C26, C57 and C58 establish an enclosure. *)
From Coq Require Import Reals.
From Flocq Require Import Core.
From Verif Require Import Base PyNum Kernel Spec SpecElem ArrayElem.
Open Scope R_scope.

Definition real_fun (f : elementary) : R -> R :=
  match f with FSqrt => sqrt | FExp => exp | FLog => ln | FSin => sin | FCos => cos | FOther => fun x => x end.
Definition defined_at (f : elementary) (x : R) : Prop :=
  match f with FSqrt => 0 <= x | FLog => 0 < x | _ => True end.
(** What is asked of the C library. *)
Definition library_ok (L : libm) (f : elementary) : Prop :=
  match f with
  | FSqrt => exp_faithful L /\ log_directed L /\ log_faithful L
  | FExp => exp_faithful L | FLog => log_directed L | FSin => sin_faithful L | FCos => cos_faithful L | FOther => False
  end.
Definition entry_ok (f : elementary) (X : itv) : Prop :=
  match f with
  | FSqrt => small_itv X /\ kd X = Classical /\ finite_num (hi X) /\ (exists x, member X x /\ 0 < x)
  | FExp => small_itv X /\ finite_num (hi X) /\ exp (num_val (hi X)) <= max_double /\ (exists x, member X x)
  | FLog => small_itv X /\ (exists x, member X x /\ 0 < x)
  | FSin | FCos => small_itv X /\ proper_fin X /\ Rabs (num_val (lo X)) <= 1048576 /\ Rabs (num_val (hi X)) <= 1048576
  | FOther => False
  end.
