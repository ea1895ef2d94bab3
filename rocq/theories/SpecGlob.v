(** Specification vocabulary for the convergence of globopt: how wide a box is,
    and where its endpoints lie. *)
From Coq Require Import Reals List.
From Flocq Require Import Core.
From Verif Require Import Base PyNum Kernel Spec SpecSolvers.
Import ListNotations.
Open Scope R_scope.

(** The real width of an interval, and the magnitude of its endpoints. *)
Definition width (e : itv) : R := num_val (hi e) - num_val (lo e).
Definition ends_within (B : R) (e : itv) : Prop := Rabs (num_val (lo e)) <= B /\ Rabs (num_val (hi e)) <= B.
(** [Y] is a part of the box [B], made of finite proper intervals. *)
Definition part_of (B Y : list itv) : Prop := Forall modest Y /\ forall xs, in_box Y xs -> in_box B xs.
(** One of the two endpoints of the first component is a double (numpy then keeps
    all widths as doubles). *)
Definition float_first (Y : list itv) : Prop :=
  match Y with [] => False | e :: _ => (exists f, lo e = PFlt f) \/ (exists f, hi e = PFlt f) end.
