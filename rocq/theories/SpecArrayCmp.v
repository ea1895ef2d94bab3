(** What a comparison of intervals with finite endpoints means: both endpoints
    compare that way; a number stands for both of its endpoints. *)
From Coq Require Import Reals.
From Verif Require Import PyNum Kernel Spec ArrayCmp.
Open Scope R_scope.

Definition low (o : operand) : R := match o with ONum c => num_val c | OItv e => num_val (lo e) end.
Definition high (o : operand) : R := match o with ONum c => num_val c | OItv e => num_val (hi e) end.
Definition finite_operand (o : operand) : Prop := match o with ONum c => finite_num c | OItv e => finite_itv e end.
Definition both (r : R -> R -> Prop) (e : itv) (o : operand) : Prop := r (num_val (lo e)) (low o) /\ r (num_val (hi e)) (high o).
Definition compares (c : comparison_op) (e : itv) (o : operand) : Prop :=
  match c with
  | CLt => both Rlt e o | CLe => both Rle e o | CGt => both Rgt e o | CGe => both Rge e o
  | CEq => both eq e o | CNe => ~ both eq e o
  end.
