(** What it means that one array lies in another, entry by entry. *)
From Coq Require Import ZArith Reals List.
From Verif Require Import Base PyNum Kernel Spec Expr SpecIso Arrays SpecArray.
Import ListNotations.

(** Two equal finite numbers (ints up to 2^26), or two proper finite intervals,
    the first inside the second. *)
Definition nested_operand (o o2 : operand) : Prop :=
  match o, o2 with
  | OItv X, OItv X2 => plain X /\ plain X2 /\ inside X X2
  | ONum c, ONum c2 => c = c2 /\ small_num c /\ finite_num c
  | _, _ => False
  end.
Definition nested_arr (x x2 : arr operand) : Prop := ashape x = ashape x2 /\ Forall2 nested_operand (adata x) (adata x2).
(** No entry overflowed. *)
Definition finite_operand (o : operand) : Prop := match o with OItv X => finite_itv X | ONum _ => True end.
Definition finite_entries (x : arr operand) : Prop := Forall finite_operand (adata x).
