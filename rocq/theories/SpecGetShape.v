(** The shape numpy gives to nested lists of numbers. *)
From Coq Require Import List Arith.
From Verif Require Import Base GetShape.
Import ListNotations.

(** A number has no dimensions; a list of things of shape [s] has shape
    [length :: s]. *)
Inductive has_shape : list nat -> shaped -> Prop :=
| hs_num : has_shape [] SNum
| hs_list s x l : Forall (has_shape s) (x :: l) -> has_shape (length (x :: l) :: s) (SSeq (x :: l)).
(** Lists of lists of ... of numbers, of any regular or irregular form. *)
Inductive nested_list : shaped -> Prop :=
| nl_num : nested_list SNum
| nl_list l : Forall nested_list l -> nested_list (SSeq l).
(** The lengths met when following first elements down to a number, where on
    every level that starts with a list all elements are lists of the same
    length. *)
Definition list_of (n : nat) (x : shaped) : Prop := exists l, x = SSeq l /\ length l = n.
Inductive leftmost : list nat -> shaped -> Prop :=
| lm_num : leftmost [] SNum
| lm_list x l s : leftmost s x -> (forall n, list_of n x -> Forall (list_of n) l) -> leftmost (length (x :: l) :: s) (SSeq (x :: l)).
