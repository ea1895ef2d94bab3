(** C14 for arrays: replacing every entry by a wider interval never loses
    points of the result, as long as no entry of the result overflows.  The
    result on the narrower operands then exists, has the same shape, and lies
    in the wider one entry by entry. *)
From Coq Require Import ZArith Reals List Bool.
From Flocq Require Import Core IEEE754.BinarySingleNaN.
From Verif Require Import Base PyNum Kernel Spec Expr Arrays SpecArray SpecIso SpecArrIso ArrIso.
Import ListNotations.

(** [x + y], [x - y], [x * y], [x / y] with an array, number or numeric array
    [y], broadcast as numpy does. *)
Theorem C14_array_operators_isotonic : forall o x x2 y y2 m Z2, nested_arr (op_arr x) (op_arr x2) -> nested_arr y y2 ->
  returns (arr_op o x2 y2) m Z2 -> Forall finite_itv (adata (adat Z2)) ->
  exists Z, returns (arr_op o x y) m Z /\ nested_arr (op_arr Z) (op_arr Z2).
Proof. exact arr_op_nested. Qed.
Print Assumptions C14_array_operators_isotonic.
(** [y + x], [y - x], [y * x] with a number or numeric array [y]. *)
Theorem C14_array_reflected_isotonic : forall o x x2 y y2 m Z2, o <> OpDiv -> nested_arr (op_arr x) (op_arr x2) -> nested_arr y y2 ->
  returns (arr_rop o y2 x2) m Z2 -> Forall finite_itv (adata (adat Z2)) ->
  exists Z, returns (arr_rop o y x) m Z /\ nested_arr (op_arr Z) (op_arr Z2).
Proof. exact arr_rop_nested. Qed.
Print Assumptions C14_array_reflected_isotonic.
(** [x @ y], one of the operands all intervals. *)
Theorem C14_matmul_isotonic : forall x x2 y y2 m, nested_arr x x2 -> nested_arr y y2 -> awf x -> awf y ->
  Forall is_itv (adata x) \/ Forall is_itv (adata y) ->
  forall Z2, returns (matmul x2 y2) m Z2 -> finite_entries Z2 ->
  exists Z, returns (matmul x y) m Z /\ nested_arr Z Z2.
Proof. exact matmul_nested. Qed.
Print Assumptions C14_matmul_isotonic.
Example C14_arrays_case : nested_arr (op_arr (iso_A 1)) (op_arr (iso_A 4)) /\ nested_arr (op_arr (iso_v 1)) (op_arr (iso_v 2)) /\ awf (op_arr (iso_A 1)) /\ awf (op_arr (iso_v 1)) /\
  (exists Z2, returns (matmul (op_arr (iso_A 4)) (op_arr (iso_v 2))) mode_NE Z2 /\ finite_entries Z2) /\
  exists Z2, returns (arr_op OpMul (iso_A 4) (op_arr (iso_v 2))) mode_NE Z2 /\ Forall finite_itv (adata (adat Z2)).
Proof. exact iso_arr_case. Qed.
