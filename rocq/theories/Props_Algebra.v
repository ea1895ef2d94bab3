(** C92: which laws of arithmetic the rounded interval operations keep.  [plain X]
    is a proper interval whose ends are finite doubles or ints up to 2^26;
    [py_eq A (OItv B)] is [A == B]; nothing is assumed about overflow unless said. *)
From Coq Require Import ZArith Reals List Bool Lia Lra.
From Flocq Require Import Core IEEE754.BinarySingleNaN.
From Verif Require Import Base PyNum Kernel Spec SpecIso XReal Expr AlgebraProofs.
Import ListNotations.
Open Scope R_scope.

(** X + Y == Y + X and X * Y == Y * X. *)
Theorem C92_commutative : forall o X Y m, (o = OpAdd \/ o = OpMul) -> plain X -> plain Y ->
  exists Z Z2, returns (py_op o (OItv X) (OItv Y)) m Z /\ returns (py_op o (OItv Y) (OItv X)) m Z2 /\ py_eq Z (OItv Z2) = true.
Proof. exact commutes. Qed.
Print Assumptions C92_commutative.

(** X - Y == -(Y - X). *)
Theorem C92_minus_swapped : forall X Y m, plain X -> plain Y ->
  exists Z Z2, returns (py_sub (OItv X) (OItv Y)) m Z /\ returns (py_sub (OItv Y) (OItv X)) m Z2 /\ py_eq Z (OItv (neg Z2)) = true.
Proof. exact minus_swapped. Qed.
Print Assumptions C92_minus_swapped.

(** X - Y == X + (-Y). *)
Theorem C92_minus_is_plus_negated : forall X Y m, plain X -> plain Y ->
  exists Z Z2, returns (py_sub (OItv X) (OItv Y)) m Z /\ returns (py_add (OItv X) (OItv (neg Y))) m Z2 /\ py_eq Z (OItv Z2) = true.
Proof. exact minus_plus. Qed.
Print Assumptions C92_minus_is_plus_negated.

(** (-X) * Y == -(X * Y) == X * (-Y), and the same for division by an interval without 0. *)
Theorem C92_sign_of_left : forall o X Y m, (o = OpMul \/ o = OpDiv) -> plain X -> plain Y -> (o = OpDiv -> ~ member Y 0) ->
  exists Z Z2, returns (py_op o (OItv X) (OItv Y)) m Z /\ returns (py_op o (OItv (neg X)) (OItv Y)) m Z2 /\ py_eq Z2 (OItv (neg Z)) = true.
Proof. exact sign_left. Qed.
Print Assumptions C92_sign_of_left.
Theorem C92_sign_of_right : forall o X Y m, (o = OpMul \/ o = OpDiv) -> plain X -> plain Y -> (o = OpDiv -> ~ member Y 0) ->
  exists Z Z2, returns (py_op o (OItv X) (OItv Y)) m Z /\ returns (py_op o (OItv X) (OItv (neg Y))) m Z2 /\ py_eq Z2 (OItv (neg Z)) = true.
Proof. exact sign_right. Qed.
Print Assumptions C92_sign_of_right.

(** A number on either side of +, - and * acts as the interval [c, c]. *)
Theorem C92_number_on_the_right : forall o X c m, o <> OpDiv -> plain X -> small_num c -> finite_num c ->
  exists Z Z2, returns (py_op o (OItv X) (ONum c)) m Z /\ returns (py_op o (OItv X) (OItv (mkitv Classical c c))) m Z2 /\ py_eq Z (OItv Z2) = true.
Proof. exact number_right. Qed.
Print Assumptions C92_number_on_the_right.
Theorem C92_number_on_the_left : forall o X c m, o <> OpDiv -> plain X -> small_num c -> finite_num c ->
  exists Z Z2, returns (py_op o (ONum c) (OItv X)) m Z /\ returns (py_op o (OItv (mkitv Classical c c)) (OItv X)) m Z2 /\ py_eq Z (OItv Z2) = true.
Proof. exact number_left. Qed.
Print Assumptions C92_number_on_the_left.

(** X + 0 == 0 + X == X - 0 == X, 0 - X == -X, X * 0 == 0 * X == 0. *)
Theorem C92_zero : forall X c m, plain X -> small_num c -> finite_num c -> num_val c = 0 ->
  (exists Z, returns (py_add (OItv X) (ONum c)) m Z /\ py_eq Z (OItv X) = true) /\
  (exists Z, returns (py_add (ONum c) (OItv X)) m Z /\ py_eq Z (OItv X) = true) /\
  (exists Z, returns (py_sub (OItv X) (ONum c)) m Z /\ py_eq Z (OItv X) = true) /\
  (exists Z, returns (py_sub (ONum c) (OItv X)) m Z /\ py_eq Z (OItv (neg X)) = true) /\
  (exists Z, returns (py_mul (OItv X) (ONum c)) m Z /\ py_eq Z (ONum c) = true) /\
  (exists Z, returns (py_mul (ONum c) (OItv X)) m Z /\ py_eq Z (ONum c) = true).
Proof. exact neutral_zero. Qed.
Print Assumptions C92_zero.

(** X * 1 == 1 * X == X / [1, 1] == X. *)
Theorem C92_one : forall X c m, plain X -> small_num c -> finite_num c -> num_val c = 1 ->
  (exists Z, returns (py_mul (OItv X) (ONum c)) m Z /\ py_eq Z (OItv X) = true) /\
  (exists Z, returns (py_mul (ONum c) (OItv X)) m Z /\ py_eq Z (OItv X) = true) /\
  (exists Z, returns (py_div (OItv X) (OItv (mkitv Classical c c))) m Z /\ py_eq Z (OItv X) = true).
Proof. exact neutral_one. Qed.
Print Assumptions C92_one.

(** X + X == 2 * X. *)
Theorem C92_twice : forall X c m, plain X -> small_num c -> finite_num c -> num_val c = 2 ->
  exists Z Z2, returns (py_add (OItv X) (OItv X)) m Z /\ returns (py_mul (ONum c) (OItv X)) m Z2 /\ py_eq Z (OItv Z2) = true.
Proof. exact twice. Qed.
Print Assumptions C92_twice.

(** X - X is symmetric around 0, which it contains; it equals 0 exactly for a point. *)
Theorem C92_minus_itself : forall X m, plain X ->
  exists Z, returns (py_sub (OItv X) (OItv X)) m Z /\ member Z 0 /\ py_eq Z (OItv (neg Z)) = true /\
  (py_eq Z (ONum (PInt 0)) = true <-> num_val (lo X) = num_val (hi X)).
Proof. exact minus_self. Qed.
Print Assumptions C92_minus_itself.
(** X / X contains 1, and equals 1 exactly for a point. *)
Theorem C92_over_itself : forall X m, plain X -> ~ member X 0 ->
  exists Z, returns (py_div (OItv X) (OItv X)) m Z /\ member Z 1 /\
  (py_eq Z (ONum (PInt 1)) = true <-> num_val (lo X) = num_val (hi X)).
Proof. exact over_self. Qed.
Print Assumptions C92_over_itself.

(** Undoing an operation gives back an interval that contains the original one. *)
Theorem C92_add_then_subtract : forall X Y m, plain X -> plain Y ->
  exists Z W, returns (py_add (OItv X) (OItv Y)) m Z /\ returns (py_sub (OItv Z) (OItv Y)) m W /\ inside X W.
Proof. exact add_sub. Qed.
Print Assumptions C92_add_then_subtract.
Theorem C92_subtract_then_add : forall X Y m, plain X -> plain Y ->
  exists Z W, returns (py_sub (OItv X) (OItv Y)) m Z /\ returns (py_add (OItv Z) (OItv Y)) m W /\ inside X W.
Proof. exact sub_add. Qed.
Print Assumptions C92_subtract_then_add.
Theorem C92_multiply_then_divide : forall X Y m Z, plain X -> plain Y -> ~ member Y 0 ->
  returns (py_mul (OItv X) (OItv Y)) m Z -> finite_itv Z ->
  exists W, returns (py_div (OItv Z) (OItv Y)) m W /\ inside X W.
Proof. exact mul_div. Qed.
Print Assumptions C92_multiply_then_divide.
Theorem C92_divide_then_multiply : forall X Y m Z, plain X -> plain Y -> ~ member Y 0 ->
  returns (py_div (OItv X) (OItv Y)) m Z -> finite_itv Z ->
  exists W, returns (py_mul (OItv Z) (OItv Y)) m W /\ inside X W.
Proof. exact div_mul. Qed.
Print Assumptions C92_divide_then_multiply.

(** X * (Y + Z) is inside X * Y + X * Z whenever Y + Z is computed without rounding. *)
Theorem C92_subdistributive : forall X Y Z m W, plain X -> plain Y -> plain Z ->
  returns (py_add (OItv Y) (OItv Z)) m W -> finite_itv W ->
  num_val (lo W) = num_val (lo Y) + num_val (lo Z) -> num_val (hi W) = num_val (hi Y) + num_val (hi Z) ->
  exists P Q1 Q2 T, returns (py_mul (OItv X) (OItv W)) m P /\ returns (py_mul (OItv X) (OItv Y)) m Q1 /\
    returns (py_mul (OItv X) (OItv Z)) m Q2 /\ returns (py_add (OItv Q1) (OItv Q2)) m T /\ inside P T.
Proof. exact subdistributive. Qed.
Print Assumptions C92_subdistributive.
(** When that sum is rounded it can stick out of it. *)
Theorem C92_subdistributive_refuted : forall m, exists X Y Z W P Q1 Q2 T, plain X /\ plain Y /\ plain Z /\
  returns (py_add (OItv Y) (OItv Z)) m W /\ finite_itv W /\ returns (py_mul (OItv X) (OItv W)) m P /\
  returns (py_mul (OItv X) (OItv Y)) m Q1 /\ returns (py_mul (OItv X) (OItv Z)) m Q2 /\ returns (py_add (OItv Q1) (OItv Q2)) m T /\ ~ inside P T.
Proof. exact subdistrib_refuted. Qed.
Print Assumptions C92_subdistributive_refuted.
(** Distributivity fails even where every sum is exact. *)
Theorem C92_distributive_refuted : forall m, exists X Y Z W P Q1 Q2 T, plain X /\ plain Y /\ plain Z /\
  returns (py_add (OItv Y) (OItv Z)) m W /\ num_val (lo W) = num_val (lo Y) + num_val (lo Z) /\ num_val (hi W) = num_val (hi Y) + num_val (hi Z) /\
  returns (py_mul (OItv X) (OItv W)) m P /\
  returns (py_mul (OItv X) (OItv Y)) m Q1 /\ returns (py_mul (OItv X) (OItv Z)) m Q2 /\ returns (py_add (OItv Q1) (OItv Q2)) m T /\ py_eq P (OItv T) = false.
Proof. exact distrib_refuted. Qed.
Print Assumptions C92_distributive_refuted.
(** (X + Y) + Z == X + (Y + Z) fails. *)
Theorem C92_associative_refuted : forall m, exists X Y Z U V P Q, plain X /\ plain Y /\ plain Z /\
  returns (py_add (OItv X) (OItv Y)) m U /\ returns (py_add (OItv U) (OItv Z)) m P /\
  returns (py_add (OItv Y) (OItv Z)) m V /\ returns (py_add (OItv X) (OItv V)) m Q /\ py_eq P (OItv Q) = false.
Proof. exact assoc_refuted. Qed.
Print Assumptions C92_associative_refuted.

(** A case: X = [-1.5, 2], Y = [1, 3], Z = [0.25, 0.5] meet the hypotheses, Y + Z is exact and X * Y is finite. *)
Example C92_case : exists W, let X := mkitv Classical (PFlt (fl (-3) (-1))) (PInt 2) in let Y := mkitv Classical (PInt 1) (PInt 3) in
  let Z := mkitv Classical (PFlt (fl 1 (-2))) (PFlt (fl 1 (-1))) in
  plain X /\ plain Y /\ plain Z /\ ~ member Y 0 /\ returns (py_add (OItv Y) (OItv Z)) mode_NE W /\ finite_itv W /\
  num_val (lo W) = num_val (lo Y) + num_val (lo Z) /\ num_val (hi W) = num_val (hi Y) + num_val (hi Z).
Proof. exact algebra_case. Qed.
