(** Properties of the unary properties of interval arrays (C90) and of numpy
    functions whose first operand is an interval array (C11). *)
From Coq Require Import ZArith Reals List Bool Arith Lia Lra.
From Flocq Require Import Core IEEE754.BinarySingleNaN.
From Verif Require Import Base PyNum Kernel Spec Expr XReal Arrays Construct SpecArray ArrayUnary NewtonVec ArrayCmp ExprProofs ArrayUnaryProofs Props_Kernel Props_Arrays.
Import ListNotations.
Open Scope R_scope.

(** ** C90 *)
(** dual, pro and opp never raise on arrays with elements; what they do to one
    interval is described by C15. *)
Theorem C90_dual_pro_opp : forall x m, consistent x -> adata (adat x) <> [] ->
  (exists Z, returns (arr_dual x) m Z /\ consistent Z /\ shp Z = shp x /\ forall idx e, aget (adat x) idx = Some e -> aget (adat Z) idx = Some (dual e)) /\
  (exists Z, returns (arr_pro x) m Z /\ consistent Z /\ shp Z = shp x /\ forall idx e, aget (adat x) idx = Some e -> aget (adat Z) idx = Some (pro e)) /\
  (exists Z, returns (arr_opp x) m Z /\ consistent Z /\ shp Z = shp x /\ forall idx e, aget (adat x) idx = Some e -> aget (adat Z) idx = Some (opp e)).
Proof. exact reorient_arrays. Qed.
Print Assumptions C90_dual_pro_opp.

Theorem C90_negation : forall x m, consistent x ->
  exists Z, returns (arr_neg x) m Z /\ consistent Z /\ shp Z = shp x /\ forall idx e, aget (adat x) idx = Some e -> aget (adat Z) idx = Some (neg e).
Proof. exact neg_array. Qed.
Print Assumptions C90_negation.

Theorem C90_absolute_values : forall x m, consistent x -> adata (adat x) <> [] -> Forall small_itv (adata (adat x)) -> Forall proper_fin (adata (adat x)) ->
  exists Z, returns (arr_abs x) m Z /\ consistent Z /\ shp Z = shp x /\
  forall idx e, aget (adat x) idx = Some e -> exists z, aget (adat Z) idx = Some z /\ forall r, member z r <-> exists u, member e u /\ r = Rabs u.
Proof. exact abs_array. Qed.
Print Assumptions C90_absolute_values.

(** inv: the outward rounded reciprocals of the ends, in the same order. *)
Theorem C90_inverses : forall x m, consistent x -> adata (adat x) <> [] ->
  Forall (fun e => small_itv e /\ finite_itv e /\ num_val (lo e) <> 0 /\ num_val (hi e) <> 0) (adata (adat x)) ->
  exists Z, returns (arr_inv x) m Z /\ consistent Z /\ shp Z = shp x /\
  forall idx e, aget (adat x) idx = Some e -> exists z, aget (adat Z) idx = Some z /\
    greatest_lower_double (fun r => r = 1 / num_val (lo e)) (lo z) /\ least_upper_double (fun r => r = 1 / num_val (hi e)) (hi z) /\
    (kd z = Classical <-> num_val (hi e) <= num_val (lo e)).
Proof. exact inv_array. Qed.
Print Assumptions C90_inverses.

(** Exceptions: an empty array raises ValueError, otherwise the first element that raises decides. *)
Theorem C90_raises : forall c f x m ex, c = arr_inv /\ f = inv \/ c = arr_abs /\ f = abs_itv -> raises (c x) m ex ->
  (adata (adat x) = [] /\ ex = ValueError) \/
  exists pre e post, adata (adat x) = pre ++ e :: post /\ Forall (fun b => exists c, returns (f b) m c) pre /\ raises (f e) m ex.
Proof. exact unary_raises. Qed.
Print Assumptions C90_raises.

(** khi of one interval: the end of smaller magnitude divided by the other one. *)
Theorem C90_khi : forall X m, small_itv X -> finite_itv X ->
  let a := num_val (lo X) in let b := num_val (hi X) in
  (a = 0 -> b = 0 -> raises (khi X) m ZeroDivisionError) /\
  (a <> 0 \/ b <> 0 -> exists f, returns (khi X) m (PFlt f) /\ is_finite f = true /\
     B2R f = rnd m (if Rle_lt_dec (Rabs a) (Rabs b) then a / b else b / a) /\
     -1 <= B2R f <= 1 /\ (B2R f = 1 <-> a = b) /\ (B2R f = -1 <-> a = - b)).
Proof. exact khi_spec. Qed.
Print Assumptions C90_khi.

Theorem C90_khi_array : forall x m, adata (adat x) <> [] -> Forall small_itv (adata (adat x)) -> Forall finite_itv (adata (adat x)) ->
  Forall (fun e => num_val (lo e) <> 0 \/ num_val (hi e) <> 0) (adata (adat x)) ->
  exists Z, returns (arr_khi x) m Z /\ ashape Z = ashape (adat x) /\ Forall2 (fun e v => returns (khi e) m v) (adata (adat x)) (adata Z).
Proof. exact khi_array. Qed.
Print Assumptions C90_khi_array.

(** A list that starts with a number makes the results ints: they are truncated. *)
Theorem C90_khi_mixed_refuted : forall m, exists a Z v e, returns (u_khi_arr a) m Z /\ aget a [1%nat] = Some (OItv e) /\ proper_fin e /\ small_itv e /\
  aget Z [1%nat] = Some v /\ num_val v = 0 /\ exists w, returns (u_khi (OItv e)) m w /\ finite_num w /\ num_val w = 1 / 2.
Proof. exact khi_mixed_x. Qed.
Print Assumptions C90_khi_mixed_refuted.

(** to_float and reversed always fail. *)
Theorem C90_to_float_reversed_refuted : forall x m,
  (adata (adat x) <> [] -> raises (arr_to_float x) m AttributeError) /\ arr_reversed x = Err AttributeError.
Proof. exact to_float_reversed. Qed.
Print Assumptions C90_to_float_reversed_refuted.

Definition exu : aitv := array_interval (mkarr [2%nat] [mkitv Classical (PInt 1) (PInt 3); mkitv Classical (PInt (-2)) (PInt 5)]).
Example C90_case : consistent exu /\ adata (adat exu) <> [] /\ Forall proper_fin (adata (adat exu)) /\
  Forall (fun e => small_itv e /\ finite_itv e /\ num_val (lo e) <> 0 /\ num_val (hi e) <> 0) (adata (adat exu)) /\
  Forall (fun e => num_val (lo e) <> 0 \/ num_val (hi e) <> 0) (adata (adat exu)).
Proof.
  split; [split; reflexivity|]. split; [discriminate|].
  unfold exu. cbn [adat array_interval adata].
  split; [constructor; [|constructor; [|constructor]]; (split; [split; exact I | simpl; lra])|].
  split; constructor; [|constructor; [|constructor]| |constructor; [|constructor]].
  1,2: split; [split; simpl; lia|]; split; [split; exact I|]; split; simpl; lra.
  all: left; simpl; lra.
Qed.

(** ** C11 for arrays *)
Theorem C11_array_first_ignores_second : forall o x y m,
  np_arr_left o x y m = arr_op o x (op_arr x) m /\ np_matmul_left x y m = matmul (op_arr x) (op_arr x) m.
Proof. exact array_first. Qed.
Print Assumptions C11_array_first_ignores_second.

Theorem C11_array_first_refuted : forall m, exists x y Z z X Y, consistent x /\ consistent y /\ shp x = shp y /\
  returns (np_arr_left OpSub x (op_arr y)) m Z /\ aget (adat Z) [0%nat] = Some z /\ aget (adat x) [0%nat] = Some X /\ aget (adat y) [0%nat] = Some Y /\
  good X /\ good Y /\ exists u v, member X u /\ member Y v /\ ~ member z (u - v).
Proof. exact array_first_x. Qed.
Print Assumptions C11_array_first_refuted.

Theorem C11_array_first_shapes_refuted : forall m, exists x y Z, consistent x /\ consistent y /\ (~ exists s, broadcast_shape (shp x) (shp y) s) /\
  returns (np_arr_left OpSub x (op_arr y)) m Z.
Proof. exact array_first_shapes_x. Qed.
Print Assumptions C11_array_first_shapes_refuted.
