(** C81: HBR on doubles. *)
From Coq Require Import ZArith Reals List Bool Arith.
From Flocq Require Import Core IEEE754.BinarySingleNaN.
From Verif Require Import Base PyNum Kernel Spec Expr Arrays Construct SpecArray HbrFl SpecHbrFl HbrFlProofs.
Import ListNotations.
Open Scope R_scope.

(** ** C81 *)
(** Off-diagonal entries all zero: no solution is lost, whatever the rounding
    errors of the inner products and of the second inverse. *)
Theorem C81_diagonal : forall inv dot n A b m X, fl_system n A b -> diagonal_itv n A ->
  (forall c C, returns (arr_mid A) m c -> inv c = Ok C -> diagonal_flt n C) ->
  returns (hbr_fl inv dot A b) m X ->
  forall x, solution n A b x -> forall i, (i < n)%nat -> exists e, aget (adat X) [i] = Some e /\ good e /\ member_or_nan e (x i).
Proof. exact hbr_diagonal. Qed.
Print Assumptions C81_diagonal.

Theorem C81_one_equation : forall inv dot A b m X, fl_system 1 A b ->
  (forall c C, returns (arr_mid A) m c -> inv c = Ok C -> exists f, C = mkarr [1%nat; 1%nat] [f] /\ is_finite f = true) ->
  returns (hbr_fl inv dot A b) m X ->
  forall x, solution 1 A b x -> exists e, aget (adat X) [0%nat] = Some e /\ good e /\ member_or_nan e (x 0%nat).
Proof. exact hbr_single. Qed.
Print Assumptions C81_one_equation.

(** In general solutions are lost, even with both inverses correct to half a
    unit in the last place and the best inner products: -8 x + 4 y = 2,
    4 x + 3 y = 0. *)
Theorem C81_encloses_refuted : exists A b x inv, fl_system 2 A b /\ solution 2 A b x /\
  (forall P C, inv P = Ok C -> inverse_within unit_roundoff 2 P C) /\
  forall dot, dot = dot_rounded \/ dot = dot_fused ->
    exists X e, returns (hbr_fl inv dot A b) mode_NE X /\ aget (adat X) [0%nat] = Some e /\ ~ member e (x 0%nat).
Proof. exact hbr_loses. Qed.
Print Assumptions C81_encloses_refuted.

Example C81_case : fl_system 2 hd_A hd_b /\ diagonal_itv 2 hd_A /\ (forall c C, returns (arr_mid hd_A) mode_NE c -> inv_diag c = Ok C -> diagonal_flt 2 C) /\
  (exists X, returns (hbr_fl inv_diag dot_rounded hd_A hd_b) mode_NE X) /\ solution 2 hd_A hd_b (fun i => match i with O => 2 | _ => 3/10 end).
Proof. exact hd_case. Qed.
