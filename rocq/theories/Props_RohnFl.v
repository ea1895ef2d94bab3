(** Rohn (C43) and Neumaier (C53) on doubles. *)
From Coq Require Import ZArith Reals List Bool Arith.
From Flocq Require Import Core IEEE754.BinarySingleNaN.
From Verif Require Import Base PyNum Kernel Spec Expr Arrays Construct SpecArray HbrFl SpecHbrFl RohnFl SpecRohnFl RohnFlProofs.
Import ListNotations.
Open Scope R_scope.

(** C43: x = [1, 2^53 + 2], all inverses exact, the default tolerance 1e-12 and limit
    2000: the solution 1 is outside the answer. *)
Theorem C43_doubles_refuted : exists A b x inv, fl_system 1 A b /\ solution 1 A b x /\ (forall P C, inv P = Ok C -> inverse_within 0 1 (amap PFlt P) C) /\
  forall dot, dot = dot_rounded \/ dot = dot_fused ->
    exists X e, returns (rohn_fl inv dot A b (fl 4951760157141521 (-92)) 2000) mode_NE X /\ aget (adat X) [0%nat] = Some e /\ ~ member e (x 0%nat).
Proof. exact rohn_loses. Qed.
Print Assumptions C43_doubles_refuted.

(** C53: 5 x = [-1, 1] around 0: the answer contains a point that is not tolerable. *)
Theorem C53_doubles_refuted : exists A b y x, fl_system 1 A b /\ ashape y = [1%nat] /\ (forall f, aget y [0%nat] = Some f -> tolerates 1 A b (fun _ => B2R f)) /\
  ~ tolerates 1 A b x /\
  forall fsum, (forall f, fsum [f] = f) -> exists d e, returns (neumaier_fl fsum A b y) mode_NE d /\ aget d [0%nat] = Some e /\ member e (x 0%nat).
Proof. exact neumaier_loses. Qed.
Print Assumptions C53_doubles_refuted.
