(** What it means that an expression is evaluated without overflow. *)
From Coq Require Import ZArith Reals.
From Flocq Require Import Core IEEE754.BinarySingleNaN.
From Verif Require Import Base PyNum Kernel Spec Expr.
Open Scope R_scope.

(** A proper interval with finite endpoints, doubles or ints up to 2^26. *)
Definition plain (X : itv) : Prop := kd X = Classical /\ small_itv X /\ proper_fin X.
(** [e] and all its subexpressions evaluate to intervals with finite endpoints. *)
Definition finite_value (env : nat -> itv) (m : rmode) (e : expr) : Prop := exists Z, returns (eval env e) m Z /\ finite_itv Z.
Fixpoint finite_values (env : nat -> itv) (m : rmode) (e : expr) : Prop :=
  finite_value env m e /\
  match e with
  | EVar _ => True
  | EBin _ a b => finite_values env m a /\ finite_values env m b
  | EBinR _ a _ | EBinL _ _ a | ENeg a | EAbs a | EPro a => finite_values env m a
  end.
(** The constants are finite doubles or ints up to 2^26, and 0 is not divided by
    an interval. *)
Fixpoint plain_consts (e : expr) : Prop :=
  match e with
  | EVar _ => True
  | EBin _ a b => plain_consts a /\ plain_consts b
  | EBinR _ a c => small_num c /\ finite_num c /\ plain_consts a
  | EBinL o c b => small_num c /\ finite_num c /\ (o = OpDiv -> num_val c <> 0) /\ plain_consts b
  | ENeg a | EAbs a | EPro a => plain_consts a
  end.
