(** Predictions of ISPAE with the monomial basis in binary64. *)
From Coq Require Import ZArith List Bool Arith.
From Flocq Require Import Core IEEE754.BinarySingleNaN.
From Verif Require Import Base PyNum Kernel Expr Arrays Construct IspaeFl.
Import ListNotations.

(** The coefficients of [1 * basis(d)] from degree 1 upwards, ISPAE.py:98-103, d >= 1 *)
Definition monomial (d : nat) : list flt := repeat f0 (Nat.pred d) ++ [f1].
Section Predict.
Variable roots : list flt -> list flt.
(** ISPAE.py:256-262, one row *)
Fixpoint expand_fl (cols : list (nat * (flt * flt))) : M (list itv) :=
  match cols with
  | [] => mret []
  | (o, (l, u)) :: cols' =>
      vs <- mapM (fun d => col_fl (roots (monomial d)) (monomial d) l u) (seq 1 o) ;; ws <- expand_fl cols' ;; mret (vs ++ ws)
  end.
(** ISPAE.py:394, one row: [DataFrame @ xr] is numpy's inner product of objects *)
Definition predict_fl (beta : list flt) (cols : list (nat * (flt * flt))) : M operand :=
  vs <- expand_fl cols ;;
  if negb (length vs =? length beta) then mraise ValueError else
  dot (combine (map OItv vs) (map (fun c => ONum (PFlt c)) beta)).
End Predict.
