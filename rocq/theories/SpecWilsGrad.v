(** Which rows make up the search direction of WILS. *)
From Coq Require Import List.
From Flocq Require Import Core IEEE754.BinarySingleNaN.
From Verif Require Models.
From Verif Require Import Base PyNum Kernel Spec Expr Arrays RecogOpt SpecRecogOpt RecogOptCon.
Import ListNotations.

(** norm='inf': one row that attains the least residual; otherwise all rows. *)
Definition chosen (nm : Models.norm) (T : arr pynum) (mcs : list nat) : Prop :=
  match nm with
  | Models.NInf => exists mc t, mcs = [mc] /\ nth_error (adata T) mc = Some (PFlt t) /\ least T t
  | Models.NL1 => mcs = seq 0 (length (adata T))
  end.
(** The component [k] of the direction of the penalty, 0 without a constraint. *)
Definition penalty_part (cdot : list flt -> list flt -> flt) (csum : list flt -> flt) (constraint : option (flt * list (list flt * flt))) (x : list flt) (k : nat) : flt :=
  match constraint with Some (mu, rows) => nth k (snd (penalty_fl cdot csum mu rows x)) f0 | None => f0 end.
