(** Vocabulary for maximize with a linear constraint in binary64. *)
From Coq Require Import ZArith Reals List.
From Flocq Require Import Core IEEE754.BinarySingleNaN.
From Verif Require Import Base PyNum.
Import ListNotations.
Open Scope R_scope.

(** A way to add doubles up: non-negative ones give a non-negative result (an
    infinity perhaps, no NaN), zeros give zero. *)
Definition adds_up (csum : list flt -> flt) : Prop :=
  (forall l, Forall (fun a => flt_leb f0 a = true) l -> flt_leb f0 (csum l) = true) /\
  (forall l, Forall (fun a => is_finite a = true /\ B2R a = 0) l -> is_finite (csum l) = true /\ B2R (csum l) = 0).
(** One after the other. *)
Definition in_turn (l : list flt) : flt := fold_left (fadd mode_NE) l f0.
(** The computed left-hand sides do not exceed the bounds. *)
Definition holds (cdot : list flt -> list flt -> flt) (rows : list (list flt * flt)) (x : list flt) : Prop :=
  Forall (fun row => flt_ltb (snd row) (cdot (fst row) x) = false) rows.
(** By how much a row exceeds its bound. *)
Definition violation (cdot : list flt -> list flt -> flt) (x : list flt) (row : list flt * flt) : flt :=
  if flt_ltb (snd row) (cdot (fst row) x) then fsub mode_NE (cdot (fst row) x) (snd row) else f0.
(** The value minus mu times the total violation. *)
Definition penalised (cdot : list flt -> list flt -> flt) (csum : list flt -> flt) (mu : flt) (rows : list (list flt * flt)) (x : list flt) (t : flt) : flt :=
  fneg (fadd mode_NE (fneg t) (fmul mode_NE mu (csum (map (violation cdot x) rows)))).
