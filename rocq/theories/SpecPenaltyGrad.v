(** What the direction of the penalty of a linear constraint is. *)
From Coq Require Import ZArith Reals Bool List.
From Flocq Require Import Core IEEE754.BinarySingleNaN.
From Verif Require Import Base PyNum Kernel Spec Expr Arrays Exact SpecExact RecogOpt SpecRecogOpt RecogOptCon SpecRecogOptCon.
Import ListNotations.
Open Scope R_scope.

(** The left-hand side of a row at [y]. *)
Definition left_side (n : nat) (C : list flt) (y : vec) : R := total n (fun k => B2R (nth k C f0) * y k).
(** By how much [y] violates the rows in total. *)
Fixpoint excess (n : nat) (rows : list (list flt * flt)) (y : vec) : R :=
  match rows with [] => 0 | (C, b) :: rows' => Rmax 0 (left_side n C y - B2R b) + excess n rows' y end.
(** The column [k] of the rows that [x] violates according to the computed left-hand sides. *)
Definition violated_column (cdot : list flt -> list flt -> flt) (x : list flt) (rows : list (list flt * flt)) (k : nat) : list flt :=
  map (fun row => if flt_ltb (snd row) (cdot (fst row) x) then nth k (fst row) f0 else f0) rows.
Definition real_sum (l : list flt) : R := fold_right (fun a s => B2R a + s) 0 l.
(** The computed left-hand sides are on the right side of the bounds. *)
Definition decided (cdot : list flt -> list flt -> flt) (x : list flt) (rows : list (list flt * flt)) : Prop :=
  forall C b, In (C, b) rows -> if flt_ltb b (cdot C x) then B2R b <= left_side (length x) C (fun k => B2R (nth k x f0)) else left_side (length x) C (fun k => B2R (nth k x f0)) <= B2R b.
(** [fg] is what the optimizer should be given under a constraint: at [x] the negated
    penalised value, and the difference of the direction of the penalty and the
    direction [grad] of a constituent that attains the least. *)
Definition given_con (cdot : list flt -> list flt -> flt) (csum : list flt -> flt) (mu : flt) (rows : list (list flt * flt))
  (con : arr pynum -> M (arr pynum)) (grad : nat -> list flt -> M (list flt)) (fg : list flt -> flt * list flt) : Prop :=
  forall x, is_nan (fst (fg x)) = false -> exists T mc t d, returns (con (point x)) mode_NE T /\ nth_error (adata T) mc = Some (PFlt t) /\ least T t /\
    fneg (fst (fg x)) = penalised cdot csum mu rows x t /\ returns (grad mc x) mode_NE d /\
    (length d = length x -> length (snd (fg x)) = length x /\
       forall k, (k < length x)%nat -> nth k (snd (fg x)) f0 = fadd mode_NE (fneg (nth k d f0)) (nth k (snd (penalty_fl cdot csum mu rows x)) f0)).
