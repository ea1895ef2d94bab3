(** What the five termination codes of ralgb5 mean, in terms of the points at
    which the objective was evaluated (latest first). *)
From Coq Require Import ZArith List Bool Arith.
From Verif Require Import Ralgb5.
Import ListNotations.

Section Codes.
Variable OP : ops.
Variable calcfg : vct OP -> num OP * vct OP.

(** Best value among the evaluated points. *)
Fixpoint record (t : list (vct OP)) (x0 : vct OP) : num OP :=
  match t with
  | [] => fst (calcfg x0)
  | y :: t' => if n_lt OP (fst (calcfg y)) (record t' x0) then fst (calcfg y) else record t' x0
  end.
(** [steps dx k len t0 t]: the points [t] arise from [t0] by [k] steps against
    the direction [dx]; after every step but the last the derivative along [dx]
    is positive; [len] is the length of the way. *)
Inductive steps (dx : vct OP) : nat -> num OP -> list (vct OP) -> list (vct OP) -> Prop :=
| steps_none : forall t, steps dx 0 (n_zero OP) t t
| steps_more : forall k len t0 y t h, steps dx k len t0 (y :: t) ->
    (k <> O -> n_lt OP (n_zero OP) (v_dot OP dx (snd (calcfg y))) = true) ->
    steps dx (S k) (n_add OP len (n_mul OP h (v_norm OP dx))) t0 (v_sub OP y (v_scale OP h dx) :: y :: t).
(** [iterations x0 ends]: the evaluations (without the first, at [x0]) at the
    ends of the iterations, latest first, each iteration a run of at most 500
    [steps]; [changes]: by how much each iteration changed the best value. *)
Inductive iterations (x0 : vct OP) : list (list (vct OP)) -> Prop :=
| it_start : iterations x0 [[]]
| it_next : forall dx k len u e ends, (k <= 500)%nat -> steps dx k len (e ++ [x0]) ((u ++ e) ++ [x0]) ->
    iterations x0 (e :: ends) -> iterations x0 ((u ++ e) :: e :: ends).
Fixpoint changes (x0 : vct OP) (ends : list (list (vct OP))) : list (num OP) :=
  match ends with
  | a :: ((b :: _) as r) => n_abs OP (n_sub OP (record a x0) (record b x0)) :: changes x0 r
  | _ => []
  end.
(** Sum of the last [k] changes; infinity stands for changes before the start. *)
Definition total_change (k : nat) (x0 : vct OP) (ends : list (list (vct OP))) : num OP :=
  fold_left (n_add OP) (firstn k (changes x0 ends ++ repeat (n_inf OP) k)) (n_zero OP).
Definition relative_to (r s : num OP) : num OP :=
  if n_lt OP (n_one OP) (n_abs OP r) then n_div OP s (n_abs OP r) else s.
End Codes.
