(** Model of the variability measure [ive] (linear/system_properties.py:7-43)
    over exact reals.  Tol.maximize is the model of Ralgb5.v;
    numpy.random.choice is the oracle [coin] (one answer per round, row and
    column); numpy.linalg.cond is the oracle [cond] ([None]: infinity). *)
From Coq Require Import Reals ZArith List Bool Arith.
From Verif Require Import Exact Recog Ralgb5.
Import ListNotations.
Open Scope R_scope.

(** A Python/numpy float result: a number, an infinity or nan.  Products and
    quotients follow IEEE 754 for the cases that can occur here.
    (for system_properties.py:33-42) *)
Inductive fval := Num (r : R) | Infty (positive : bool) | NaN.
Definition is_pos (r : R) : bool := if Rlt_dec 0 r then true else false.
Definition f_mul (a b : fval) : fval :=
  match a, b with
  | NaN, _ => NaN
  | _, NaN => NaN
  | Num x, Num y => Num (x * y)
  | Num x, Infty p => if Req_EM_T x 0 then NaN else Infty (eqb (is_pos x) p)
  | Infty p, Num y => if Req_EM_T y 0 then NaN else Infty (eqb p (is_pos y))
  | Infty p, Infty q => Infty (eqb p q)
  end.
(** Quotient of two numbers; the divisor here is a norm, so its zero is +0.
    (for system_properties.py:42) *)
Definition f_div (x y : R) : fval :=
  if Req_EM_T y 0 then (if Req_EM_T x 0 then NaN else Infty (is_pos x)) else Num (x / y).

(** The corner matrix of round [t], system_properties.py:36-38. *)
Definition angle (A : imat) (coin : nat -> nat -> nat -> bool) (t : nat) : mat :=
  fun i j => if coin t i j then rh (A i j) else rl (A i j).
(** cond = tmp if tmp<cond else cond, system_properties.py:40. *)
Definition take_less (tmp c : option R) : option R :=
  match tmp, c with
  | Some a, Some d => if Rlt_dec a d then tmp else c
  | Some _, None => tmp
  | None, _ => c
  end.
(** system_properties.py:33-40: the loop over N rounds, starting at infinity. *)
Fixpoint least_cond (cond : mat -> option R) (A : imat) (coin : nat -> nat -> nat -> bool) (N : nat) : option R :=
  match N with O => None | S t => take_less (cond (angle A coin t)) (least_cond cond A coin t) end.
Definition norm2 (n : nat) (x : vec) : R := sqrt (vsum n (fun j => x j * x j)).
(** ive, system_properties.py:27-42; [S k] equations, [n] unknowns; the message for ccode 5
    (system_properties.py:28) is not modelled.  system_properties.py:42:
    sqrt(n) * fr * cond * (norm(xr) / sqrt(sum(b.mag ** 2))). *)
Definition ive (cond : mat -> option R) (coin : nat -> nat -> nat -> bool) (k n : nat) (big : R) (P : params (real_ops n big))
  (x0 : vec) (A : imat) (b : ivec) (N : nat) : fval :=
  let (xr, fr) := tol_maximize k n big P A b (fun _ => 1) x0 in
  let c := match least_cond cond A coin N with Some c => Num c | None => Infty true end in
  f_mul (f_mul (f_mul (Num (sqrt (INR n))) (Num fr)) c) (f_div (norm2 n xr) (norm2 (S k) (fun i => r_mag (b i)))).
