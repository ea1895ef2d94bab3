(** Model of maximization under a linear constraint: BaseRecFun.optimize
    (kernel/abstract.py:34-74) with the calcfg_constr of Tol, Uni, Uss
    (Tol.py:40-45, Uni.py:44-49, Uss.py:34-39) and ChebNorm (ChebNorm.py:62-67),
    and the coefficient mu a LinearConstraint object carries. *)
From Coq Require Import Reals List Bool Arith.
From Flocq Require Import IEEE754.BinarySingleNaN.
From Verif Require Import Exact Recog Ralgb5 SysProps PyNum.
Import ListNotations.
Open Scope R_scope.

(** abstract.py:54-55, [np.max(mag(A))] for [S k] rows and [n] columns (no
    magnitude is negative). *)
Definition max_mag (k n : nat) (A : imat) : R := vmax k (fun i => fold_right Rmax 0 (map (fun j => r_mag (A i j)) (seq 0 n))).

(** abstract.py:252-269, find_mu with numpy's quotient: a vanishing partial sum
    makes it an infinity or NaN.  [None]: ValueError, no column has an entry. *)
Definition auto_mu (n : nat) (rows : list (vec * R)) (numerator : R) : option fval :=
  match somes (map (fun j => col_min (map (fun r : vec * R => fst r j) rows)) (seq 0 n)) with
  | [] => None
  | a :: l => Some (f_div numerator (lmin a (a :: l)))
  end.

(** A LinearConstraint object, abstract.py:206-246: rows with right-hand sides, and mu. *)
Record lincon : Type := mklc { c_rows : list (vec * R); c_mu : option fval }.

(** abstract.py:53-55: mu is computed when the object has none, and stored in it. *)
Definition ready (k n : nat) (A : imat) (c : lincon) : option lincon :=
  match c_mu c with
  | Some _ => Some c
  | None => match auto_mu n (c_rows c) (max_mag k n A) with
            | None => None
            | Some mu => Some (mklc (c_rows c) (Some mu))
            end
  end.
(** The object after a number of calls with the systems in the list, the first one first
    (abstract.py:53-55). *)
Fixpoint after_calls (k n : nat) (As : list imat) (c : lincon) : option lincon :=
  match As with
  | [] => Some c
  | A :: As' => match ready k n A c with Some c' => after_calls k n As' c' | None => None end
  end.

(** abstract.py:29, [mu * np.sum(arr_p)] for any mu *)
Definition penalty_ext (n : nat) (mu : fval) (rows : list (vec * R)) (x : vec) : fval :=
  f_mul mu (Num (lsum (map fst (map (penalty_row n x) rows)))).

(** abstract.py:57 and 74: the optimizer is run on calcfg_constr, for a number
    [mu]; Tol.py:48-58 (Uni.py:52-62, Uss.py:42-52) negates the value found. *)
Definition maximize_c (n : nat) (big : R) (P : params (real_ops n big)) (fg : vec -> R * vec) (mu : R) (rows : list (vec * R)) (x0 : vec) : vec * R :=
  let r := fst (ralgb5 (real_ops n big) P (with_penalty n mu rows fg) n x0) in
  (r_x _ r, - r_f _ r).
(** ChebNorm.py:70-80: the value is returned as it is. *)
Definition minimize_c (n : nat) (big : R) (P : params (real_ops n big)) (fg : vec -> R * vec) (mu : R) (rows : list (vec * R)) (x0 : vec) : vec * R :=
  let r := fst (ralgb5 (real_ops n big) P (with_penalty n mu rows fg) n x0) in
  (r_x _ r, r_f _ r).

(** ** In binary64 *)
(** abstract.py:21-26 for one row *)
Definition fl_excess (x : list flt) (row : list flt * flt) : flt :=
  let Cix := l_dot (fst row) x in if flt_ltb (snd row) Cix then fsub mode_NE Cix (snd row) else f0.
Definition fl_part (x : list flt) (row : list flt * flt) : list flt :=
  if flt_ltb (snd row) (l_dot (fst row) x) then fst row else map (fun _ => f0) x.
(** abstract.py:13-31 *)
Definition fl_penalty (mu : flt) (rows : list (list flt * flt)) (x : list flt) : flt * list flt :=
  (fmul mode_NE mu (fold_left (fadd mode_NE) (map (fl_excess x) rows) f0),
   map (fmul mode_NE mu) (fold_left (l_map2 (fadd mode_NE)) (map (fl_part x) rows) (map (fun _ => f0) x))).
(** Tol.py:40-45 *)
Definition fl_with_penalty (mu : flt) (rows : list (list flt * flt)) (fg : list flt -> flt * list flt) (x : list flt) : flt * list flt :=
  let (p, dp) := fl_penalty mu rows x in
  let (f, g) := fg x in (fadd mode_NE f p, l_map2 (fadd mode_NE) g dp).
