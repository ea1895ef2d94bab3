(** The values of an ISPAE model with the monomial basis in binary64. *)
From Coq Require Import ZArith List Bool.
From Flocq Require Import Core IEEE754.BinarySingleNaN.
From Verif Require Import Base PyNum Kernel Construct Solvers.
Import ListNotations.

(** [polyval] of numpy (Horner's rule from [c[-1] + x*0]), called by ISPAE.py:108-110:
    coefficients from the constant term upwards, of which there is at least one *)
Fixpoint horner (c : list flt) (x : flt) : flt :=
  match c with
  | [] => fnan
  | a :: c' =>
      match c' with
      | [] => fadd mode_NE a (fmul mode_NE x f0)
      | _ :: _ => fadd mode_NE a (fmul mode_NE (horner c' x) x)
      end
  end.
(** [poly(x)] with [poly = beta @ basis] of degrees 1, 2, ... (ISPAE.py:95-96, 103,
    108-110): numpy first maps the argument from the domain to the window, both
    [-1, 1].  The coefficients of the sum of basis polynomials are those of
    [beta]; that numpy drops leading zeros changes no value at finite points. *)
Definition poly_fl (beta : list flt) (x : flt) : flt := horner (f0 :: beta) (fadd mode_NE f0 (fmul mode_NE f1 x)).
(** ISPAE.py:106-124 for one interval [l, u] of the column; [roots] are the real
    parts of numpy's roots of the derivative.  [min] and [max] are those of Python. *)
Definition col_fl (roots beta : list flt) (l u : flt) : M itv :=
  match map (poly_fl beta) (filter (fun d => flt_leb l d && flt_leb d u) (l :: u :: roots)) with
  | [] => mraise ValueError
  | v :: vs => single_interval (PFlt (fold_left flt_min2 vs v)) (PFlt (fold_left flt_max2 vs v)) false false
  end.
Section Value.
(** The roots of the derivative of the polynomial with the given coefficients *)
Variable roots : list flt -> list flt.
(** The list built by ISPAE.py:143-146 for one row: a column is its order and the
    ends of its interval, the integers of the bias column converted to doubles *)
Fixpoint cols_fl (beta : list flt) (cols : list (nat * (flt * flt))) : M (list itv) :=
  match cols with
  | [] => mret []
  | (o, (l, u)) :: cols' =>
      v <- col_fl (roots (firstn o beta)) (firstn o beta) l u ;; vs <- cols_fl (skipn o beta) cols' ;; mret (v :: vs)
  end.
(** ISPAE.py:147, one row: the built-in [sum] *)
Definition value_fl (beta : list flt) (cols : list (nat * (flt * flt))) : M operand :=
  vs <- cols_fl beta cols ;; py_sum vs.
End Value.
