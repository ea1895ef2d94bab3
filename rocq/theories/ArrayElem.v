(** Model of the elementary functions and powers of interval arrays:
    kernel/real_intervals.py:278-279 ([**]), 343-359 (numpy functions), and of
    kernel/elementary_functions.py:7-100. *)
From Coq Require Import ZArith List Bool Arith.
From Verif Require Import Base PyNum Kernel Expr Arrays Construct.
Import ListNotations.

(** The functions numpy may be asked for; [FOther] is any other one.
    (elementary_functions.py:1-60) *)
Inductive elementary : Set := FSqrt | FExp | FLog | FSin | FCos | FOther.
(** [np.f(e)] for one interval, pyx:354-388. *)
Definition elem_itv (L : libm) (f : elementary) (e : itv) : M itv :=
  match f with
  | FSqrt => itv_sqrt L e | FExp => itv_exp L e | FLog => itv_log L e | FSin => itv_sin L e | FCos => itv_cos L e
  | FOther => mraise NotImplementedError
  end.
(** real_intervals.py:343-359: [np.vectorize(np.f)] of the elements. *)
Definition arr_elem (L : libm) (f : elementary) (x : aitv) : M aitv :=
  match f with FOther => mraise GenericException | _ => arr_map (elem_itv L f) x end.
(** [np.f] of an interval or of an array. (real_intervals.py:323-361) *)
Definition np_elem (L : libm) (f : elementary) (r : ivres) : M ivres :=
  match r with
  | RItv e => z <- elem_itv L f e ;; mret (RItv z)
  | RArr x => z <- arr_elem L f x ;; mret (RArr z)
  end.
(** elementary_functions.py:7-100: [sqrt], [exp], [log], [sin], [cos]. *)
Definition iv_elem (L : libm) (f : elementary) (a : asarg) : M ivres :=
  r <- asinterval a ;; np_elem L f r.
(** real_intervals.py:278-279: [np.vectorize(pow)(self._data, other)] for a
    number or an array of numbers; ValueError for shapes that do not broadcast
    and for arrays without elements.  (numpy first calls [pow] once more on the
    first pair to find the type of the result; that call does what the one
    counted here does.) *)
Definition arr_pow (L : libm) (x : aitv) (n : arr pynum) : M aitv :=
  match bcast (ashape (adat x)) (ashape n) with
  | Some s => if size s =? 0 then mraise ValueError else lift_arr (binop_arr (itv_pow L) (adat x) n)
  | None => mraise ValueError
  end.
