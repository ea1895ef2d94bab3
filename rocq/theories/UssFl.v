(** Uss at a point, in binary64 (linear/Uss.py on the arrays of
    real_intervals.py): midpoints and radii come from the interval kernel, the
    rest is numpy on doubles; numpy's inner product is an oracle. *)
From Coq Require Import ZArith List Bool Arith.
From Flocq Require Import Core IEEE754.BinarySingleNaN.
From Verif Require Import Base PyNum Kernel Expr Arrays Construct RecogFl HbrFl RohnFl.
Import ListNotations.

Section Uss.
Variable fdot : list (flt * flt) -> flt.
(** Uss.py:12-16: [weight * (b.rad + A.rad @ np.abs(x) - np.abs(b.mid - A.mid @ x))]
    for a matrix and a vector; numpy refuses vectors of another length. *)
Definition uss_constituent_fl (A b : aitv) (x weight : arr pynum) : M (arr pynum) :=
  match shp A, ashape x with
  | [r; n], [k] =>
      q0 <- arr_rad b ;; q <- f_of q0 ;; G0 <- arr_rad A ;; G <- f_of G0 ;;
      if negb (n =? k) then mraise ValueError else
      y <- f_of x ;; s <- f_bin fadd q (f_mv fdot r n G (amap fabs y)) ;;
      c0 <- arr_mid b ;; c <- f_of c0 ;; C0 <- arr_mid A ;; C <- f_of C0 ;;
      d <- f_bin fsub c (f_mv fdot r n C y) ;; u <- f_bin fsub s (amap fabs d) ;;
      np_mul weight (amap PFlt u)
  | _, _ => mraise ValueError
  end.
(** Uss.py:19-21 *)
Definition uss_value_fl (A b : aitv) (x weight : arr pynum) : M pynum :=
  t <- uss_constituent_fl A b x weight ;; mlift (np_min t).
End Uss.

(** One order in which the inner product may be summed up. *)
Definition seq_dot (l : list (flt * flt)) : flt :=
  fold_left (fun s p => fadd mode_NE s (fmul mode_NE (fst p) (snd p))) l f0.
