(** The united branch of linear/Rohn.py and linear/Neumaier.py in binary64.
    numpy.linalg.inv, the inner products of numpy's BLAS and numpy's sums along an
    axis are oracles; numpy works in the rounding mode of the call. *)
From Coq Require Import ZArith List Bool Arith.
From Flocq Require Import Core IEEE754.BinarySingleNaN.
From Verif Require Import Base PyNum Kernel Expr Arrays Construct RecogFl HbrFl.
Import ListNotations.

Section Rohn.
Variables (inv : arr flt -> res (arr flt)) (fdot : list (flt * flt) -> flt).
(** [a @ b] with [r] rows, [k] inner terms and [c] columns, [a @ x], [a.T] *)
Definition f_mm (r k c : nat) (a b : arr flt) : arr flt := of_fun [r; c] (fun idx => f_row fdot k (fun l => f_get a [nth 0 idx 0; l]) (fun l => f_get b [l; nth 1 idx 0])).
Definition f_mv (r k : nat) (a x : arr flt) : arr flt := of_fun [r] (fun idx => f_row fdot k (fun l => f_get a [nth 0 idx 0; l]) (fun l => f_get x [l])).
Definition f_tr (r c : nat) (a : arr flt) : arr flt := of_fun [c; r] (fun idx => f_get a [nth 1 idx 0; nth 0 idx 0]).
(** [inv(M.T @ M) @ M.T] for [m] rows and [n] columns, Rohn.py:67, 75 *)
Definition f_pinv (m n : nat) (c : arr flt) : res (arr flt) := P <~ inv (f_mm n m n (f_tr m n c) c) ;; Ok (f_mm n n m P (f_tr m n c)).
(** The loop, lines 81-88; [err] starts as infinity, [fuel] passes are still allowed
    by the counter. *)
Fixpoint f_loop (fuel n : nat) (tol : flt) (G g r : arr flt) (err : flt) : M (arr flt) :=
  match fuel with
  | O => mret r
  | S f =>
      if flt_leb tol err then
        s <- f_bin fadd (f_mv n n G r) g ;; r' <- f_bin fadd s (scalar tol) ;;
        e <- f_bin fsub r' r ;;
        f_loop f n tol G g r' (f_max (map fabs (adata e)))
      else mret r
  end.
(** _Rohn_Uni, lines 64-89; [None] of the shapes raises.  The matrix of line 68 is
    square, so the assertion of line 72 holds. *)
Definition rohn_fl (A b : aitv) (tol : flt) (maxiter : Z) : M aitv :=
  match shp A, shp b with
  | [m; n], [k] =>
      if negb (m =? k) then mraise ValueError else
      c0 <- arr_mid A ;; c <- f_of c0 ;; C <- mlift (f_pinv m n c) ;;
      A1 <- f_matmul_itv C A ;; b1 <- f_matmul_itv C b ;;
      d0 <- arr_mid A1 ;; d <- f_of d0 ;; R <- mlift (f_pinv n n d) ;;
      y0 <- arr_mid b1 ;; y <- f_of y0 ;;
      let x0 := f_mv n n R y in
      s0 <- arr_rad A1 ;; s <- f_of s0 ;; t0 <- arr_rad b1 ;; t <- f_of t0 ;;
      E <- f_bin fsub (f_eye n) (f_mm n n n R d) ;;
      G <- f_bin fadd (amap fabs E) (f_mm n n n (amap fabs R) s) ;;
      h <- f_bin fsub (f_mv n n d x0) y ;;
      q <- f_bin fadd (f_mv n n s (amap fabs x0)) t ;;
      g <- f_bin fadd (amap fabs (f_mv n n R h)) (f_mv n n (amap fabs R) q) ;;
      r <- f_loop (Z.to_nat (maxiter + 1)) n tol G g (mkarr [n] (repeat f0 n)) finf ;;
      u <- f_bin fsub x0 r ;; v <- f_bin fadd x0 r ;;
      f_interval u v
  | _, _ => mraise ValueError
  end.
End Rohn.

(** Neumaier.py:28-43 without weights.  [fsum]: numpy's sum of one row of doubles.
    The product with the scalar [Interval(-1, 1)] on line 43 goes through its
    [__array_ufunc__] and [np.vectorize] (pyx:362, 515-516), so what is returned is a
    numpy array of intervals and not an interval array. *)
Section Neumaier.
Variable fsum : list flt -> flt.
Definition row_sums (m n : nat) (a : arr flt) : arr flt := of_fun [m] (fun idx => fsum (map (fun j => f_get a [nth 0 idx 0; j]) (seq 0 n))).
Definition neumaier_fl (A b : aitv) (y : arr flt) : M (arr itv) :=
  match shp A, shp b, ashape y with
  | [m; n], [k], [l] =>
      if negb ((m =? k) && (n =? l)) then mraise GenericException else
      t0 <- arr_rad b ;; t <- f_of t0 ;; c <- arr_mid b ;;
      p <- matmul (op_arr A) (itv_mat y) ;; w <- lift_arr (amapM entry_itv p) ;;
      d <- np_arr_right OpSub (amap ONum c) w ;;
      g0 <- arr_mag d ;; g <- f_of g0 ;;
      a0 <- arr_mag A ;; a <- f_of a0 ;;
      e <- f_bin fsub t g ;; r <- f_bin fdiv e (row_sums m n a) ;;
      s <- f_bin fmul (f_ones n) r ;;
      z <- vectorize (fun f => rmul_any (mkitv Classical (PInt (-1)) (PInt 1)) (ONum (PFlt f))) s ;;
      binop_arr (fun f e => radd e (PFlt f)) y z
  | _, _, _ => mraise GenericException
  end.
End Neumaier.
