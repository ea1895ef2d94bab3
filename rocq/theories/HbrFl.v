(** HBR in binary64 (linear/HBR.py on the arrays of real_intervals.py), for a
    vector on the right-hand side.  numpy.linalg.inv and the inner products of
    numpy's BLAS are oracles. *)
From Coq Require Import ZArith List Bool Arith.
From Flocq Require Import Core IEEE754.BinarySingleNaN.
From Verif Require Import Base PyNum Kernel Expr Arrays Construct RecogFl.
Import ListNotations.

(** ** numpy on arrays of doubles *)
(** Elementwise operations, in the current rounding mode; a division by zero
    is an IEEE division with a warning. *)
Definition f_op (f : rmode -> flt -> flt -> flt) (x y : flt) : M flt := mprim (fun m => Ok (f m x y)).
Definition f_bin (f : rmode -> flt -> flt -> flt) : arr flt -> arr flt -> M (arr flt) := binop_arr (f_op f).
Definition f_ones (n : nat) : arr flt := mkarr [n] (repeat f1 n).
Definition f_eye (n : nat) : arr flt := of_fun [n; n] (fun idx => if nth 0 idx 0 =? nth 1 idx 0 then f1 else f0).
Definition f_get (a : arr flt) (idx : list nat) : flt := match aget a idx with Some v => v | None => fnan end.
(** [np.diag] of a square matrix. *)
Definition f_diag (n : nat) (a : arr flt) : arr flt := of_fun [n] (fun idx => f_get a [nth 0 idx 0; nth 0 idx 0]).
(** [np.outer(u, np.ones(n))] *)
Definition f_outer_ones (n : nat) (u : arr flt) : M (arr flt) :=
  l <- mapM (fun idx => f_op fmul (f_get u [nth 0 idx 0]) f1) (indices [n; n]) ;; mret (mkarr [n; n] l).
(** [np.max(a, axis=0)]: NaN as soon as one element of the column is. *)
Definition f_max (l : list flt) : flt :=
  match l with
  | [] => fnan
  | v :: l' => if existsb is_nan (v :: l') then fnan else fold_left flt_max2 l' v
  end.
Definition f_max0 (n : nat) (a : arr flt) : arr flt := of_fun [n] (fun idx => f_max (map (fun i => f_get a [i; nth 0 idx 0]) (seq 0 n))).
(** An array of numbers as doubles ([np.array(A, dtype=np.float64)]). *)
Definition f_of (a : arr pynum) : M (arr flt) := amapM (fun v => mlift (to_double v)) a.
Definition itv_mat (C : arr flt) : arr operand := amap (fun f => ONum (PFlt f)) C.
(** [C @ X] with an interval array on the right: [__array_ufunc__],
    real_intervals.py:336-341. *)
Definition f_matmul_itv (C : arr flt) (X : aitv) : M aitv :=
  p <- matmul (itv_mat C) (op_arr X) ;; lift_arr (amapM entry_itv p).
(** [Interval(l, r)] of two arrays of doubles, real_intervals.py:404-471. *)
Definition f_interval (l r : arr flt) : M aitv := lift_arr (binop_arr (fun a b => single_interval (PFlt a) (PFlt b) true false) l r).

Section HBR.
(** numpy.linalg.inv, and the inner product of two vectors of doubles. *)
Variables (inv : arr pynum -> res (arr flt)) (fdot : list (flt * flt) -> flt).
Definition f_row (n : nat) (f g : nat -> flt) : flt := fdot (map (fun k => (f k, g k)) (seq 0 n)).
(** [a @ x] and [a @ b], and [x @ y] of two vectors *)
Definition f_mat_vec (n : nat) (a x : arr flt) : arr flt := of_fun [n] (fun idx => f_row n (fun k => f_get a [nth 0 idx 0; k]) (fun k => f_get x [k])).
Definition f_mat_mat (n : nat) (a b : arr flt) : arr flt := of_fun [n; n] (fun idx => f_row n (fun k => f_get a [nth 0 idx 0; k]) (fun k => f_get b [k; nth 1 idx 0])).
Definition f_vec_vec (n : nat) (x y : arr flt) : flt := f_row n (fun k => f_get x [k]) (fun k => f_get y [k]).

(** HBR.py:38-50: the numbers [alpha] and [beta] from the preconditioned
    matrix and right-hand side. *)
Definition hbr_ab (n : nat) (A1 b1 : aitv) : M (arr flt * arr flt) :=
  K0 <- compmat A1 ;; K <- f_of K0 ;; B <- mlift (inv K0) ;;
  let v := amap fabs (f_mat_vec n B (f_ones n)) in
  let u := f_mat_vec n K v in
  if existsb (fun t => flt_ltb f0 t) (adata u) then
    let dAc := f_diag n K in
    E <- f_bin fsub (f_mat_mat n K B) (f_eye n) ;;
    O <- f_outer_ones n u ;;
    Q <- f_bin fdiv (amap fneg E) O ;;
    let w := f_max0 n Q in
    vw <- f_bin fmul v w ;; dl <- f_bin fsub vw (f_diag n B) ;;
    let dlow := amap fneg dl in
    B' <- f_bin fadd B (scalar (f_vec_vec n v w)) ;;
    g0 <- arr_mag b1 ;; g <- f_of g0 ;;
    let u' := f_mat_vec n B' g in
    let d := f_diag n B' in
    q <- f_bin fdiv (scalar (fneg f1)) d ;; alpha <- f_bin fadd dAc q ;;
    r <- f_bin fdiv u' dlow ;; beta <- f_bin fsub r g ;;
    mret (alpha, beta)
  else mraise AssertionError.
(** HBR.py:26-55 *)
Definition hbr_fl (A b : aitv) : M aitv :=
  match shp A, shp b with
  | [n; m], [k] =>
      if negb ((n =? m) && (n =? k)) then mraise AssertionError else
      c <- arr_mid A ;; C <- mlift (inv c) ;;
      A1 <- f_matmul_itv C A ;; b1 <- f_matmul_itv C b ;;
      dA <- mlift (diag A1 0) ;;
      ab <- hbr_ab n A1 b1 ;;
      let (alpha, beta) := ab in
      I1 <- f_interval (amap fneg beta) beta ;; num <- arr_op OpAdd b1 (op_arr I1) ;;
      I2 <- f_interval (amap fneg alpha) alpha ;; den <- arr_op OpAdd dA (op_arr I2) ;;
      arr_op OpDiv num (op_arr den)
  | _, _ => mraise AssertionError
  end.
End HBR.
