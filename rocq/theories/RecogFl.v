(** Tol and Uni at a point, in binary64 (linear/Tol.py, linear/Uni.py on the
    arrays of real_intervals.py): everything up to the minimum is done by the
    interval kernel and by numpy on doubles. *)
From Coq Require Import ZArith List Bool.
From Verif Require Import Base PyNum Kernel Expr Arrays.
Import ListNotations.

(** real_intervals.py:281-286: [A @ x] with a numpy vector of numbers.  Every
    entry of the product is an interval unless there is nothing to add; the
    entry is then the int 0, which has no [mag]: AttributeError (raised a
    little later in the code). *)
Definition entry_itv (o : operand) : M itv :=
  match o with OItv e => mret e | ONum _ => mraise AttributeError end.
Definition mat_vec (A : aitv) (x : arr pynum) : M aitv :=
  p <- matmul (op_arr A) (amap ONum x) ;; lift_arr (amapM entry_itv p).

(** numpy arithmetic of two arrays of numbers. *)
Definition np_sub : arr pynum -> arr pynum -> M (arr pynum) := binop_arr sub_.
Definition np_mul : arr pynum -> arr pynum -> M (arr pynum) := binop_arr mul_.
(** [np.min] of all elements: NaN as soon as one element is NaN, ValueError
    when there is none. *)
Definition np_min (a : arr pynum) : res pynum :=
  match adata a with
  | [] => Err ValueError
  | v :: l => if existsb is_nan_num (v :: l) then Ok (PFlt fnan) else Ok (fold_left num_min2 l v)
  end.

(** Tol.py:13-16: [weight * (b.rad - (b.mid - A @ x).mag)]; the subtraction of
    the interval array from the numpy array is [ArrayInterval.__array_ufunc__]
    (real_intervals.py:327-328). *)
Definition tol_constituent_fl (A b : aitv) (x weight : arr pynum) : M (arr pynum) :=
  r <- arr_rad b ;; c <- arr_mid b ;; Ax <- mat_vec A x ;;
  D <- np_arr_right OpSub (amap ONum c) Ax ;; g <- arr_mag D ;;
  d <- np_sub r g ;; np_mul weight d.
(** Tol.py:20-21 *)
Definition tol_value_fl (A b : aitv) (x weight : arr pynum) : M pynum :=
  t <- tol_constituent_fl A b x weight ;; mlift (np_min t).

(** Uni.py:13-16: the same with [mig]. *)
Definition uni_constituent_fl (A b : aitv) (x weight : arr pynum) : M (arr pynum) :=
  r <- arr_rad b ;; c <- arr_mid b ;; Ax <- mat_vec A x ;;
  D <- np_arr_right OpSub (amap ONum c) Ax ;; g <- arr_mig D ;;
  d <- np_sub r g ;; np_mul weight d.
(** Uni.py:20-21 *)
Definition uni_value_fl (A b : aitv) (x weight : arr pynum) : M pynum :=
  t <- uni_constituent_fl A b x weight ;; mlift (np_min t).

(** The default weights: [np.ones(len(b))] (Tol.py:14-15). *)
Definition np_ones (r : nat) : arr pynum := mkarr [r] (repeat pn1 r).
