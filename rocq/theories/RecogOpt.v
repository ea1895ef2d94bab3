(** Tol.maximize, Uni.maximize and Uss.maximize in binary64: the optimizer is
    not run on Tol.value and so on but on the calcfg methods, which recompute
    the functional from midpoints and radii with numpy on doubles. *)
From Coq Require Import ZArith List Bool Arith.
From Flocq Require Import Core IEEE754.BinarySingleNaN.
From Verif Require Import Base PyNum Kernel Expr Arrays Construct RecogFl HbrFl RohnFl UssFl Ralgb5.
Import ListNotations.

(** [np.maximum] of two doubles: NaN as soon as one of them is (Tol.py:31). *)
Definition f_max (a b : flt) : flt := if is_nan a then a else if is_nan b then b else if flt_ltb a b then b else a.
(** Uni.py:32: [0.0 if inf*sup <= 0 else min(abs(inf), abs(sup))]; Python's
    [min] gives the first one unless the second one is less. *)
Definition f_mig (i s : flt) : flt :=
  if flt_leb (fmul mode_NE i s) f0 then f0 else if flt_ltb (fabs s) (fabs i) then fabs s else fabs i.
(** [a >= 0], Tol.py:26 (NaN is not) *)
Definition nonneg (a : flt) : bool := flt_leb f0 a.

(** [np.argmin]: the first NaN, else the first of the least elements; ValueError
    when there is none (Tol.py:32, Uni.py:36, Uss.py:29). *)
Fixpoint arg_from (i best : nat) (bv : pynum) (l : list pynum) : nat :=
  match l with
  | [] => best
  | v :: l' => if is_nan_num bv then best
               else if is_nan_num v || num_lt v bv then arg_from (S i) i v l' else arg_from (S i) best bv l'
  end.
Definition np_argmin (a : arr pynum) : res nat :=
  match adata a with [] => Err ValueError | v :: l => Ok (arg_from 1 0 v l) end.

Section Calc.
Variable fdot : list (flt * flt) -> flt.

(** abstract.py:41-43 and Tol.py:27-30 (Uni.py:27-30): [bm - (Am_x + Ar_absx)],
    [bm - (Am_x - Ar_absx)] and [br].  The model takes the midpoints and radii
    at every call; the source takes them once. *)
Definition calc_parts (A b : aitv) (x : arr pynum) : M (arr flt * arr flt * arr flt) :=
  match shp A, ashape x with
  | [r; n], [k] =>
      C0 <- arr_mid A ;; C <- f_of C0 ;; G0 <- arr_rad A ;; G <- f_of G0 ;;
      c0 <- arr_mid b ;; c <- f_of c0 ;; q0 <- arr_rad b ;; q <- f_of q0 ;;
      if negb (n =? k) then mraise ValueError else
      y <- f_of x ;;
      u <- f_bin fadd (f_mv fdot r n C y) (f_mv fdot r n G (amap fabs y)) ;; i <- f_bin fsub c u ;;
      v <- f_bin fsub (f_mv fdot r n C y) (f_mv fdot r n G (amap fabs y)) ;; s <- f_bin fsub c v ;;
      mret (i, s, q)
  | _, _ => mraise ValueError
  end.
(** Tol.py:31 *)
Definition tol_calc (A b : aitv) (x weight : arr pynum) : M (arr pynum) :=
  p <- calc_parts A b x ;;
  let '(i, s, q) := p in
  g <- f_bin (fun _ => f_max) (amap fabs i) (amap fabs s) ;; d <- f_bin fsub q g ;; np_mul weight (amap PFlt d).
(** Uni.py:31-35 *)
Definition uni_calc (A b : aitv) (x weight : arr pynum) : M (arr pynum) :=
  p <- calc_parts A b x ;;
  let '(i, s, q) := p in
  g <- f_bin (fun _ => f_mig) i s ;; d <- f_bin fsub q g ;; np_mul weight (amap PFlt d).
(** Uss.py:27-28, the expression of Uss.py:16 *)
Definition uss_calc : aitv -> aitv -> arr pynum -> arr pynum -> M (arr pynum) := uss_constituent_fl fdot.

(** [inf(A)] and [sup(A)] as doubles, row [mc] (abstract.py:41) *)
Definition end_row (f : itv -> pynum) (A : aitv) (mc k : nat) : res flt :=
  match aget (adat A) [mc; k] with Some e => to_double (f e) | None => Err IndexError end.
(** [lA * index + uA * (~index)] for one component (Tol.py:34, 36; Uni.py:38, 40) *)
Definition by_sign (a l u : flt) : flt :=
  fadd mode_NE (fmul mode_NE l (if nonneg a then f1 else f0)) (fmul mode_NE u (if nonneg a then f0 else f1)).
Fixpoint res_map {X Y} (f : X -> res Y) (l : list X) : res (list Y) :=
  match l with [] => Ok [] | a :: l' => v <~ f a ;; t <~ res_map f l' ;; Ok (v :: t) end.
(** Tol.py:33-36 and, with the ends exchanged, Uni.py:37-40 *)
Definition ends_grad (tol : bool) (A b : aitv) (weight : arr pynum) (mc : nat) (x : list flt) : M (list flt) :=
  p <- calc_parts A b (mkarr [length x] (map PFlt x)) ;;
  let '(i, s, _) := p in
  w <- mlift (match aget weight [mc] with Some v => to_double v | None => Err IndexError end) ;;
  let up := flt_leb (fneg (f_get i [mc])) (f_get s [mc]) in
  mlift (res_map (fun k =>
    l <~ end_row (if Bool.eqb up tol then lo else hi) A mc k ;; u <~ end_row (if Bool.eqb up tol then hi else lo) A mc k ;;
    Ok (fmul mode_NE (if up then w else fneg w) (by_sign (nth k x f0) l u))) (seq 0 (length x))).
(** [np.sign] of a double *)
Definition f_sign (a : flt) : flt := if is_nan a then a else if flt_ltb f0 a then f1 else if flt_ltb a f0 then fneg f1 else f0.
(** Uss.py:26-30 *)
Definition uss_grad (A b : aitv) (weight : arr pynum) (mc : nat) (x : list flt) : M (list flt) :=
  match shp A with
  | [r; n] =>
      C0 <- arr_mid A ;; C <- f_of C0 ;; G0 <- arr_rad A ;; G <- f_of G0 ;; c0 <- arr_mid b ;; c <- f_of c0 ;;
      w <- mlift (match aget weight [mc] with Some v => to_double v | None => Err IndexError end) ;;
      let e := f_sign (fsub mode_NE (f_get c [mc]) (f_row fdot n (fun l => f_get C [mc; l]) (fun l => nth l x f0))) in
      mret (map (fun k => fmul mode_NE w (fadd mode_NE (fmul mode_NE (f_sign (nth k x f0)) (f_get G [mc; k])) (fmul mode_NE e (f_get C [mc; k])))) (seq 0 n))
  | _ => mraise ValueError
  end.
End Calc.

(** [return -tol[mc], -dtol] (Tol.py:37, Uni.py:41, Uss.py:31) for the
    constituents [con] and the subgradient [grad].  Where the source raises an
    exception this returns NaN. *)
Definition objective (con : arr pynum -> M (arr pynum)) (grad : nat -> list flt -> M (list flt)) (x : list flt) : flt * list flt :=
  match fst ((T <- con (mkarr [length x] (map PFlt x)) ;; mc <- mlift (np_argmin T) ;;
                 t <- mlift (match nth_error (adata T) mc with Some v => to_double v | None => Err IndexError end) ;;
                 g <- grad mc x ;; mret (t, g)) mode_NE) with
  | Ok (t, g) => (fneg t, map fneg g)
  | Err _ => (fnan, [])
  end.

(** The operations of the optimizer on vectors and matrices of doubles: numpy
    may evaluate the sums in any order.  [flt_ops] is one choice.
    (for ralgb5.py:100-193) *)
Record vops : Type := mkvops {
  w_mtx : Type; w_norm : list flt -> flt; w_dot : list flt -> list flt -> flt; w_sub : list flt -> list flt -> list flt;
  w_scale : flt -> list flt -> list flt; w_div : list flt -> flt -> list flt; w_eye : nat -> w_mtx;
  w_tv : w_mtx -> list flt -> list flt; w_v : w_mtx -> list flt -> list flt; w_dilate : w_mtx -> flt -> list flt -> w_mtx }.
Definition ops_of (W : vops) : ops :=
  mkops flt (list flt) (w_mtx W) flt_ltb (fadd mode_NE) (fsub mode_NE) (fmul mode_NE) (fdiv mode_NE) fabs f0 f1 finf
    (w_norm W) (w_dot W) (w_sub W) (w_scale W) (w_div W) (w_eye W) (w_tv W) (w_v W) (w_dilate W).
Definition flt_vops : vops :=
  mkvops (list (list flt)) (v_norm flt_ops) l_dot (v_sub flt_ops) (v_scale flt_ops) (v_div flt_ops) (m_eye flt_ops) l_tv l_mv (m_dilate flt_ops).

(** abstract.py:74 and Tol.py:48-58 (Uni.py:52-62, Uss.py:42-52): the point and
    the value returned by maximize without a constraint.  The starting point is
    any point. *)
Definition maximize_fl (W : vops) (P : params (ops_of W)) (con : arr pynum -> M (arr pynum)) (grad : nat -> list flt -> M (list flt))
  (x0 : list flt) : list flt * flt :=
  let r := fst (ralgb5 (ops_of W) P (objective con grad) (length x0) x0) in
  (r_x _ r, fneg (r_f _ r)).
Definition tol_maximize_fl (fdot : list (flt * flt) -> flt) (W : vops) (P : params (ops_of W)) (A b : aitv) (weight : arr pynum) (x0 : list flt) : list flt * flt :=
  maximize_fl W P (fun x => tol_calc fdot A b x weight) (ends_grad fdot true A b weight) x0.
Definition uni_maximize_fl (fdot : list (flt * flt) -> flt) (W : vops) (P : params (ops_of W)) (A b : aitv) (weight : arr pynum) (x0 : list flt) : list flt * flt :=
  maximize_fl W P (fun x => uni_calc fdot A b x weight) (ends_grad fdot false A b weight) x0.
Definition uss_maximize_fl (fdot : list (flt * flt) -> flt) (W : vops) (P : params (ops_of W)) (A b : aitv) (weight : arr pynum) (x0 : list flt) : list flt * flt :=
  maximize_fl W P (fun x => uss_calc fdot A b x weight) (uss_grad fdot A b weight) x0.
