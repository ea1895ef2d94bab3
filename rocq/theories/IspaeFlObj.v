(** The objectives of ISPAE with the monomial basis in binary64, and its fit. *)
From Coq Require Import ZArith List Bool.
From Flocq Require Import Core IEEE754.BinarySingleNaN.
From Verif Require Models.
From Verif Require Import Base PyNum Kernel Expr Arrays Construct UssFl Ralgb5 RecogOpt WilsFl IspaeFl.
Import ListNotations.

(** One observation: the columns of the row (with the bias), the target interval
    and the weight (after the smoothing of ISPAE.py:351-353). *)
Definition observation : Type := ((list (nat * (flt * flt)) * itv) * flt)%type.
(** ISPAE.py:357-363 *)
Inductive ispae_objective : Type := ITol | IUni.
Section Objective.
(** numpy's roots of the derivative, as in IspaeFl.v, and [np.sum] *)
Variable roots : list flt -> list flt.
Variable csum : list flt -> flt.
Variable o : ispae_objective.
(** ISPAE.py:179-185 and 227-229, one observation.  [ym - value] is the
    [__rsub__] of the interval (real_intervals.py:327-328, pyx:496-503). *)
Definition ispae_residual (beta : list flt) (r : observation) : M flt :=
  let '((cols, y), w) := r in
  V <- value_fl roots beta cols ;; c <- mid y ;; q0 <- rad y ;; D <- py_sub (ONum c) V ;;
  i <- mlift (to_double (lo D)) ;; s <- mlift (to_double (hi D)) ;; q <- mlift (to_double q0) ;;
  mret (fmul mode_NE w (fsub mode_NE q (match o with ITol => f_max (fabs i) (fabs s) | IUni => f_mig i s end))).
Variable nm : Models.norm.
(** ISPAE.py:45-69, 187, 231: the objective before the sign is changed *)
Definition ispae_value (beta : list flt) (rows : list observation) : M flt :=
  l <- mapM (ispae_residual beta) rows ;; p <- mlift (wrap_norm_fl csum nm (mkarr [length l] (map PFlt l))) ;; mret (fst p).
(** ISPAE.py:356-374: the coefficients and the value reported.  The subgradient
    is an argument; it only steers the search.  NaN where the source raises. *)
Definition ispae_fit_fl (W : vops) (P : params (ops_of W)) (grad : list flt -> list flt) (rows : list observation) (x0 : list flt) : list flt * flt :=
  let r := fst (ralgb5 (ops_of W) P (fun b => (match fst (ispae_value b rows mode_NE) with Ok v => fneg v | Err _ => fnan end, grad b)) (length x0) x0) in
  (r_x _ r, fneg (r_f _ r)).
End Objective.
