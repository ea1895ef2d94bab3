(** Model of the branch of nonlinear/external_evaluation.py for several unknowns:
    the function and the Jacobian return interval arrays. *)
From Coq Require Import ZArith List Bool.
From Verif Require Import Base PyNum Kernel Expr Arrays Construct.
Import ListNotations.
Open Scope nat_scope.

(** ArrayInterval.to_float, real_intervals.py:59-60: the scalar classes of
    interval_arithmetics.pyx have no attribute [to_float]. *)
Definition arr_to_float (x : aitv) : M aitv := lift_arr (vectorize (fun _ => mraise AttributeError) (adat x)).

Section Vector.
(** The user's function and Jacobian; [rest_op]: what follows external_evaluation.py:26 (66) in HS (K),
    given X, c, L and [L.to_float()]; [rest_loop]: what follows the call of HS (K) in
    the loop, given its value. *)
Variable func : aitv -> M aitv.
Variable J : aitv -> M aitv.
Variable rest_op : aitv -> aitv -> aitv -> aitv -> M aitv.
Variable rest_loop : aitv -> M aitv.

(** HS, external_evaluation.py:11-12, 25-31 *)
Definition hs_vec (X c : aitv) : M aitv := L <- J X ;; F <- arr_to_float L ;; rest_op X c L F.
(** K, external_evaluation.py:55-56, 64-70; external_evaluation.py:65 unpacks the shape into two names *)
Definition kraw_vec (X c : aitv) : M aitv :=
  L <- J X ;;
  if length (shp L) =? 2 then F <- arr_to_float L ;; rest_op X c L F else mraise ValueError.
(** [asinterval(result.mid)], external_evaluation.py:38, 77 *)
Definition mid_arr (X : aitv) : M aitv := v <- arr_mid X ;; lift_arr (amapM (fun r => single_interval r r false false) v).
(** external_evaluation.py:33-50, 72-90: the check, the centre, and the loop entered when [enter]
    says that the counter allows an iteration; the error starts at infinity. *)
Definition newton_vec (op : aitv -> aitv -> M aitv) (enter : bool) (tol : pynum) (x0 : aitv) : M aitv :=
  F <- func x0 ;;
  found <- mlift (arr_contains_scalar F (ONum (PInt 0))) ;;
  if found : bool then
    c <- mid_arr x0 ;;
    if enter && num_lt tol (PFlt finf) then z <- op x0 c ;; rest_loop z else mret x0
  else mraise GenericException.
(** external_evaluation.py:53-90: [nit <= maxiter] with [nit = 0] *)
Definition krawczyk_vec (x0 : aitv) (maxiter : Z) (tol : pynum) : M aitv := newton_vec kraw_vec (0 <=? maxiter)%Z tol x0.
(** external_evaluation.py:9-50: [nit < maxiter] *)
Definition hansen_sengupta_vec (x0 : aitv) (maxiter : Z) (tol : pynum) : M aitv := newton_vec hs_vec (0 <? maxiter)%Z tol x0.
End Vector.
