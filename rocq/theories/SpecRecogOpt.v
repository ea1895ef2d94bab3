(** Vocabulary for statements about maximize in binary64. *)
From Coq Require Import ZArith Reals List.
From Verif Require Import Spec SpecArray PyNum Arrays Base Ralgb5 RecogOpt.
Import ListNotations.

(** A numpy vector of doubles. *)
Definition point (x : list flt) : arr pynum := mkarr [length x] (map PFlt x).
(** The double [v] is the least element of the array [T]. *)
Definition least (T : arr pynum) (v : flt) : Prop :=
  In (PFlt v) (adata T) /\ forall u, In u (adata T) -> num_le (PFlt v) u = true.
(** [r] weights, all of them 1. *)
Definition ones (r : nat) (w : arr pynum) : Prop :=
  awf w /\ ashape w = [r] /\ Forall (fun v => small_num v /\ finite_num v /\ num_val v = 1%R) (adata w).
(** The default keyword arguments of ralgb5 (ralgb5.py:3): three times 1e-12,
    2000, 2.3, 30, 1, 3, 0.9, 1.1. *)
Definition default_params (W : vops) : params (ops_of W) :=
  let tol : flt := fl 4951760157141521%Z (-92)%Z in
  mkparams (ops_of W) tol tol tol 2000%Z (fl 5179139571476070%Z (-51)%Z) 29 f1 3 (fl 8106479329266893%Z (-53)%Z) (fl 4953959590107546%Z (-52)%Z).
