(** Rohn (linear/Rohn.py) as a whole: the choice of the branch, and the
    tolerable branch with the value Tol.maximize reports on doubles. *)
From Coq Require Import ZArith Reals List Bool Arith String.
From Flocq Require Import Core IEEE754.BinarySingleNaN.
From Verif Require Import Base PyNum Kernel Spec Expr Arrays Construct Exact Estim RecogFl RohnFl Ralgb5 RecogOpt.
Import ListNotations.

(** The ends [A.a], [A.b], [b.a], [b.b] as real numbers (Rohn.py:27-35): copying
    and negating doubles is exact. *)
Definition end_mat (A : aitv) : imat := fun i j =>
  match aget (adat A) [i; j] with Some e => mkr (num_val (lo e)) (num_val (hi e)) | None => mkr 0 0 end.
Definition end_vec (b : aitv) : ivec := fun i =>
  match aget (adat b) [i] with Some e => mkr (num_val (lo e)) (num_val (hi e)) | None => mkr 0 0 end.

(** Rohn.py:45-61 with nu = None (line 121).  The source calls Tol.maximize with
    its default parameters and starting point; here both are arguments.  The
    answers of the solver and their differences (Rohn.py:40-41) are real numbers.
    [None]: an exception is raised. *)
Definition rohn_tol_fl (fdot : list (flt * flt) -> flt) (W : vops) (P : params (ops_of W)) (lp : lp_solver) (A b : aitv) (x0 : list flt) : option (list rit) :=
  match shp A with
  | [r; n] =>
      let v := snd (tol_maximize_fl fdot W P A b (np_ones r) x0) in
      if flt_ltb v f0 then None else all_some (map (rt_algo lp r n (end_mat A) (end_vec b)) (seq 0 n))
  | _ => None
  end.

(** Rohn.py:118-123: what the call runs. *)
Inductive rohn_branch : Type := RunUni | RunTol | RunRaise.
Definition rohn_choice (consistency : string) : rohn_branch :=
  if String.eqb consistency "uni" then RunUni else if String.eqb consistency "tol" then RunTol else RunRaise.
(** Rohn.py:92-123: a box on doubles, a box of real numbers, or an exception. *)
Definition rohn (inv : arr flt -> res (arr flt)) (fdot : list (flt * flt) -> flt) (W : vops) (P : params (ops_of W)) (lp : lp_solver)
  (A b : aitv) (tol : flt) (maxiter : Z) (consistency : string) (x0 : list flt) : option (M aitv + list rit) :=
  match rohn_choice consistency with
  | RunUni => Some (inl (rohn_fl inv fdot A b tol maxiter))
  | RunTol => option_map inr (rohn_tol_fl fdot W P lp A b x0)
  | RunRaise => None
  end.
