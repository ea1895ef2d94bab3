(** maximize of Tol, Uni and Uss in binary64 with a linear constraint. *)
From Coq Require Import ZArith List Bool Arith.
From Flocq Require Import Core IEEE754.BinarySingleNaN.
From Verif Require Import Base PyNum Arrays Construct UssFl Ralgb5 RecogOpt.
Import ListNotations.

Section Penalty.
(** [C[i] @ x] and [np.sum]: numpy may evaluate both in any order. *)
Variables (cdot : list flt -> list flt -> flt) (csum : list flt -> flt).
(** A row of the constraint with its bound: C x <= b (abstract.py:206-246). *)
Variables (mu : flt) (rows : list (list flt * flt)).
(** abstract.py:248-250, largeCondQ *)
Definition beyond (x : list flt) (row : list flt * flt) : bool := flt_ltb (snd row) (cdot (fst row) x).
(** abstract.py:23-25, one element of arr_p *)
Definition excess_fl (x : list flt) (row : list flt * flt) : flt :=
  if beyond x row then fsub mode_NE (cdot (fst row) x) (snd row) else f0.
(** abstract.py:23-26, one element of arr_dp *)
Definition part_fl (x : list flt) (k : nat) (row : list flt * flt) : flt := if beyond x row then nth k (fst row) f0 else f0.
(** abstract.py:29-31 *)
Definition penalty_fl (x : list flt) : flt * list flt :=
  (fmul mode_NE mu (csum (map (excess_fl x) rows)),
   map (fun k => fmul mode_NE mu (csum (map (part_fl x k) rows))) (seq 0 (length x))).
(** Tol.py:40-45, Uni.py:44-49, Uss.py:34-39 *)
Definition objective_con (con : arr pynum -> M (arr pynum)) (grad : nat -> list flt -> M (list flt)) (x : list flt) : flt * list flt :=
  let (p, dp) := penalty_fl x in
  let (f, g) := objective con grad x in (fadd mode_NE f p, l_map2 (fadd mode_NE) g dp).
(** abstract.py:57 and 74, for an object that has its mu, and Tol.py:48-58
    (Uni.py:52-62, Uss.py:42-52) *)
Definition maximize_con (W : vops) (P : params (ops_of W)) (con : arr pynum -> M (arr pynum)) (grad : nat -> list flt -> M (list flt))
  (x0 : list flt) : list flt * flt :=
  let r := fst (ralgb5 (ops_of W) P (objective_con con grad) (length x0) x0) in
  (r_x _ r, fneg (r_f _ r)).
Variable fdot : list (flt * flt) -> flt.
(** Tol.py:48-58 *)
Definition tol_maximize_con (W : vops) (P : params (ops_of W)) (A b : aitv) (weight : arr pynum) (x0 : list flt) : list flt * flt :=
  maximize_con W P (fun x => tol_calc fdot A b x weight) (ends_grad fdot true A b weight) x0.
(** Uni.py:52-62 *)
Definition uni_maximize_con (W : vops) (P : params (ops_of W)) (A b : aitv) (weight : arr pynum) (x0 : list flt) : list flt * flt :=
  maximize_con W P (fun x => uni_calc fdot A b x weight) (ends_grad fdot false A b weight) x0.
(** Uss.py:42-52 *)
Definition uss_maximize_con (W : vops) (P : params (ops_of W)) (A b : aitv) (weight : arr pynum) (x0 : list flt) : list flt * flt :=
  maximize_con W P (fun x => uss_calc fdot A b x weight) (uss_grad fdot A b weight) x0.
End Penalty.
