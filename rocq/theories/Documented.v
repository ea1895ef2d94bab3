(** The model run on the examples that /repo documents: the assertions of
    test/test_basic.py and test/interval_properties.py, the outputs printed in
    doc/src/*.rst, and those of test/optimization/intvalpy_result.txt.  These
    are tests of the model, not proofs.  The first two lists are generated by
    /verif/tools/mkdocumented.py. *)
From Coq Require Import ZArith List Bool.
From Flocq Require Import IEEE754.BinarySingleNaN.
From Verif Require Import Base PyNum Kernel Expr Arrays Construct Slices Solvers RecogFl.
Import ListNotations.
Open Scope Z_scope.

Definition F (m e : Z) : pynum := PFlt (fl m e).
Definition Zf : pynum := PFlt f0.
Inductive arg : Type := I (l r : pynum) (sortQ : bool) | N (v : pynum).
Definition value (x : arg) : M operand :=
  match x with I l r q => e <- single_interval l r q false ;; mret (OItv e) | N v => mret (ONum v) end.
Inductive attribute : Set := Aa | Ainf | Ab | Asup | Awid | Arad | Amid | Amig | Amag | Adual | Apro | Aopp | Ainv.
Definition attr (t : attribute) (s : itv) : M operand :=
  let num (c : M pynum) := v <- c ;; mret (ONum v) in
  let iv (c : M itv) := v <- c ;; mret (OItv v) in
  match t with
  | Aa | Ainf => num (mret (lo s)) | Ab | Asup => num (mret (hi s))
  | Awid => num (wid s) | Arad => num (rad s) | Amid => num (mid s)
  | Amig => num (v <- mig s ;; mret (PFlt v)) | Amag => num (v <- mag s ;; mret (PFlt v))
  | Adual => iv (mret (dual s)) | Apro => iv (mret (pro s)) | Aopp => iv (mret (opp s)) | Ainv => iv (inv s)
  end.
(** Of the C library only [pow] with exponents 2 and 3 is needed: here the
    exact power rounded once in the current mode. *)
Definition exact_pow (m : rmode) (x y : flt) : res flt :=
  let z := match y with B754_finite false k 0 _ => Z.pos k | B754_finite false k e _ => Z.pos k / 2 ^ (- e) | _ => 0 end in
  match x with
  | B754_finite s k e _ =>
      Ok (BinarySingleNaN.binary_normalize 53 1024 _ _ m ((if s then Z.neg k else Z.pos k) ^ z) (e * z) false)
  | B754_zero _ => Ok f0
  | _ => Err NotImplementedError
  end.
Definition none : libm :=
  Build_libm (fun _ _ => fnan) (fun _ _ => fnan) (fun _ _ => fnan) (fun _ _ => fnan) exact_pow.
Inductive assertion : Type :=
| Bin (op : operand -> operand -> M itv) (x y want : arg)
| Pow (x : arg) (n : pynum) (want : arg)
| Att (t : attribute) (x want : arg).
Definition eqv (x y : operand) : bool :=
  match x, y with
  | OItv e, o => py_eq e o
  | ONum a, ONum b => num_eq a b
  | ONum _, OItv _ => false
  end.
Definition left_value (c : assertion) : M operand :=
  match c with
  | Bin op x y _ => a <- value x ;; b <- value y ;; r <- op a b ;; mret (OItv r)
  | Pow x n _ => a <- value x ;; match a with OItv e => r <- itv_pow none e n ;; mret (OItv r) | ONum _ => mraise TypeError end
  | Att t x _ => a <- value x ;; match a with OItv e => attr t e | ONum _ => mraise AttributeError end
  end.
Definition want (c : assertion) : arg := match c with Bin _ _ _ w | Pow _ _ w | Att _ _ w => w end.
Definition holds (c : assertion) : bool :=
  match fst ((l <- left_value c ;; r <- value (want c) ;; mret (eqv l r)) mode_NE) with Ok b => b | Err _ => false end.

(** test/test_basic.py:10-68 *)
Definition basic : list assertion := [
  Bin py_add (I (PInt (1)) (PInt (2)) true) (N (PInt (2))) (I (PInt (3)) (PInt (4)) true);
  Bin py_add (N (PInt (-1))) (I (PInt (-2)) (PInt (1)) true) (I (PInt (-3)) (PInt (0)) true);
  Bin py_add (I (PInt (1)) (PInt (2)) true) (I (PInt (-2)) (PInt (3)) true) (I (PInt (-1)) (PInt (5)) true);
  Bin py_add (I (PInt (1)) (PInt (2)) true) (I (PInt (3)) (PInt (-2)) false) (I (PInt (4)) (PInt (0)) false);
  Bin py_add (I (PInt (2)) (PInt (1)) false) (N (PInt (2))) (I (PInt (4)) (PInt (3)) false);
  Bin py_add (N (PInt (-1))) (I (PInt (1)) (PInt (-2)) false) (I (PInt (0)) (PInt (-3)) false);
  Bin py_add (I (PInt (3)) (PInt (-2)) false) (I (PInt (-1)) (PInt (2)) true) (I (PInt (2)) (PInt (0)) false);
  Bin py_add (I (PInt (3)) (PInt (-2)) false) (I (PInt (2)) (PInt (-1)) false) (I (PInt (5)) (PInt (-3)) false);
  Bin py_sub (I (PInt (1)) (PInt (2)) true) (N (PInt (2))) (I (PInt (-1)) (PInt (0)) true);
  Bin py_sub (N (PInt (-1))) (I (PInt (-2)) (PInt (1)) true) (I (PInt (-2)) (PInt (1)) true);
  Bin py_sub (I (PInt (1)) (PInt (2)) true) (I (PInt (-2)) (PInt (3)) true) (I (PInt (-2)) (PInt (4)) true);
  Bin py_sub (I (PInt (1)) (PInt (2)) true) (I (PInt (3)) (PInt (-2)) false) (I (PInt (3)) (PInt (-1)) false);
  Bin py_sub (I (PInt (2)) (PInt (1)) false) (N (PInt (2))) (I (PInt (0)) (PInt (-1)) false);
  Bin py_sub (N (PInt (-1))) (I (PInt (1)) (PInt (-2)) false) (I (PInt (1)) (PInt (-2)) false);
  Bin py_sub (I (PInt (3)) (PInt (-2)) false) (I (PInt (-1)) (PInt (2)) true) (I (PInt (1)) (PInt (-1)) false);
  Bin py_sub (I (PInt (3)) (PInt (-2)) false) (I (PInt (2)) (PInt (-1)) false) (I (PInt (4)) (PInt (-4)) false);
  Bin py_mul (I (PInt (1)) (PInt (2)) true) (N (PInt (2))) (I (PInt (2)) (PInt (4)) true);
  Bin py_mul (N (PInt (-1))) (I (PInt (-2)) (PInt (1)) true) (I (PInt (-1)) (PInt (2)) true);
  Bin py_mul (I (PInt (1)) (PInt (2)) true) (I (PInt (-2)) (PInt (3)) true) (I (PInt (-4)) (PInt (6)) true);
  Bin py_mul (I (PInt (1)) (PInt (2)) true) (I (PInt (3)) (PInt (-2)) false) (I (PInt (3)) (PInt (-2)) false);
  Bin py_mul (I (PInt (2)) (PInt (1)) false) (N (PInt (2))) (I (PInt (4)) (PInt (2)) false);
  Bin py_mul (N (PInt (-1))) (I (PInt (1)) (PInt (-2)) false) (I (PInt (2)) (PInt (-1)) false);
  Bin py_mul (I (PInt (3)) (PInt (-2)) false) (I (PInt (-1)) (PInt (2)) true) (I (PInt (0)) (PInt (0)) false);
  Bin py_mul (I (PInt (3)) (PInt (-2)) false) (I (PInt (2)) (PInt (-1)) false) (I (PInt (6)) (PInt (-4)) false);
  Bin py_div (I (PInt (1)) (PInt (2)) true) (N (PInt (2))) (I (F (1) (-1)) (PInt (1)) true);
  Bin py_div (N (PInt (-1))) (I (PInt (-2)) (PInt (-1)) true) (I (F (1) (-1)) (PInt (1)) true);
  Bin py_div (I (PInt (1)) (PInt (2)) true) (I (PInt (4)) (PInt (2)) false) (I (F (1) (-1)) (F (1) (-1)) false);
  Bin py_div (I (PInt (2)) (PInt (1)) false) (N (PInt (2))) (I (PInt (1)) (F (1) (-1)) false);
  Bin py_div (N (PInt (-1))) (I (PInt (-1)) (PInt (-2)) false) (I (PInt (1)) (F (1) (-1)) false);
  Bin py_div (I (PInt (3)) (PInt (-2)) false) (I (PInt (-1)) (PInt (-2)) true) (I (PInt (1)) (F (-3) (-1)) false);
  Bin py_div (I (PInt (3)) (PInt (-2)) false) (I (PInt (2)) (PInt (1)) false) (I (PInt (3)) (PInt (-2)) false);
  Pow (I (PInt (-2)) (PInt (3)) true) (PInt (2)) (I (PInt (0)) (PInt (9)) true);
  Pow (I (PInt (2)) (PInt (3)) true) (PInt (2)) (I (PInt (4)) (PInt (9)) true);
  Pow (I (PInt (-3)) (PInt (-2)) true) (PInt (2)) (I (PInt (4)) (PInt (9)) true);
  Pow (I (PInt (-2)) (PInt (3)) true) (PInt (3)) (I (PInt (-8)) (PInt (27)) true);
  Pow (I (PInt (2)) (PInt (3)) true) (PInt (3)) (I (PInt (8)) (PInt (27)) true);
  Pow (I (PInt (-3)) (PInt (-2)) true) (PInt (3)) (I (PInt (-27)) (PInt (-8)) true);
  Pow (I (PInt (3)) (PInt (-2)) false) (PInt (2)) (I (PInt (9)) (PInt (0)) false);
  Pow (I (PInt (3)) (PInt (2)) false) (PInt (2)) (I (PInt (9)) (PInt (4)) false);
  Pow (I (PInt (-2)) (PInt (-3)) false) (PInt (2)) (I (PInt (4)) (PInt (9)) false);
  Pow (I (PInt (3)) (PInt (-2)) false) (PInt (3)) (I (PInt (27)) (PInt (-8)) false);
  Pow (I (PInt (3)) (PInt (2)) false) (PInt (3)) (I (PInt (27)) (PInt (8)) false);
  Pow (I (PInt (-2)) (PInt (-3)) false) (PInt (3)) (I (PInt (-8)) (PInt (-27)) false)].
Example test_basic : forallb holds basic = true.
Proof. vm_cast_no_check (eq_refl true). Qed.
(** test/test_basic.py:45 asserts [Interval(1, 2) / Interval(2, 5) ==
    Interval(0.2, 1)].  The pinned code computes the reciprocal 1/5 rounded
    downwards, which is below the double 0.2, so this assertion does not hold
    of it; the lower endpoint is the double just below. *)
Example test_div_inexact :
  holds (Bin py_div (I (PInt 1) (PInt 2) true) (I (PInt 2) (PInt 5) true) (I (F 3602879701896397 (-54)) (PInt 1) true)) = false /\
  holds (Bin py_div (I (PInt 1) (PInt 2) true) (I (PInt 2) (PInt 5) true) (I (F 7205759403792793 (-55)) (PInt 1) true)) = true.
Proof. split; vm_compute; reflexivity. Qed.

(** test/interval_properties.py:10-97, the assertions on single intervals *)
Definition attributes : list assertion := [
  Att Aa (I (PInt (-2)) (PInt (3)) true) (N (PInt (-2)));
  Att Aa (I (PInt (3)) (PInt (-2)) false) (N (PInt (3)));
  Att Ainf (I (PInt (-2)) (PInt (3)) true) (N (PInt (-2)));
  Att Ainf (I (PInt (3)) (PInt (-2)) false) (N (PInt (3)));
  Att Ab (I (PInt (-2)) (PInt (3)) true) (N (PInt (3)));
  Att Ab (I (PInt (3)) (PInt (-2)) false) (N (PInt (-2)));
  Att Asup (I (PInt (-2)) (PInt (3)) true) (N (PInt (3)));
  Att Asup (I (PInt (3)) (PInt (-2)) false) (N (PInt (-2)));
  Att Awid (I (PInt (2)) (PInt (4)) true) (N (PInt (2)));
  Att Awid (I (PInt (1)) (PInt (-2)) false) (N (PInt (-3)));
  Att Arad (I (PInt (2)) (PInt (4)) true) (N (PInt (1)));
  Att Arad (I (PInt (1)) (PInt (-2)) false) (N (F (-3) (-1)));
  Att Amid (I (PInt (2)) (PInt (4)) true) (N (PInt (3)));
  Att Amid (I (PInt (1)) (PInt (-2)) false) (N (F (-1) (-1)));
  Att Amig (I (PInt (2)) (PInt (4)) true) (N (PInt (2)));
  Att Amig (I (PInt (1)) (PInt (-2)) false) (N (PInt (1)));
  Att Amag (I (PInt (2)) (PInt (4)) true) (N (PInt (4)));
  Att Amag (I (PInt (1)) (PInt (-2)) false) (N (PInt (2)));
  Att Adual (I (PInt (-2)) (PInt (3)) true) (I (PInt (3)) (PInt (-2)) false);
  Att Adual (I (PInt (3)) (PInt (-2)) false) (I (PInt (-2)) (PInt (3)) true);
  Att Apro (I (PInt (-2)) (PInt (3)) true) (I (PInt (-2)) (PInt (3)) true);
  Att Apro (I (PInt (3)) (PInt (-2)) false) (I (PInt (-2)) (PInt (3)) true);
  Att Aopp (I (PInt (-2)) (PInt (3)) true) (I (PInt (2)) (PInt (-3)) false);
  Att Aopp (I (PInt (3)) (PInt (-2)) false) (I (PInt (-3)) (PInt (2)) true);
  Att Ainv (I (PInt (1)) (PInt (4)) true) (I (PInt (1)) (F (1) (-2)) false);
  Att Ainv (I (PInt (4)) (PInt (-2)) false) (I (F (1) (-2)) (F (-1) (-1)) false)].
Example interval_properties : forallb holds attributes = true.
Proof. vm_cast_no_check (eq_refl true). Qed.

(** Arrays are built by [Interval(inf, sup)] from float64 or int64 endpoints. *)
Definition ival (l r : pynum) : itv := match fst (single_interval l r true false mode_NE) with Ok e => e | Err _ => zero_itv end.
Definition zi (l r : Z) : itv := ival (PInt l) (PInt r).
Definition vec (l : list itv) : aitv := array_interval (mkarr [length l] l).
Definition mat (c : nat) (l : list itv) : aitv := array_interval (mkarr [(length l / c)%nat; c] l).
Definition same_itv (x y : itv) : bool := num_eq (lo x) (lo y) && num_eq (hi x) (hi y).
Definition op_is (o : operand) (y : itv) : bool := match o with OItv x => same_itv x y | ONum _ => false end.
Definition all_are {A} (f : A -> itv -> bool) (l : list A) (w : list itv) : bool :=
  Nat.eqb (length l) (length w) && forallb (fun p => f (fst p) (snd p)) (combine l w).
Definition outcome_is {A} (c : M A) (p : A -> bool) : Prop := exists r, fst (c mode_NE) = Ok r /\ p r = true.
Lemma run {A} (c : M A) (p : A -> bool) : match fst (c mode_NE) with Ok r => p r | Err _ => false end = true -> outcome_is c p.
Proof. unfold outcome_is. destruct (fst (c mode_NE)) as [r|e]; [|discriminate]. intro E. exists r. split; [reflexivity | exact E]. Qed.

(** test/test_basic.py:70-82 *)
Example test_matmul :
  let A := mat 2 [zi 2 4; zi (-2) 1; zi (-1) 2; zi 2 4] in
  let B := mat 2 [zi 1 2; zi (-7) 6; zi (-7) 6; zi 1 2] in
  let x := vec [zi (-2) 2; zi 1 2] in
  outcome_is (u <- matmul (op_arr x) (op_arr A) ;; v <- matmul u (op_arr B) ;; matmul v (op_arr x))
    (fun r => all_are op_is (adata r) [zi (-384) 400]).
Proof. apply run. vm_cast_no_check (eq_refl true). Qed.
(** doc/src/guide.rst:100-110 *)
Example guide_matmul :
  outcome_is (matmul (op_arr (mat 2 [zi (-1) 3; zi (-2) 5; zi (-7) (-4); zi (-5) 7]))
                     (op_arr (mat 2 [zi (-3) (-2); zi 4 4; zi (-7) 3; zi (-8) 0])))
    (fun r => all_are op_is (adata r) [zi (-44) 18; zi (-44) 28; zi (-41) 56; zi (-84) 24]).
Proof. apply run. vm_cast_no_check (eq_refl true). Qed.

(** Printed values carry six digits. *)
Definition rat (x : pynum) : flt := match x with PInt z => fl z 0 | PFlt f => f end.
Definition near (x y : pynum) : bool :=
  let a := rat x in let b := rat y in
  is_finite a && is_finite b &&
  flt_leb (fabs (fsub mode_NE a b)) (fmul mode_NE (fdiv mode_NE (fl 1 0) (fl 190000 0)) (fabs b)).
Definition near_itv (x y : itv) : bool := near (lo x) (lo y) && near (hi x) (hi y).
(** The decimal [m / 10^k], as Python reads it. *)
Definition dec (m k : Z) : pynum := PFlt (fdiv mode_NE (fl m 0) (fl (10 ^ k) 0)).
Definition di (l r k : Z) : itv := ival (dec l k) (dec r k).
Definition v2 (x y : itv) : nat -> itv := fun i => match i with O => x | _ => y end.
Definition m2 (a b c d : itv) : nat -> nat -> itv := fun i => match i with O => v2 a b | _ => v2 c d end.
Definition two (x : nat -> itv) : list itv := [x 0%nat; x 1%nat].

(** doc/src/linear.rst:378-381 (and example.ipynb) *)
Example linear_gauss :
  outcome_is (gauss 2 (m2 (zi 2 4) (zi (-2) 1) (zi (-1) 2) (zi 2 4)) (v2 (zi (-2) 2) (zi (-2) 2)))
    (fun r => all_are same_itv (two r) [zi (-5) 5; zi (-4) 4]).
Proof. apply run. vm_cast_no_check (eq_refl true). Qed.

(** kernel/utils.py:33-37, on the endpoints of two vectors of doubles *)
Definition cheb (x y : itv) : flt :=
  let d a b := fabs (fsub mode_NE (rat a) (rat b)) in flt_max2 (d (lo x) (lo y)) (d (hi x) (hi y)).
Definition dist_fl (n : nat) (x y : nat -> itv) : pynum :=
  PFlt (fold_left flt_max2 (map (fun i => cheb (x i) (y i)) (seq 0 n)) f0).
Definition c1em12 : pynum := dec 1 12.
(** numpy.linalg.inv of [[3, -0.5], [0.5, 3]], the midpoint matrix *)
Definition inv_mid : nat -> nat -> pynum := fun i j =>
  let q a := PFlt (fdiv mode_NE a (fl 37 (-2))) in
  match i, j with O, O => q (fl 3 0) | O, _ => q (fl 1 (-1)) | _, O => q (fl (-1) (-1)) | _, _ => q (fl 3 0) end.
Definition id2 : nat -> nat -> pynum := fun i j => if Nat.eqb i j then PFlt (fl 1 0) else Zf.
(** doc/src/linear.rst:417-423 *)
Example linear_gauss_seidel :
  outcome_is (gauss_seidel dist_fl 2 (m2 (zi 2 4) (zi (-2) 1) (zi (-1) 2) (zi 2 4)) (v2 (zi 1 2) (zi 1 2)) None inv_mid true c1em12 2000)
    (fun r => all_are near_itv (two r) [di (-106623) 125714 4; di (-110649) 124286 4]).
Proof. apply run. vm_cast_no_check (eq_refl true). Qed.
(** examples/linear_system.py:29-42 *)
Example example_gauss_seidel :
  outcome_is (gauss_seidel dist_fl 2 (m2 (zi 2 4) (zi (-2) 1) (zi (-1) 2) (zi 2 4)) (v2 (zi (-2) 2) (zi (-2) 2)) None inv_mid true c1em12 2000)
    (fun r => all_are near_itv (two r) [zi (-14) 14; zi (-14) 14]).
Proof. apply run. vm_cast_no_check (eq_refl true). Qed.
(** doc/src/linear.rst:431-435, examples/linear_system.py:45-57 *)
Definition A31 : nat -> nat -> itv := m2 (di 500 1176 3) (di (-456) 448 3) (di (-438) 596 3) (di 624 1360 3).
Definition b31 : nat -> itv := v2 (di 316 632 3) (di 270 624 3).
Example example_gauss :
  outcome_is (gauss 2 A31 b31) (fun r => all_are near_itv (two r) [di (-11094065) 13199459 6; di (-5371444) 13087127 6]).
Proof. apply run. vm_cast_no_check (eq_refl true). Qed.
Example linear_gauss_seidel_C :
  outcome_is (gauss_seidel dist_fl 2 A31 b31 None id2 true c1em12 2000)
    (fun r => all_are near_itv (two r) [di (-4266757) 6076814 6; di (-5371444) 5265456 6]).
Proof. apply run. vm_cast_no_check (eq_refl true). Qed.

(** doc/src/data_fitting.rst:69-79, 212-222 *)
Definition A69 : aitv := mat 2 [zi 2 4; zi (-1) 2; zi (-2) 1; zi 2 4].
Definition b73 : aitv := vec [zi (-2) 2; zi (-2) 2].
Definition x77 : arr pynum := mkarr [2%nat] [PInt 1; PInt 2].
Example fitting_tol : outcome_is (tol_value_fl A69 b73 x77 (np_ones 2)) (fun v => num_eq v (PInt (-7))).
Proof. apply run. vm_cast_no_check (eq_refl true). Qed.
Example fitting_uni : outcome_is (uni_value_fl A69 b73 x77 (np_ones 2)) (fun v => num_eq v (PInt 0)).
Proof. apply run. vm_cast_no_check (eq_refl true). Qed.

(** doc/src/general.rst:105-119 *)
Definition ends3 (x y z : itv) : ivres := RArr (vec [x; y; z]).
Definition same_nan (x y : itv) : bool := same_itv x y || (is_nan_num (lo x) && is_nan_num (hi x) && is_nan_num (lo y) && is_nan_num (hi y)).
Definition arr_is (r : ivres) (w : list itv) : bool := match r with RArr a => all_are same_nan (adata (adat a)) w | RItv _ => false end.
Definition nan_itv : itv := mkitv Classical (PFlt fnan) (PFlt fnan).
Definition f106 : ivres := ends3 (zi (-3) 0) (zi (-6) 5) (zi (-2) 6).
Example general_intersection_1 :
  outcome_is (intersection f106 (RItv (zi (-1) 10))) (fun r => arr_is r [zi (-1) 0; zi (-1) 5; zi (-1) 6]).
Proof. apply run. vm_cast_no_check (eq_refl true). Qed.
Example general_intersection_2 :
  outcome_is (intersection f106 (RItv (zi (-2) (-2)))) (fun r => arr_is r [zi (-2) (-2); zi (-2) (-2); zi (-2) (-2)]).
Proof. apply run. vm_cast_no_check (eq_refl true). Qed.
Example general_intersection_3 :
  outcome_is (intersection f106 (ends3 (zi 2 6) (zi (-8) 7) (zi (-6) 0))) (fun r => arr_is r [nan_itv; zi (-6) 5; zi (-2) 0]).
Proof. apply run. vm_cast_no_check (eq_refl true). Qed.
(** doc/src/general.rst:221-224, 253-259, 447-453, 492-497 *)
Definition arr_eqv (a : aitv) (s : list nat) (w : list itv) : bool :=
  (if list_eq_dec Nat.eq_dec (ashape (adat a)) s then true else false) && all_are same_itv (adata (adat a)) w.
Example general_eye :
  outcome_is (eye 3 (Some 2%nat) (-1)) (fun r => arr_eqv r [3; 2]%nat [zi 0 0; zi 0 0; zi 1 1; zi 0 0; zi 0 0; zi 1 1]).
Proof. apply run. vm_cast_no_check (eq_refl true). Qed.
Example general_zeros : outcome_is (zeros [2; 3]%nat) (fun r => arr_eqv r [2; 3]%nat (repeat (zi 0 0) 6)).
Proof. apply run. vm_cast_no_check (eq_refl true). Qed.
Definition near_all (a : aitv) (s : list nat) (w : list itv) : bool :=
  (if list_eq_dec Nat.eq_dec (ashape (adat a)) s then true else false) && all_are near_itv (adata (adat a)) w.
Example general_shary :
  let o := di (-77) 65 2 in
  outcome_is (shary_system 3 None (dec 23 2) (dec 35 2))
    (fun p => near_all (fst p) [3; 3]%nat [zi 2 3; o; o; o; zi 2 3; o; o; o; zi 2 3] && near_all (snd p) [3%nat] (repeat (zi (-2) 2) 3)).
Proof. apply run. vm_cast_no_check (eq_refl true). Qed.
Example general_neumaier :
  let d := di 35 35 1 in
  outcome_is (neumaier_system 2 (dec 35 1) None None)
    (fun p => arr_eqv (fst p) [2; 2]%nat [d; zi 0 2; zi 0 2; d] && arr_eqv (snd p) [2%nat] (repeat (zi (-1) 1) 2)).
Proof. apply run. vm_cast_no_check (eq_refl true). Qed.
Example general_diag :
  outcome_is (p <- shary_system 3 None (dec 23 2) (dec 35 2) ;; d <- mlift (diag (fst p) 0) ;; e <- mlift (diag (snd p) 0) ;; mret (d, e))
    (fun p => arr_eqv (fst p) [3%nat] (repeat (zi 2 3) 3) &&
      arr_eqv (snd p) [3; 3]%nat [zi (-2) 2; zi 0 0; zi 0 0; zi 0 0; zi (-2) 2; zi 0 0; zi 0 0; zi 0 0; zi (-2) 2]).
Proof. apply run. vm_cast_no_check (eq_refl true). Qed.

(** test/optimization/IntvalPy.py and intvalpy_result.txt: [globopt] with
    [tol=1e-14, maxiter=10000] on the test functions built from the four
    operations and integer powers. *)
Definition at_ (x : list itv) (i : nat) : operand := OItv (nth i x nan_itv).
Definition num (z : Z) : operand := ONum (PInt z).
Definition op2 (f : operand -> operand -> M itv) (x y : M operand) : M operand := a <- x ;; b <- y ;; r <- f a b ;; mret (OItv r).
Definition sqr (x : M operand) (n : Z) : M operand :=
  a <- x ;; match a with OItv e => r <- itv_pow none e (PInt n) ;; mret (OItv r) | ONum _ => mraise TypeError end.
Definition as_i (x : M operand) : M itv := a <- x ;; match a with OItv e => mret e | ONum _ => mraise TypeError end.
Declare Scope expr_scope.
Delimit Scope expr_scope with E.
Notation "x + y" := (op2 py_add x y) : expr_scope.
Notation "x - y" := (op2 py_sub x y) : expr_scope.
Notation "x * y" := (op2 py_mul x y) : expr_scope.
Notation "x ^ n" := (sqr x n) : expr_scope.
Notation "# z" := (mret (num z)) (at level 5) : expr_scope.
Notation "x .[ i ]" := (mret (at_ x i)) (at level 5) : expr_scope.
Definition booth (x : list itv) : M itv :=
  as_i ((x.[0] + #2 * x.[1] - #7) ^ 2 + (#2 * x.[0] + x.[1] - #5) ^ 2)%E.
Definition flc (m k : Z) : M operand := mret (ONum (dec m k)).
Definition beale (x : list itv) : M itv :=
  as_i ((flc 15 1 - x.[0] + x.[0] * x.[1]) ^ 2 + (flc 225 2 - x.[0] + x.[0] * x.[1] ^ 2) ^ 2 + (flc 2625 3 - x.[0] + x.[0] * x.[1] ^ 3) ^ 2)%E.
Definition dejoung (x : list itv) : M itv := as_i (x.[0] ^ 2 + x.[1] ^ 2 + x.[2] ^ 2)%E.
Definition dixonprice (x : list itv) : M itv :=
  as_i ((x.[0] - #1) ^ 2 + (#0 + #2 * (#2 * x.[1] ^ 2 - x.[0]) ^ 2))%E.
Definition rosenbrock (x : list itv) : M itv :=
  as_i (#0 + (#100 * (x.[1] - x.[0] ^ 2) ^ 2 + (#1 - x.[0]) ^ 2))%E.
(** The box and the value printed, the width with all its digits, and the
    number [nit] of bisections: allowing one fewer does not reach the
    tolerance, allowing more changes nothing as the width is then below it. *)
Definition glob_is (f : list itv -> M itv) (x0 w : list itv) (width : pynum) (nit : Z) : Prop :=
  outcome_is (globopt f x0 (dec 1 14) (nit - 1))
    (fun r => all_are near_itv (fst r) w && num_eq (lo (snd r)) (PInt 0) && near (hi (snd r)) width) /\
  outcome_is (globopt f x0 (dec 1 14) (nit - 2)) (fun r => num_le (dec 1 14) (hi (snd r))).
Ltac replay := split; apply run; vm_cast_no_check (eq_refl true).
Example opt_booth : glob_is booth [zi (-10) 10; zi (-10) 10] [zi 1 1; zi 3 3] (dec 7896461262646426 30) 146.
Proof. replay. Qed.
Example opt_beale :
  glob_is beale [di (-45) 45 1; di (-45) 45 1] [zi 3 3; di 5 5 1] (dec 5663926634081213 30) 342.
Proof. replay. Qed.
Definition di2 : itv := ival (dec (-38147) 12) (dec 190735 13).
Example opt_dejoung :
  glob_is dejoung (repeat (di (-256) 512 2) 3)
    [di2; di2; ival (dec (-38147) 12) (dec 762939 13)] (dec 8731149137020112 30) 80.
Proof. replay. Qed.
Example opt_rosenbrock : glob_is rosenbrock [zi (-5) 10; zi (-5) 10] [zi 1 1; zi 1 1] (dec 7030021096504635 30) 114.
Proof. replay. Qed.
Example opt_dixonprice :
  glob_is dixonprice [zi (-10) 10; zi (-10) 10] [zi 1 1; di 707107 707107 6] (dec 3963815525499295 30) 60.
Proof. replay. Qed.

