(** A check of the model against the library itself.  /repo contains a test
    suite (test/unittests_ITF1788) together with the log of a run of it on this
    code (test_results.txt: passed, failed with the value computed, or raised).
    Here the model is run on the same inputs; these are tests, not proofs.
    The lists below are generated by /verif/tools/mkrecorded.py. *)
From Coq Require Import ZArith List Bool.
From Flocq Require Import IEEE754.BinarySingleNaN.
From Verif Require Import Base PyNum Kernel Construct.
Import ListNotations.
Open Scope Z_scope.

Definition F (m e : Z) : pynum := PFlt (fl m e).
Definition Z0 : pynum := PFlt f0.
Definition NZ0 : pynum := PFlt (fneg f0).
Definition NaN : pynum := PFlt fnan.
Definition Inf : pynum := PFlt finf.
Definition NInf : pynum := PFlt fninf.
(** [Interval(l, r)] *)
Inductive ends : Type := J (l r : pynum).
Inductive field : Set := Ga | Gb | Gmid | Gwid | Grad | Gmag | Gmig.
Inductive func : Set := Fsin | Fcos | Fexp | Flog | Fsqrt.
Inductive expr : Type :=
| Add (x y : ends) | Sub (x y : ends) | Mul (x y : ends) | Div (x y : ends) | Cap (x y : ends)
| Neg (x : ends) | Abs (x : ends) | Get (g : field) (x : ends) | Fun (f : func) (x : ends).
Inductive value : Type := VI (e : itv) | VN (v : pynum).
Definition build (x : ends) : M itv := match x with J l r => single_interval l r true false end.
Definition two (f : operand -> operand -> M itv) (x y : ends) : M value :=
  a <- build x ;; b <- build y ;; r <- f (OItv a) (OItv b) ;; mret (VI r).
Definition field_of (g : field) (s : itv) : M pynum :=
  match g with
  | Ga => mret (lo s) | Gb => mret (hi s) | Gmid => mid s | Gwid => wid s | Grad => rad s
  | Gmag => v <- mag s ;; mret (PFlt v) | Gmig => v <- mig s ;; mret (PFlt v)
  end.
Definition func_of (L : libm) (f : func) : itv -> M itv :=
  match f with Fsin => itv_sin L | Fcos => itv_cos L | Fexp => itv_exp L | Flog => itv_log L | Fsqrt => itv_sqrt L end.
Definition eval (L : libm) (c : expr) : M value :=
  match c with
  | Add x y => two py_add x y | Sub x y => two py_sub x y | Mul x y => two py_mul x y | Div x y => two py_div x y
  | Cap x y => a <- build x ;; b <- build y ;; r <- intersect a b ;; mret (VI r)
  | Neg x => a <- build x ;; mret (VI (neg a))
  | Abs x => a <- build x ;; r <- abs_itv a ;; mret (VI r)
  | Get g x => a <- build x ;; v <- field_of g a ;; mret (VN v)
  | Fun f x => a <- build x ;; r <- func_of L f a ;; mret (VI r)
  end.

(** The right-hand side of [assertEqual], and what the log says. *)
Inductive wanted : Type := WI (x : ends) | WN (v : pynum).
Inductive outcome : Type := Passed | Shown (l r : pynum) | Valued (v : pynum) | Raised (e : exn).
Record test : Type := T { left_side : expr; right_side : wanted; recorded : outcome }.

Definition same (x y : pynum) : bool := num_eq x y || (is_nan_num x && is_nan_num y).
(** Intervals are printed with six digits. *)
Definition near (x y : pynum) : bool :=
  same x y ||
  match x, y with
  | PFlt a, PFlt b => is_finite a && is_finite b &&
      flt_leb (fabs (fsub mode_NE a b)) (fmul mode_NE (fdiv mode_NE (fl 1 0) (fl 100000 0)) (fabs b))
  | _, _ => false
  end.
Definition equal (v : value) (w : wanted) : M bool :=
  match v, w with
  | VI e, WI x => f <- build x ;; mret (py_eq e (OItv f))
  | VN u, WN v => mret (num_eq u v)
  | _, _ => mraise TypeError
  end.
Definition exn_same (a b : exn) : bool :=
  match a, b with
  | ValueError, ValueError | AttributeError, AttributeError | TypeError, TypeError | OverflowError, OverflowError => true
  | _, _ => false
  end.
(** The model does what the log says. *)
Definition agrees (L : libm) (t : test) : bool :=
  match fst ((v <- eval L (left_side t) ;; e <- equal v (right_side t) ;; mret (v, e)) mode_NE) with
  | Err x => match recorded t with Raised y => exn_same x y | _ => false end
  | Ok (v, e) =>
      match recorded t, v with
      | Passed, _ => e
      | Shown l r, VI s => negb e && near (lo s) l && near (hi s) r
      | Valued u, VN w => negb e && same w u
      | _, _ => false
      end
  end.
