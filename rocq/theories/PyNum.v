(** Python numbers (int and float) as the kernel sees them.
    Floats are IEEE binary64 (Flocq), ints are unbounded. *)
From Coq Require Import ZArith List Bool.
From Coq Require Import Floats.SpecFloat.
From Flocq Require Import Core IEEE754.BinarySingleNaN.
From Verif Require Import Base.

Global Instance prec53 : Prec_gt_0 53 := eq_refl.
Global Instance prec53_lt : Prec_lt_emax 53 1024 := eq_refl.

(** C [double]. *)
Definition flt := binary_float 53 1024.

Definition fadd (m : rmode) (x y : flt) : flt := Bplus m x y.
Definition fsub (m : rmode) (x y : flt) : flt := Bminus m x y.
Definition fmul (m : rmode) (x y : flt) : flt := Bmult m x y.
Definition fdiv (m : rmode) (x y : flt) : flt := Bdiv m x y.
Definition fneg (x : flt) : flt := Bopp x.
(** libc [fabs] *)
Definition fabs (x : flt) : flt := Babs x.
Definition flt_eqb (x y : flt) : bool := Beqb x y.
Definition flt_ltb (x y : flt) : bool := Bltb x y.
Definition flt_leb (x y : flt) : bool := Bleb x y.

Definition f0 : flt := B754_zero false.
Definition finf : flt := B754_infinity false.
Definition fninf : flt := B754_infinity true.
Definition fnan : flt := B754_nan.
Definition fmaxfloat : flt := Bmax_float.

(** The double nearest (ties to even) to m*2^e; used to write literals. *)
Definition fl (m e : Z) : flt := BinarySingleNaN.binary_normalize 53 1024 _ _ mode_NE m e false.
Definition f1 : flt := fl 1 0.
Definition fhalf : flt := fl 1 (-1).

(** A Python number: arbitrary-precision [int] or [float]. Other [Number]
    types (complex, Fraction, Decimal, mpf) are not modelled. *)
Inductive pynum : Type :=
| PInt (z : Z)
| PFlt (f : flt).

(** CPython [PyLong_AsDouble], also used by Cython when an object is assigned
    to a [cdef double]: round half to even, whatever the rounding mode;
    OverflowError when the result does not fit. *)
Definition int_to_double (z : Z) : res flt :=
  let f := fl z 0 in
  if is_finite f then Ok f else Err OverflowError.

(** Conversion of a Python number to a C double. *)
Definition to_double (x : pynum) : res flt :=
  match x with
  | PInt z => int_to_double z
  | PFlt f => Ok f
  end.

(** Lift a float operation to a mixed int/float pair (CPython
    [CONVERT_TO_DOUBLE]). *)
Definition arith2 (fz : Z -> Z -> Z) (ff : flt -> flt -> flt) (x y : pynum) : res pynum :=
  match x, y with
  | PInt a, PInt b => Ok (PInt (fz a b))
  | _, _ => a <~ to_double x ;; b <~ to_double y ;; Ok (PFlt (ff a b))
  end.

(** Python [x + y], [x - y], [x * y] in rounding mode [m]. *)
Definition num_add (m : rmode) := arith2 Z.add (fadd m).
Definition num_sub (m : rmode) := arith2 Z.sub (fsub m).
Definition num_mul (m : rmode) := arith2 Z.mul (fmul m).

(** Correctly rounded (half-even) quotient of two non-zero integers, as CPython
    [long_true_divide] computes it outside its fast path. *)
Definition int_div_even (a b : Z) : flt :=
  match a, b with
  | Z0, Zneg _ => B754_zero true
  | Z0, _ => B754_zero false
  | _, Z0 => B754_nan (* not reached: guarded by the zero test *)
  | Zpos p, Zpos q => SF2B _ (proj1 (Bdiv_correct_aux 53 1024 _ _ mode_NE false p 0 false q 0))
  | Zpos p, Zneg q => SF2B _ (proj1 (Bdiv_correct_aux 53 1024 _ _ mode_NE false p 0 true q 0))
  | Zneg p, Zpos q => SF2B _ (proj1 (Bdiv_correct_aux 53 1024 _ _ mode_NE true p 0 false q 0))
  | Zneg p, Zneg q => SF2B _ (proj1 (Bdiv_correct_aux 53 1024 _ _ mode_NE true p 0 true q 0))
  end.

(** Python [x / y].  Floats: ZeroDivisionError on a zero divisor, otherwise the
    C division in mode [m].  Ints: both below 2^53 in magnitude are divided as
    doubles in mode [m]; otherwise the result is rounded half-even whatever the
    mode, with OverflowError if it is too large. *)
Definition num_div (m : rmode) (x y : pynum) : res pynum :=
  match x, y with
  | PInt a, PInt b =>
      if (b =? 0)%Z then Err ZeroDivisionError
      else if ((Z.abs a <? 2 ^ 53) && (Z.abs b <? 2 ^ 53))%Z%bool
      then Ok (PFlt (fdiv m (fl a 0) (fl b 0)))
      else let q := int_div_even a b in
           if is_finite q then Ok (PFlt q) else Err OverflowError
  | _, _ =>
      a <~ to_double x ;; b <~ to_double y ;;
      if flt_eqb b f0 then Err ZeroDivisionError else Ok (PFlt (fdiv m a b))
  end.

(** Python unary minus. *)
Definition num_neg (x : pynum) : pynum :=
  match x with PInt z => PInt (- z) | PFlt f => PFlt (fneg f) end.

(** Exact comparison of an int with a finite double's value [s * m * 2^e]. *)
Definition cmp_int_fin (z : Z) (s : bool) (m : positive) (e : Z) : comparison :=
  let v := cond_Zopp s (Zpos m) in
  if (0 <=? e)%Z then Z.compare z (v * 2 ^ e) else Z.compare (z * 2 ^ (- e)) v.

(** Python number comparison; [None] when unordered (NaN).  int/float
    comparisons are exact in CPython ([float_richcompare]). *)
Definition num_cmp (x y : pynum) : option comparison :=
  match x, y with
  | PInt a, PInt b => Some (Z.compare a b)
  | PFlt f, PFlt g => Bcompare f g
  | PInt a, PFlt g =>
      match g with
      | B754_nan => None
      | B754_infinity s => Some (if s then Gt else Lt)
      | B754_zero _ => Some (Z.compare a 0)
      | B754_finite s m e _ => Some (cmp_int_fin a s m e)
      end
  | PFlt f, PInt b =>
      match f with
      | B754_nan => None
      | B754_infinity s => Some (if s then Lt else Gt)
      | B754_zero _ => Some (Z.compare 0 b)
      | B754_finite s m e _ => Some (CompOpp (cmp_int_fin b s m e))
      end
  end.

Definition num_lt (x y : pynum) : bool :=
  match num_cmp x y with Some Lt => true | _ => false end.
Definition num_le (x y : pynum) : bool :=
  match num_cmp x y with Some Lt | Some Eq => true | _ => false end.
Definition num_eq (x y : pynum) : bool :=
  match num_cmp x y with Some Eq => true | _ => false end.
Definition num_ne (x y : pynum) : bool := negb (num_eq x y).
Definition num_gt (x y : pynum) : bool := num_lt y x.
Definition num_ge (x y : pynum) : bool := num_le y x.

(** Two-argument step of Cython's inlined [min]/[max]: the running result is
    replaced only by a strictly smaller/larger argument. *)
Definition num_min2 (x y : pynum) : pynum := if num_lt y x then y else x.
Definition num_max2 (x y : pynum) : pynum := if num_lt x y then y else x.
Definition num_min4 (a b c d : pynum) : pynum := num_min2 (num_min2 (num_min2 a b) c) d.
Definition num_max4 (a b c d : pynum) : pynum := num_max2 (num_max2 (num_max2 a b) c) d.

(** The same on C doubles. *)
Definition flt_min2 (x y : flt) : flt := if flt_ltb y x then y else x.
Definition flt_max2 (x y : flt) : flt := if flt_ltb x y then y else x.

(** libc [nextafter]. *)
Definition nextafter (x t : flt) : flt :=
  if is_nan x || is_nan t then B754_nan
  else if flt_eqb x t then t
  else if flt_ltb x t then Bsucc x else Bpred x.

(** kernel/interval_arithmetics.pyx:53-58. *)
Definition round_down (x : flt) : flt := nextafter x (fneg fmaxfloat).
Definition round_up (x : flt) : flt := nextafter x fmaxfloat.

Definition pn0 : pynum := PFlt f0.
Definition pn1 : pynum := PFlt f1.

(** Python [x ** n] for an int base and natural exponent is exact; for a float
    base it is C [pow] (an oracle, see Kernel.v). *)
Definition int_pow (z : Z) (n : nat) : Z := z ^ Z.of_nat n.

Definition is_nan_num (x : pynum) : bool :=
  match x with PInt _ => false | PFlt f => is_nan f end.
