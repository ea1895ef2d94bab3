(** The printed form of an interval (interval_arithmetics.pyx:189-190). *)
From Coq Require Import ZArith List Bool Ascii String.
From Flocq Require Import Core IEEE754.BinarySingleNaN.
From Verif Require Import Base PyNum Kernel.
Import ListNotations.
Open Scope Z_scope.

(** ** Python's ["%.6g" % x] of a float
    CPython [PyOS_double_to_string(x, 'g', 6, 0)]: the six significant decimal
    digits nearest to x (ties to even, [_Py_dg_dtoa] mode 2), trailing zeros
    removed, in scientific notation when the decimal exponent is below -4 or
    at least 6.  The FPU is assumed to round to nearest at this point, as it
    does outside the arithmetic operations. *)

(** For [den <= num]: the largest k with [den * 10^k <= num]. *)
Fixpoint exp_up (fuel : nat) (num den : Z) : Z :=
  match fuel with
  | O => 0
  | S f => if num <? 10 * den then 0 else 1 + exp_up f num (10 * den)
  end.
(** For [0 < num < den]: the smallest k with [den <= num * 10^k]. *)
Fixpoint exp_down (fuel : nat) (num den : Z) : Z :=
  match fuel with
  | O => 0
  | S f => if den <=? 10 * num then 1 else 1 + exp_down f (10 * num) den
  end.
(** The decimal exponent of [num / den]. *)
Definition dec_exp (num den : Z) : Z :=
  if den <=? num then exp_up (Z.to_nat (Z.log2 num + 1)) num den
  else - exp_down (Z.to_nat (Z.log2 den + 1)) num den.
(** [num / den] rounded to an integer, ties to even. *)
Definition round_even (num den : Z) : Z :=
  let q := num / den in
  let r := num mod den in
  if 2 * r <? den then q else if den <? 2 * r then q + 1 else if Z.even q then q else q + 1.
(** Six digits (as a number) and the decimal exponent of the first of them. *)
Definition six (num den : Z) : Z * Z :=
  let e := dec_exp num den in
  let n := if 5 - e <? 0 then round_even num (den * 10 ^ (e - 5)) else round_even (num * 10 ^ (5 - e)) den in
  if n =? 10 ^ 6 then (10 ^ 5, e + 1) else (n, e).
(** The decimal digits of [n], [k] of them. *)
Fixpoint digits_of (k : nat) (n : Z) : list Z :=
  match k with O => [] | S j => (digits_of j (n / 10) ++ [n mod 10])%list end.
(** Without trailing zeros. *)
Fixpoint strip (l : list Z) : list Z :=
  match l with
  | [] => []
  | d :: l' => match strip l' with [] => if d =? 0 then [] else [d] | s => d :: s end
  end.
Definition dig (d : Z) : ascii := ascii_of_N (Z.to_N (48 + d)).
Definition str (l : list Z) : string := fold_right (fun d s => String (dig d) s) EmptyString l.
(** C's ["%+.02d"]: a sign and at least two digits (here at most three). *)
Definition exponent (e : Z) : string :=
  String (if e <? 0 then "-"%char else "+"%char) (str (if Z.abs e <? 100 then digits_of 2 (Z.abs e) else digits_of 3 (Z.abs e))).
(** The layout: [ds] are the digits, [p] the position of the decimal point. *)
Definition layout (ds : list Z) (p : Z) : string :=
  if (p <=? -4) || (6 <? p) then
    (str (firstn 1 ds) ++ (match tl ds with [] => "" | t => "." ++ str t end) ++ "e" ++ exponent (p - 1))%string
  else if p <=? 0 then ("0." ++ str (repeat 0 (Z.to_nat (- p)) ++ ds)%list)%string
  else if Z.of_nat (List.length ds) <=? p then str (ds ++ repeat 0 (Z.to_nat p - List.length ds)%nat)%list
  else (str (firstn (Z.to_nat p) ds) ++ "." ++ str (skipn (Z.to_nat p) ds))%string.
Definition fmt_pos (m : positive) (e : Z) : string :=
  let (n, k) := six (if 0 <=? e then Zpos m * 2 ^ e else Zpos m) (if 0 <=? e then 1 else 2 ^ (- e)) in
  layout (strip (digits_of 6 n)) (k + 1).
Definition fmt (f : flt) : string :=
  match f with
  | B754_zero s => if s then "-0" else "0"
  | B754_infinity s => if s then "-inf" else "inf"
  | B754_nan => "nan"
  | B754_finite s m e _ => ((if s then "-" else "") ++ fmt_pos m e)%string
  end.
(** An int is converted to float first, which may overflow. *)
Definition fmt_num (x : pynum) : res string := f <~ to_double x ;; Ok (fmt f).

(** interval_arithmetics.pyx:189-190 [__repr__], of classical and Kaucher
    intervals alike. *)
Definition repr (X : itv) : res string :=
  a <~ fmt_num (lo X) ;; b <~ fmt_num (hi X) ;; Ok ("'[" ++ a ++ ", " ++ b ++ "]'")%string.
