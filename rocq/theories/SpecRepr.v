(** What a printed decimal number means. *)
From Coq Require Import ZArith Reals List Bool Ascii String.
Import ListNotations.

(** The value of a decimal digit. *)
Definition digit (c : ascii) : option Z :=
  let n := Z.of_N (N_of_ascii c) in if ((48 <=? n) && (n <=? 57))%Z then Some (n - 48)%Z else None.
(** Leading digits of a text: the number [v] followed by them, how many more
    there are than [n], and the rest. *)
Fixpoint leading (s : string) (v n : Z) : Z * Z * string :=
  match s with
  | String c t => match digit c with Some d => leading t (10 * v + d) (n + 1) | None => (v, n, s) end
  | EmptyString => (v, n, s)
  end%Z.
(** Optional sign. *)
Definition sign_of (s : string) : Z * string :=
  match s with
  | String "-" t => (-1, t)
  | String "+" t => (1, t)
  | _ => (1, s)
  end%Z.
(** A decimal literal, read as [mantissa * 10^exponent]: sign, digits, possibly a
    point and more digits, possibly "e", a sign and digits. *)
Definition literal (s : string) : option (Z * Z) :=
  (let (sg, s1) := sign_of s in
   let '(v, n, s2) := leading s1 0 0 in
   let '(w, k, s3) := match s2 with String "." t => leading t v 0 | _ => (v, 0, s2) end in
   if n =? 0 then None else
   match s3 with
   | EmptyString => Some (sg * w, - k)
   | String "e" t =>
       let (sx, t1) := sign_of t in
       let '(x, j, t2) := leading t1 0 0 in
       match t2 with EmptyString => if j =? 0 then None else Some (sg * w, sx * x - k) | _ => None end
   | _ => None
   end)%Z.
Definition reads (s : string) (r : R) : Prop :=
  exists v k, literal s = Some (v, k) /\ r = (IZR v * powerRZ 10 k)%R.

(** Decimal numbers with at most six significant digits. *)
Definition six_digits (r : R) : Prop :=
  exists v k : Z, (Z.abs v <= 999999)%Z /\ r = (IZR v * powerRZ 10 k)%R.
(** The last of the six digits of [r] is even. *)
Definition even_digit (r : R) : Prop :=
  exists v k : Z, (100000 <= Z.abs v <= 999999)%Z /\ Z.even v = true /\ r = (IZR v * powerRZ 10 k)%R.
(** The six-digit number nearest to [x]; of two, the one whose last digit is even. *)
Definition nearest_six (x r : R) : Prop :=
  six_digits r /\ (forall q, six_digits q -> (Rabs (r - x) <= Rabs (q - x))%R) /\
  forall q, six_digits q -> q <> r -> Rabs (q - x) = Rabs (r - x) -> even_digit r.
