(** Model of Subdiff (intvalpy/linear/Subdiff.py) over exact real numbers.
    Rounding, overflow and NaN are not modelled; numpy.linalg.solve is an
    argument. *)
From Coq Require Import Reals List Arith Bool ZArith.
From Verif Require Import Exact.
Import ListNotations.
Open Scope R_scope.

(** The product of two intervals that need not be proper, where exactly the
    improper ones are of the Kaucher class.  Both classical:
    interval_arithmetics.pyx:419-424; classical times Kaucher: pyx:427-441;
    otherwise pyx:558-572. *)
Definition k_pos (x : R) : R := Rmax x 0.
Definition k_neg (x : R) : R := k_pos x - x.
Definition rk_mul (x y : rit) : rit :=
  let xi := k_pos (rl x) in let xs := k_pos (rh x) in let xi' := k_neg (rl x) in let xs' := k_neg (rh x) in
  let yi := k_pos (rl y) in let ys := k_pos (rh y) in let yi' := k_neg (rl y) in let ys' := k_neg (rh y) in
  if Rle_dec (rl x) (rh x) then
    if Rle_dec (rl y) (rh y) then r_mul x y else
    mkr (xi * yi + xs' * ys' - xs * yi' - xi' * ys) (xs * ys + xi' * yi' - xi * ys' - xs' * yi)
  else
    mkr (Rmax (xi * yi) (xs' * ys') - Rmax (xs * yi') (xi' * ys)) (Rmax (xs * ys) (xi' * yi') - Rmax (xi * ys') (xs' * yi)).
(** [opp] (for Subdiff.py:153) *)
Definition rk_opp (x : rit) : rit := mkr (- rl x) (- rh x).

(** Vectors of 2n numbers: lower endpoints, then upper endpoints (Subdiff.py:131-132 and 167) *)
Definition flat (n : nat) (x : ivec) : vec := fun r => if (r <? n)%nat then rl (x r) else rh (x (r - n)%nat).
Definition unflat (n : nat) (v : vec) : ivec := fun j => mkr (v j) (v (n + j)%nat).

(** superMatrix, Subdiff.py:37-48 *)
Definition super (n : nat) (A : imat) : mat := fun r c =>
  let a := r_mid (A (if (r <? n)%nat then r else (r - n)%nat) (if (c <? n)%nat then c else (c - n)%nat)) in
  let plus := if Rle_dec 0 a then a else 0 in
  let minus := if Rle_dec 0 a then 0 else a in
  if Bool.eqb (r <? n)%nat (c <? n)%nat then plus else minus.

(** calcSubgrad, Subdiff.py:51-121: the entries F[i,j], F[i,j+n], F[i+n,j], F[i+n,j+n].
    F is all zeros before, and every pair i, j is visited once. *)
Record entries : Type := mke { e11 : R; e12 : R; e21 : R; e22 : R }.
Definition sd_k (a : rit) : nat :=
  if Rlt_dec 0 (sgn (rl a) * sgn (rh a)) then (if Rlt_dec 0 (sgn (rl a)) then 0%nat else 2%nat)
  else (if Rlt_dec (rl a) (rh a) then 1%nat else 3%nat).
Definition sd_m (b : rit) : nat :=
  if Rlt_dec 0 (sgn (rl b) * sgn (rh b)) then (if Rlt_dec 0 (sgn (rl b)) then 1%nat else 3%nat)
  else (if Rle_dec (rl b) (rh b) then 2%nat else 4%nat).
Definition calc_subgrad (a b : rit) : entries :=
  match (4 * sd_k a + sd_m b)%nat with
  | 1%nat => mke (rl a) 0 0 (rh a)
  | 2%nat => mke (rh a) 0 0 (rh a)
  | 3%nat => mke (rh a) 0 0 (rl a)
  | 4%nat => mke (rl a) 0 0 (rl a)
  | 5%nat => mke 0 (rl a) 0 (rh a)
  | 6%nat =>
      let l := Rlt_dec (rl a * rh b) (rh a * rl b) in
      let u := Rlt_dec (rh a * rh b) (rl a * rl b) in
      mke (if l then 0 else rh a) (if l then rl a else 0) (if u then rl a else 0) (if u then 0 else rh a)
  | 7%nat => mke (rh a) 0 (rl a) 0
  | 9%nat => mke 0 (rl a) (rh a) 0
  | 10%nat => mke 0 (rl a) (rl a) 0
  | 11%nat => mke 0 (rh a) (rl a) 0
  | 12%nat => mke 0 (rh a) (rh a) 0
  | 13%nat => mke (rl a) 0 (rh a) 0
  | 15%nat => mke 0 (rh a) 0 (rl a)
  | 16%nat =>
      let l := Rlt_dec (rh a * rh b) (rl a * rl b) in
      let u := Rlt_dec (rl a * rh b) (rh a * rl b) in
      mke (if l then rl a else 0) (if l then 0 else - rh a) (if u then 0 else rh a) (if u then rl a else 0)
  | _ => mke 0 0 0 0
  end.
(** The matrix F after the loops of Subdiff.py:139-149 at the point [x] *)
Definition sd_F (n : nat) (A : imat) (x : vec) : mat := fun r c =>
  let i := if (r <? n)%nat then r else (r - n)%nat in
  let j := if (c <? n)%nat then c else (c - n)%nat in
  let e := calc_subgrad (A i j) (unflat n x j) in
  if (r <? n)%nat then (if (c <? n)%nat then e11 e else e12 e) else (if (c <? n)%nat then e21 e else e22 e).
(** [t = s + b[i].opp], Subdiff.py:140-151 *)
Definition sd_res (n : nat) (A : imat) (b : ivec) (x : vec) : ivec := fun i =>
  r_add (isum n (fun j => rk_mul (A i j) (unflat n x j))) (rk_opp (b i)).

Section Loop.
(** [np.linalg.solve] of the given order; [None]: LinAlgError *)
Variable solve : nat -> mat -> vec -> option vec.
Variables (n : nat) (A : imat) (b : ivec) (tol tau norm_min_val : R).
(** One pass of Subdiff.py:134-165: the new iterate, r and q *)
Definition sd_step (x : vec) : option (vec * R * R) :=
  match solve (2 * n) (sd_F n A x) (flat n (sd_res n A b x)) with
  | None => None
  | Some d =>
      let y : vec := fun r => x r - d r * tau in
      let q := vsum (2 * n) (fun r => Rabs (y r)) in
      Some (y, vsum n (fun i => r_mag (sd_res n A b x i)), if Rle_dec q norm_min_val then 1 else q)
  end.
(** Subdiff.py:133-166: [fuel] passes are left; r is infinite before the first *)
Fixpoint sd_loop (fuel : nat) (x : vec) : option vec :=
  match fuel with
  | O => Some x
  | S f =>
      match sd_step x with
      | None => None
      | Some (y, r, q) => if Rlt_dec tol (r / q) then sd_loop f y else Some y
      end
  end.
(** Subdiff.py:123-167 for a square matrix and matching right-hand side *)
Definition subdiff (maxiter : Z) : option ivec :=
  match solve (2 * n) (super n A) (flat n b) with
  | None => None
  | Some x => match sd_loop (Z.to_nat (maxiter + 1)) x with None => None | Some y => Some (unflat n y) end
  end.
End Loop.
