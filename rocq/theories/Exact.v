(** Interval vectors and matrices with exact real numbers in place of doubles.
    The code modelled on top of this file works on plain numpy floats (or on
    intervals, where rounding is a separate matter proved for the kernel); here
    every number is an exact real and no operation overflows.  Vectors are
    functions of the index, with their length as a separate argument; the value
    outside the range is never used. *)
From Coq Require Import Reals List Arith.
Import ListNotations.
Open Scope R_scope.

(** A classical interval with real endpoints [x.a], [x.b]
    (interval_arithmetics.pyx:96-113). *)
Record rit : Type := mkr { rl : R; rh : R }.

(** pyx:126-147: [rad], [mid], [mig], [mag] *)
Definition r_rad (x : rit) : R := / 2 * (rh x - rl x).
Definition r_mid (x : rit) : R := / 2 * (rh x + rl x).
Definition has0 (x : rit) : bool := if Rle_dec (rl x) 0 then if Rle_dec 0 (rh x) then true else false else false.
Definition r_mig (x : rit) : R := if has0 x then 0 else Rmin (Rabs (rl x)) (Rabs (rh x)).
Definition r_mag (x : rit) : R := Rmax (Rabs (rl x)) (Rabs (rh x)).
(** pyx:392-526 on classical operands: sum, difference, product,
    number * interval, number - interval *)
Definition r_add (x y : rit) : rit := mkr (rl x + rl y) (rh x + rh y).
Definition r_sub (x y : rit) : rit := mkr (rl x - rh y) (rh x - rl y).
Definition r_mul (x y : rit) : rit :=
  mkr (Rmin (Rmin (rl x * rl y) (rl x * rh y)) (Rmin (rh x * rl y) (rh x * rh y)))
      (Rmax (Rmax (rl x * rl y) (rl x * rh y)) (Rmax (rh x * rl y) (rh x * rh y))).
Definition r_scale (c : R) (x : rit) : rit := mkr (Rmin (c * rl x) (c * rh x)) (Rmax (c * rl x) (c * rh x)).
Definition r_csub (c : R) (x : rit) : rit := mkr (c - rh x) (c - rl x).
Definition r_point (c : R) : rit := mkr c c.

Definition vec := nat -> R.
Definition ivec := nat -> rit.
Definition mat := nat -> nat -> R.
Definition imat := nat -> nat -> rit.

(** [np.sum] and the inner products of [@] over [n] terms *)
Fixpoint vsum (n : nat) (f : nat -> R) : R := match n with O => 0 | S k => vsum k f + f k end.
Fixpoint isum (n : nat) (f : nat -> rit) : rit := match n with O => r_point 0 | S k => r_add (isum k f) (f k) end.
Definition mv (n : nat) (A : mat) (x : vec) : vec := fun i => vsum n (fun j => A i j * x j).
(** interval matrix @ real vector (real_intervals.py:281-286) *)
Definition imv (n : nat) (A : imat) (x : vec) : ivec := fun i => isum n (fun j => r_scale (x j) (A i j)).
(** interval matrix @ interval vector *)
Definition iimv (n : nat) (A : imat) (x : ivec) : ivec := fun i => isum n (fun j => r_mul (A i j) (x j)).
Definition vabs (x : vec) : vec := fun j => Rabs (x j).
Definition mids (A : imat) : mat := fun i j => r_mid (A i j).
Definition rads (A : imat) : mat := fun i j => r_rad (A i j).
Definition infs_of (A : imat) : mat := fun i j => rl (A i j).
Definition sups_of (A : imat) : mat := fun i j => rh (A i j).

(** [np.min], [np.max], [np.argmin] of the entries 0..k (a vector of length
    k+1; numpy raises ValueError on an empty one): the first index at which the
    minimum is attained. *)
Fixpoint vmin (k : nat) (f : nat -> R) : R := match k with O => f O | S j => Rmin (vmin j f) (f (S j)) end.
Fixpoint vmax (k : nat) (f : nat -> R) : R := match k with O => f O | S j => Rmax (vmax j f) (f (S j)) end.
Fixpoint argmin (k : nat) (f : nat -> R) : nat :=
  match k with O => O | S j => if Rlt_dec (f (S j)) (f (argmin j f)) then S j else argmin j f end.

(** [np.sign] *)
Definition sgn (x : R) : R := if Rlt_dec 0 x then 1 else if Rlt_dec x 0 then -1 else 0.
