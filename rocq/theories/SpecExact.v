(** Vocabulary for statements about interval linear systems with real data. *)
From Coq Require Import Reals List Arith.
From Verif Require Import Exact.
Open Scope R_scope.

(** [x] is a point of the interval. *)
Definition inI (X : rit) (x : R) : Prop := rl X <= x <= rh X.
Definition proper (X : rit) : Prop := rl X <= rh X.
(** Points of an interval vector of length [n], matrices inside an [m] x [n]
    interval matrix. *)
Definition in_ivec (n : nat) (b : ivec) (v : vec) : Prop := forall i, (i < n)%nat -> inI (b i) (v i).
Definition in_imat (m n : nat) (A : imat) (M : mat) : Prop := forall i j, (i < m)%nat -> (j < n)%nat -> inI (A i j) (M i j).
Definition proper_vec (n : nat) (b : ivec) : Prop := forall i, (i < n)%nat -> proper (b i).
Definition proper_mat (m n : nat) (A : imat) : Prop := forall i j, (i < m)%nat -> (j < n)%nat -> proper (A i j).
Definition positive (n : nat) (w : vec) : Prop := forall i, (i < n)%nat -> 0 < w i.
Definition non_negative (n : nat) (w : vec) : Prop := forall i, (i < n)%nat -> 0 <= w i.
Definition ones : vec := fun _ => 1.

(** The product of a real matrix with [n] columns and a vector, componentwise. *)
Fixpoint total (n : nat) (f : nat -> R) : R := match n with O => 0 | S k => total k f + f k end.
Definition times (n : nat) (M : mat) (x : vec) : vec := fun i => total n (fun j => M i j * x j).
Definition solves (m n : nat) (M : mat) (v x : vec) : Prop := forall i, (i < m)%nat -> times n M x i = v i.

(** United and tolerable solution sets of [A x = b]. *)
Definition united (m n : nat) (A : imat) (b : ivec) (x : vec) : Prop :=
  exists M v, in_imat m n A M /\ in_ivec m b v /\ solves m n M v x.
Definition tolerable (m n : nat) (A : imat) (b : ivec) (x : vec) : Prop :=
  forall M, in_imat m n A M -> in_ivec m b (times n M x).

(** [b] with both ends moved inwards by [t]. *)
Definition shrink (t : R) (b : ivec) : ivec := fun i => mkr (rl (b i) + t) (rh (b i) - t).

Definition dot (n : nat) (g x : vec) : R := total n (fun j => g j * x j).
Definition minus (y x : vec) : vec := fun j => y j - x j.
(** [g] is a subgradient of [f] at [x]. *)
Definition subgradient (n : nat) (f : vec -> R) (x g : vec) : Prop := forall y, f x + dot n g (minus y x) <= f y.
(** [y] lies in the same closed orthant as [x], all components of [x] being non-zero. *)
Definition same_orthant (n : nat) (x y : vec) : Prop := forall j, (j < n)%nat -> x j <> 0 /\ 0 <= x j * y j.

(** The sum of the selected entries of a list. *)
Fixpoint sum_selected (sel : list bool) (c : list R) : R :=
  match sel, c with s :: sel', a :: c' => (if s then a else 0) + sum_selected sel' c' | _, _ => 0 end%list.
(** The coefficients of the [j]-th variable in a list of constraint rows. *)
Definition column (j : nat) (rows : list (vec * R)) : list R := List.map (fun r : vec * R => fst r j) rows.
