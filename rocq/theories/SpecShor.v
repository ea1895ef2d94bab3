(** Shor's method of space dilation in the direction of the difference of two
    successive subgradients, in its symmetric form: the state carries the metric H
    (the program keeps a factor B of it).  Only the subgradient [grad] and the
    parameters of the method occur; points are vectors of which the first [n]
    components count. *)
From Coq Require Import Reals Arith.
From Verif Require Import Exact SpecExact.
Open Scope R_scope.

Section Shor.
Variable n : nat.
Variable grad : vec -> vec.
Variables (alpha h0 q1 q2 : R) (nh : nat).

(** v' H v, and the direction H g / sqrt (g' H g). *)
Definition energy (H : mat) (v : vec) : R := dot n v (times n H v).
Definition along (H : mat) (g : vec) : vec := fun i => times n H g i / sqrt (energy H g).
(** H shrunk by 1/alpha in the direction of the difference r:
    H - (1 - 1/alpha^2) (H r)(H r)' / (r' H r). *)
Definition contracted (H : mat) (r : vec) : mat := fun i j =>
  H i j - (1 - 1 / (alpha * alpha)) * (times n H r i * times n H r j) / energy H r.

(** Where the method is: the point, the subgradient at the beginning of the line
    it moves on, the metric, the step, and how many moves it made on this line. *)
Record place : Type := mkplace { at_ : vec; since : vec; metric : mat; step : R; moves : nat }.
Definition start (x0 : vec) : place := mkplace x0 (grad x0) (fun i j => if Nat.eq_dec i j then 1 else 0) h0 0.
(** One move.  The step is enlarged by q2 after the moves numbered 0, nh, 2 nh, ...
    of a line.  The line goes on while the subgradient found has a positive
    product with the direction; otherwise the metric is contracted and a new line
    begins, with the step diminished by q1 if the line had only one move. *)
Definition direction (s : place) : vec := along (metric s) (since s).
Definition target (s : place) : vec := fun i => at_ s i - step s * direction s i.
Definition every_nh (k : nat) : bool := match nh with O => true | _ => Nat.eqb (k mod nh) 0 end.
Definition next (s : place) : place :=
  let g := grad (target s) in
  let h := if every_nh (moves s) then step s * q2 else step s in
  if Rlt_dec 0 (dot n (direction s) g) then mkplace (target s) (since s) (metric s) h (S (moves s))
  else mkplace (target s) g (contracted (metric s) (minus g (since s))) (if Nat.eqb (moves s) 0 then h * q1 else h) 0.
(** After [k] moves. *)
Fixpoint after (x0 : vec) (k : nat) : place := match k with O => start x0 | S k' => next (after x0 k') end.
End Shor.

(** Vectors agree in the components that count; some component is not zero. *)
Definition agree (n : nat) (x y : vec) : Prop := forall i, (i < n)%nat -> x i = y i.
Definition non_zero (n : nat) (v : vec) : Prop := exists i, (i < n)%nat /\ v i <> 0.
Definition positive_definite (n : nat) (H : mat) : Prop := forall v, non_zero n v -> 0 < energy n H v.
