(** Words used in the statements about PSS. *)
From Coq Require Import Reals Arith.
From Verif Require Import Exact SpecExact Estim SpecEstim Pss.
Open Scope R_scope.

(** All components of [x] except [nu] are in the box [Q]. *)
Definition covers (n nu : nat) (Q : ivec) (x : vec) : Prop := forall j, (j < n)%nat -> j <> nu -> inI (Q j) (x j).
(** No component of [Q], except perhaps [nu], contains zero. *)
Definition zero_free (n nu : nat) (Q : ivec) : Prop := forall j, (j < n)%nat -> j <> nu -> proper (Q j) /\ ~ inI (Q j) 0.
(** Except for the component [nu], [Q] is a proper box inside [V]. *)
Definition sub_box (n nu : nat) (Q V : ivec) : Prop := forall j, (j < n)%nat -> j <> nu -> rl (V j) <= rl (Q j) <= rh (Q j) /\ rh (Q j) <= rh (V j).
(** The linear programming solver answers truthfully the program PSS passes to it
    for the box [Q] and the sign [s] of the component [nu]. *)
Definition lp_good (lp : lp_solver) (m n nu : nat) (A : imat) (b Q : ivec) (s : R) : Prop :=
  lp_truthful (2 * (m + n) + n) n (fun j => if (j =? nu)%nat then s else 0) (pss_A m n A (pss_S nu Q s)) (pss_b m n nu b Q)
    (lp (2 * (m + n) + n)%nat n (fun j => if (j =? nu)%nat then s else 0) (pss_A m n A (pss_S nu Q s)) (pss_b m n nu b Q)).
(** It does so for every box without zeros that splitting [V] may lead to. *)
Definition lp_answers (lp : lp_solver) (m n nu : nat) (A : imat) (b V : ivec) : Prop :=
  forall Q s, sub_box n nu Q V -> zero_free n nu Q -> s = sgn (rl (V nu)) \/ s = sgn (rh (V nu)) -> lp_good lp m n nu A b Q s.
(** [q] is the component [nu] of a solution whose other components are in [V]. *)
Definition attained (m n nu : nat) (A : imat) (b V : ivec) (q : R) : Prop :=
  exists x, united m n A b x /\ covers n nu V x /\ x nu = q.
(** The right-hand sides, the [i]-th one widened by [d i] on both sides. *)
Definition widened (b : ivec) (d : vec) : ivec := fun i => mkr (rl (b i) - d i) (rh (b i) + d i).
(** Half of the tolerance times the magnitudes of the other coefficients of the row,
    and what m + 1 intersections with a slack of 1e-15 may add. *)
Definition slack (m n nu : nat) (A : imat) (tol : R) : vec := fun i =>
  tol / 2 * total n (fun j => if (j =? nu)%nat then 0 else r_mag (A i j)) + INR (m + 1) / 10 ^ 15 * r_mag (A i nu).
