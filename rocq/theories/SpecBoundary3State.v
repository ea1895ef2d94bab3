(** Vocabulary for the slices drawn by IntLinIncR3. *)
From Coq Require Import Reals List Arith.
From Verif Require Import Exact SpecExact Boundary SpecBoundary BoundaryState Boundary3 SpecBoundary3 Boundary3State.
Import ListNotations.
Open Scope R_scope.

Definition vec3 (x : v3) : vec := fun j => match j with 0%nat => x1 x | 1%nat => x2 x | _ => x3 x end.
(** The set asked for: united (consistency='uni') or tolerable ('tol'). *)
Definition solution3 (uni : bool) (m : nat) (A : imat) (b : ivec) (x : v3) : Prop :=
  if uni then united m 3 A b (vec3 x) else tolerable m 3 A b (vec3 x).
(** No two different rows have the same row of A - b, and a row of A that counts
    as zero is zero and says nothing. *)
Definition clear_rows (rows : list row3) : Prop :=
  (forall r s, In r rows -> In s rows -> row_minus_off r = row_minus_off s -> r = s) /\
  (forall r, In r rows -> has_direction r \/ (nrm r = (0, 0, 0) /\ off r <= 0)).
Definition apart_rows (rows : list row3) : Prop := forall r s, In r rows -> In s rows -> nrm r <> (0, 0, 0) -> nrm s <> (0, 0, 0) -> apart (nrm r) (nrm s).
(** What is assumed of a slice: rows that are not confused, directions and
    corners that are not nearly equal, and a window if the slice is unbounded. *)
Definition fine (bounds : option (v3 * v3)) (rows : list row3) : Prop :=
  clear_rows rows /\
  (bounded3 rows /\ apart_rows rows /\ separated3 rows \/
   ~ bounded3 rows /\ exists w, bounds = Some w /\ apart_rows (rows ++ box3 w) /\ separated3 (rows ++ box3 w)).
(** The call is one of IntLinIncR2 or IntLinIncR3 and does not raise. *)
Definition returns3 (eps : R) (around : R -> R) (c : call3) (st : list R) : Prop :=
  match c with Flat c => returns eps around c st | CallLineqs3 _ _ => False | CallR3 d uni m A b bounds => fst (r3_call eps around d uni m A b bounds st) <> None end.
