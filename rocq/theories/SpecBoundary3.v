(** Vocabulary for systems of linear inequalities in space. *)
From Coq Require Import Reals List Arith Sorted.
From Verif Require Import Exact SpecExact Boundary Boundary3.
Import ListNotations.
Open Scope R_scope.

Definition holds3 (r : row3) (x : v3) : Prop := off r <= dot3 (nrm r) x.
Definition tight3 (r : row3) (x : v3) : Prop := dot3 (nrm r) x = off r.
Definition in_set3 (rows : list row3) (x : v3) : Prop := forall r, In r rows -> holds3 r x.
Definition bounded3 (rows : list row3) : Prop := exists B, forall x, in_set3 rows x -> Rabs (x1 x) <= B /\ Rabs (x2 x) <= B /\ Rabs (x3 x) <= B.
(** The part of the set in the plane of one of its inequalities. *)
Definition face3 (rows : list row3) (r : row3) (x : v3) : Prop := in_set3 rows x /\ tight3 r x.
(** A corner of that part: three of the inequalities, this one among them, with
    independent directions are equalities. *)
Definition corner3 (rows : list row3) (r : row3) (x : v3) : Prop := face3 rows r x /\
  exists s t, In s rows /\ In t rows /\ tight3 s x /\ tight3 t x /\ dot3 (nrm r) (cross3 (nrm s) (nrm t)) <> 0.
Definition sub3 (x y : v3) : v3 := (x1 x - x1 y, x2 x - x2 y, x3 x - x3 y).
Definition between3 (u v x : v3) : Prop := exists l, 0 <= l <= 1 /\
  x = (x1 u + l * (x1 v - x1 u), x2 u + l * (x2 v - x2 u), x3 u + l * (x3 v - x3 u)).
(** The segment from [u] to [v] is where the face meets the plane of a further
    inequality, and the face lies to the right of it (seen against the normal). *)
Definition edge3 (rows : list row3) (r : row3) (u v : v3) : Prop :=
  (exists s, In s rows /\ forall x, face3 rows r x /\ tight3 s x <-> between3 u v x) /\
  forall x, face3 rows r x -> dot3 (nrm r) (cross3 (sub3 v u) (sub3 x u)) <= 0.
(** [V] lists every corner of the face once, going round it. *)
Definition polygon3 (rows : list row3) (r : row3) (V : list v3) : Prop :=
  NoDup V /\ (forall x, In x V <-> corner3 rows r x) /\
  forall k u v, nth_error V k = Some u -> nth_error V (S k mod length V) = Some v -> edge3 rows r u v.
Definition fin3 (x : v3) : ev3 := (Fin (x1 x), Fin (x2 x), Fin (x3 x)).
(** The returned array lists the polygon of the face and may repeat a corner at
    the end. *)
Definition shows (rows : list row3) (r : row3) (P : list ev3) : Prop :=
  exists V C, P = map fin3 (V ++ C) /\ polygon3 rows r V /\ (C = [] \/ exists b, C = [b] /\ In b V).
(** The answer has one polygon for every face that is not empty, in order. *)
Definition all_faces (rows : list row3) (L : list (list ev3)) : Prop :=
  exists idx, StronglySorted lt idx /\
    (forall i, In i idx <-> exists r x, nth_error rows i = Some r /\ face3 rows r x) /\
    Forall2 (fun i P => exists r, nth_error rows i = Some r /\ shows rows r P) idx L.
(** Directions are equal up to a factor or differ noticeably. *)
Definition apart (a c : v3) : Prop := cross3 a c = (0, 0, 0) \/
  2 * / 1000000000000 ^ 2 * (1 + dot3 a a) < dot3 a a * dot3 (cross3 a c) (cross3 a c).
Definition all_apart (rows : list row3) : Prop := forall r s, In r rows -> In s rows -> nrm r <> (0, 0, 0) /\ apart (nrm r) (nrm s).
(** Different corners of a face are noticeably far from each other. *)
Definition separated3 (rows : list row3) : Prop := forall r x y, In r rows -> corner3 rows r x -> corner3 rows r y ->
  x = y \/ 2 * / 100000000 ^ 2 * dot3 (nrm r) (nrm r) * (1 + dot3 (nrm r) (nrm r)) < dot3 (sub3 x y) (sub3 x y).
(** Inequalities the program does not confuse: the rows of [A - b] are all
    different, and no row of [A] counts as zero. *)
Definition row_minus_off (r : row3) : v3 := (x1 (nrm r) - off r, x2 (nrm r) - off r, x3 (nrm r) - off r).
Definition has_direction (r : row3) : Prop := / 1000000000000 < Rabs (x1 (nrm r)) \/ / 1000000000000 < Rabs (x2 (nrm r)) \/ / 1000000000000 < Rabs (x3 (nrm r)).
Definition told_apart (rows : list row3) : Prop := NoDup (map row_minus_off rows) /\ forall r, In r rows -> has_direction r.
(** A window, given by its lower and its upper corner, as inequalities. *)
Definition in_window (w : v3 * v3) (x : v3) : Prop :=
  x1 (fst w) <= x1 x <= x1 (snd w) /\ x2 (fst w) <= x2 x <= x2 (snd w) /\ x3 (fst w) <= x3 x <= x3 (snd w).
(** Convex hull: what is in every convex set containing the points. *)
Definition convex3 (C : v3 -> Prop) : Prop := forall u v x, C u -> C v -> between3 u v x -> C x.
Definition hull3 (P : v3 -> Prop) (x : v3) : Prop := forall C, convex3 C -> (forall p, P p -> C p) -> C x.
Definition listed3 (L : list (list ev3)) (x : v3) : Prop := exists P, In P L /\ In (fin3 x) P.
Definition norm3 (x : v3) : R := sqrt (dot3 x x).
(** [x] violates the inequality by at most [d]. *)
Definition nearly (d : R) (r : row3) (x : v3) : Prop := off r - d <= dot3 (nrm r) x.
