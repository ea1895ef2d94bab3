(** Vocabulary for systems of linear inequalities in the plane. *)
From Coq Require Import Reals List Arith.
From Verif Require Import Exact SpecExact Boundary BoundaryState.
Open Scope R_scope.

(** [x] satisfies the inequality [a0 x0 + a1 x1 >= rhs]. *)
Definition holds (r : row) (x : pt) : Prop := rhs r <= a0 r * fst x + a1 r * snd x.
Definition tight (r : row) (x : pt) : Prop := a0 r * fst x + a1 r * snd x = rhs r.
Definition nonzero (r : row) : Prop := a0 r <> 0 \/ a1 r <> 0.
Definition parallel (r s : row) : Prop := a0 r * a1 s = a1 r * a0 s.
(** The set described by a list of inequalities. *)
Definition in_set (rows : list row) (x : pt) : Prop := forall r, In r rows -> holds r x.
(** The part of that set on the line of inequality number [i]. *)
Definition face (rows : list row) (i : nat) (x : pt) : Prop :=
  in_set rows x /\ exists r, nth_error rows i = Some r /\ tight r x.
Definition between (u v x : pt) : Prop := exists l, 0 <= l <= 1 /\
  fst x = fst u + l * (fst v - fst u) /\ snd x = snd u + l * (snd v - snd u).
(** A returned point with finite coordinates. *)
Definition finite_at (e : ept) (u : pt) : Prop := e = (Fin (fst u), Fin (snd u)).
(** Position along the line of [r], increasing in the direction (-a1, a0). *)
Definition along (r : row) (x : pt) : R := - a1 r * fst x + a0 r * snd x.
(** The signs of the coordinates: [sg j = true] means x_j <= 0. *)
Definition in_orthant (n : nat) (sg : nat -> bool) (x : vec) : Prop :=
  forall j, (j < n)%nat -> if sg j then x j <= 0 else 0 <= x j.
(** [G x >= h] for N inequalities in n unknowns. *)
Definition satisfies (N n : nat) (G : mat) (h x : vec) : Prop := forall i, (i < N)%nat -> h i <= times n G x i.
(** [b] with both endpoints moved outwards by [d] (inwards when d < 0). *)
Definition widen (d : R) (b : ivec) : ivec := fun i => mkr (rl (b i) - d) (rh (b i) + d).
Definition vec2 (x : pt) : vec := fun j => match j with O => fst x | _ => snd x end.
(** A corner of the set: two of its inequalities with different directions are
    equalities there. *)
Definition vertex (rows : list row) (x : pt) : Prop := in_set rows x /\
  exists r s, In r rows /\ In s rows /\ tight r x /\ tight s x /\ ~ parallel r s.
Definition bounded (rows : list row) : Prop := exists B, forall x, in_set rows x -> Rabs (fst x) <= B /\ Rabs (snd x) <= B.
(** Different corners are more than [d] apart in one of the coordinates. *)
Definition separated (d : R) (rows : list row) : Prop := forall x y, vertex rows x -> vertex rows y ->
  x = y \/ d < Rabs (fst x - fst y) \/ d < Rabs (snd x - snd y).
(** The segment from [u] to [v] is all of the set that lies on the line of one of
    its inequalities, and the set is to the right of it. *)
Definition edge (rows : list row) (u v : pt) : Prop :=
  (exists i, forall x, face rows i x <-> between u v x) /\
  forall x, in_set rows x -> (fst v - fst u) * (snd x - snd u) - (snd v - snd u) * (fst x - fst u) <= 0.
(** [V] lists every corner of the set once, going round it clockwise. *)
Definition polygon (rows : list row) (V : list pt) : Prop :=
  NoDup V /\ (forall x, In x V <-> vertex rows x) /\
  forall k u v, nth_error V k = Some u -> nth_error V (S k mod length V) = Some v -> edge rows u v.

(** How a corner appears in an answer. *)
Definition listed (around : R -> R) (x : pt) : ept := (Fin (around (fst x)), Fin (around (snd x))).
(** The window an unbounded set is cut with: the given one, or the one computed
    from the system. *)
Definition used_window (rs : list row) (bounds : option (pt * pt)) : pt * pt :=
  match bounds with Some w => w | None => window (feet rs (boundary_intervals 0 rs)) end.
(** The call is one of IntLinIncR2 and does not raise. *)
Definition returns (eps : R) (around : R -> R) (c : call) (st : list R) : Prop :=
  match c with CallLineqs _ _ => False | CallR2 uni m A b bounds => fst (r2_call eps around uni m A b bounds st) <> None end.
(** Convex hull: what is in every convex set containing the points. *)
Definition convex (C : pt -> Prop) : Prop := forall u v x, C u -> C v -> between u v x -> C x.
Definition hull_of (P : pt -> Prop) (x : pt) : Prop := forall C, convex C -> (forall p, P p -> C p) -> C x.
