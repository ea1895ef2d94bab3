(** What is seen on the picture. *)
From Coq Require Import Reals List Arith.
From Verif Require Import Exact SpecExact Plot.
Import ListNotations.
Open Scope R_scope.

Inductive shape := Dot (p : point2) | Outline (ps : list point2) | Area (ps : list point2).
Definition shapes (d : draw) : list shape :=
  match d with Dots ps => map Dot ps | Polygons true ps => map Area ps | Polygons false ps => map Outline ps end.
Definition seen (ds : list draw) : list shape := flat_map shapes ds.
(** [q] is a weighted mean of the points. *)
Definition hull (ps : list point2) (q : point2) : Prop := exists w, length w = length ps /\ (forall a, In a w -> 0 <= a) /\ fold_right Rplus 0 w = 1 /\
  fold_right Rplus 0 (map (fun t => fst t * fst (snd t)) (combine w ps)) = fst q /\ fold_right Rplus 0 (map (fun t => fst t * snd (snd t)) (combine w ps)) = snd q.
(** The shape [s] covers exactly the box X x Y, and its kind is right: a dot for
    a point, an outline for a segment, an area otherwise. *)
Definition depicts (p : rit * rit) (s : shape) : Prop :=
  let (X, Y) := p in
  match s with
  | Dot q => rl X = rh X /\ rl Y = rh Y /\ q = (rl X, rl Y)
  | Outline ps => (rl X = rh X /\ rl Y <> rh Y \/ rl X <> rh X /\ rl Y = rh Y) /\ forall q, hull ps q <-> inI X (fst q) /\ inI Y (snd q)
  | Area ps => rl X <> rh X /\ rl Y <> rh Y /\ forall q, hull ps q <-> inI X (fst q) /\ inI Y (snd q)
  end.
