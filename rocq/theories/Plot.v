(** Model of IPlot.scatter and IPlot.IntLinIncR2 (kernel/visualization.py:32-63)
    up to the calls of matplotlib they make; colours, transparency and the
    choice of the axes are not modelled. *)
From Coq Require Import Reals List Bool.
From Verif Require Import Exact.
Import ListNotations.
Open Scope R_scope.

Definition point2 := (R * R)%type.
(** ax.scatter(points), and ax.fill with one polygon per column; [inside] is the
    argument fill (True by default). (visualization.py:32-57) *)
Inductive draw := Dots (ps : list point2) | Polygons (inside : bool) (ps : list (list point2)).

(** flatx = x.a == x.b, visualization.py:35-36. *)
Definition flat (x : rit) : bool := if Req_EM_T (rl x) (rh x) then true else false.
(** One column of ox, oy, visualization.py:45-46. *)
Definition outline (p : rit * rit) : list point2 :=
  let (x, y) := p in [(rl x, rl y); (rl x, rh y); (rh x, rh y); (rh x, rl y)].
Definition index_dot (p : rit * rit) : bool := flat (fst p) && flat (snd p).
Definition full_fill (p : rit * rit) : bool := (flat (fst p) || flat (snd p)) && negb (index_dot p).
Definition scinny_fill (p : rit * rit) : bool := negb (flat (fst p) || flat (snd p)) && negb (index_dot p).
(** scatter, visualization.py:33-49; the arrays x and y have equal lengths and are given as
    the list of pairs of their elements. *)
Definition scatter (ps : list (rit * rit)) : list draw :=
  (if existsb index_dot ps then [Dots (map (fun p => (rl (fst p), rl (snd p))) (filter index_dot ps))] else []) ++
  [Polygons false (map outline (filter full_fill ps)); Polygons true (map outline (filter scinny_fill ps))].
(** lineqs, visualization.py:53-57, and IntLinIncR2, visualization.py:61-63. *)
Definition plot_lineqs (v : list point2) : list draw := [Polygons true [v]; Dots v].
Definition plot_r2 (vs : list (list point2)) : list draw :=
  flat_map (fun v => match v with [] => [] | _ => plot_lineqs v end) vs.
