(** Model of lineqs3D (linear/boundary_intervals.py:352-528): the faces of a set
    of inequalities in space.  Numbers are exact reals as in Boundary.v; plotting
    (boundary_intervals.py:502-526) is not modelled. *)
From Coq Require Import Reals List Arith Bool.
From Verif Require Import Exact Boundary.
Import ListNotations.
Open Scope R_scope.

(** One inequality [nrm . x >= off]: a row of A and an entry of b.
    (boundary_intervals.py:352-528) *)
Record row3 : Type := mkrow3 { nrm : v3; off : R }.
(** A point with float coordinates. (boundary_intervals.py:352-528) *)
Definition ev3 : Type := (ext * ext * ext)%type.
(** coordinate + coordinate (numpy, for boundary_intervals.py:91-109) *)
Definition ext_add (a b : ext) : ext :=
  match a, b with
  | NaN, _ | _, NaN | PInf, NInf | NInf, PInf => NaN
  | Fin x, Fin y => Fin (x + y)
  | PInf, _ | _, PInf => PInf
  | NInf, _ | _, NInf => NInf
  end.
(** [(xi + y1*p[0]) + y2*p[1]], boundary_intervals.py:442, 497 *)
Definition lift (r : row3) (p : ept) : ev3 :=
  let xi := cv_xi (nrm r) (off r) in let y1 := cv_y1 (nrm r) in let y2 := cv_y2 (nrm r) in
  let f := fun c1 c2 c0 => ext_add (ext_shift c0 (ext_scale c1 (fst p))) (ext_scale c2 (snd p)) in
  (f (x1 y1) (x1 y2) (x1 xi), f (x2 y1) (x2 y2) (x2 xi), f (x3 y1) (x3 y2) (x3 xi)).

Section Space.
Variables (eps : R) (around : R -> R).
(** clear_zero_rows(A, b, ndim=3), kernel/preprocessing.py:35-44 *)
Definition around_row3 (r : row3) : row3 :=
  mkrow3 (around (x1 (nrm r)), around (x2 (nrm r)), around (x3 (nrm r))) (around (off r)).
Definition zero_row3 (r : row3) : bool := tiny (x1 (nrm r)) && tiny (x2 (nrm r)) && tiny (x3 (nrm r)).
Definition clear_zero_rows3 (rows : list row3) : list row3 := filter (fun r => negb (zero_row3 r)) (map around_row3 rows).
(** non_repeat, preprocessing.py:25-32: rows with equal entries of [(a.T - b).T]
    are taken for the same row, the first one is kept *)
Definition key (r : row3) : v3 := (x1 (nrm r) - off r, x2 (nrm r) - off r, x3 (nrm r) - off r).
Definition v3_eq_dec (u v : v3) : {u = v} + {u <> v}.
Proof. decide equality; [apply Req_EM_T|decide equality; apply Req_EM_T]. Defined.
Fixpoint first_keys (seen : list v3) (rows : list row3) : list row3 :=
  match rows with
  | [] => []
  | r :: rest => if in_dec v3_eq_dec (key r) seen then first_keys seen rest else r :: first_keys (key r :: seen) rest
  end.
Definition non_repeat (rows : list row3) : list row3 := first_keys [] (map around_row3 rows).
(** boundary_intervals.py:411-412 *)
Definition prepared (rows : list row3) : list row3 := non_repeat (clear_zero_rows3 rows).

(** ChangeVariable (boundary_intervals.py:91-108) followed by clear_zero_rows (boundary_intervals.py:424-425, 487-488): the other inequalities in the plane of inequality [k] *)
Definition plane_rows (rows : list row3) (k : nat) (r : row3) : list row :=
  map (fun s => cv_row (nrm r) (off r) (nrm s) (off s)) (drop_nth k rows).
Definition plane (rows : list row3) (k : nat) (r : row3) : list row * bool := clear_zero_rows around (plane_rows rows k r).

(** Entries of PP: [xi] alone (boundary_intervals.py:430) or a list of points (boundary_intervals.py:444) *)
Inductive entry : Type := Bare (xi : v3) | Points (ps : list v3).
Definition fin_part (e : ext) : R := match e with Fin x => x | _ => 0 end.
(** boundary_intervals.py:423-449 for one inequality: the entry of PP, and whether cfinite is set
    to False.  ParticularPoints (boundary_intervals.py:52-67) gives the feet when some start is
    infinite, else the starts, which are then finite. *)
Definition probe (rows : list row3) (k : nat) (r : row3) : list entry * bool :=
  let (rs, cnmty) := plane rows k r in
  if cnmty then
    match rs with
    | [] => ([Bare (cv_xi (nrm r) (off r))], true)
    | _ =>
        match boundary_intervals eps rs with
        | [] => ([], false)
        | (_ :: _) as T =>
            let inf := unbounded T in
            let ps := if inf then feet rs T else map (fun s => (fin_part (fst (s_from s)), fin_part (snd (s_from s)))) T in
            ([Points (map (fun p => cv_point (nrm r) (off r) (fst p) (snd p)) ps)], inf)
        end
    end
  else ([], false).
Definition each {T} (f : nat -> row3 -> T) (rows : list row3) : list T := map (fun p => f (fst p) (snd p)) (combine (seq 0 (length rows)) rows).
Definition probes (rows : list row3) : list (list entry * bool) := each (probe rows) rows.

(** boundary_intervals.py:455-468; [None]: IndexError, because a bare [xi] has no points.
    Else the centre (its three coordinates are equal) and the half width *)
Fixpoint all_points (PP : list entry) : option (list v3) :=
  match PP with
  | [] => Some []
  | Bare _ :: _ => None
  | Points ps :: rest => match all_points rest with Some l => Some (ps ++ l) | None => None end
  end.
Definition mean (l : list R) : R := fold_right Rplus 0 l / INR (length l).
Definition default3 (ps : list v3) : R * R :=
  let xs := map x1 ps in let ys := map x2 ps in let zs := map x3 ps in
  let c := mean (map (fun p => x1 p + x2 p + x3 p) ps) in
  let rm := (maxs xs - mins xs) + (maxs ys - mins ys) + (maxs zs - mins zs) in
  (c, if Rle_dec rm (/ 100000000000000) then rm + 1 else rm).
(** boundary_intervals.py:476-481: the six inequalities of a window with the given corners *)
Definition box3 (w : v3 * v3) : list row3 :=
  [mkrow3 (1, 0, 0) (x1 (fst w)); mkrow3 (0, 1, 0) (x2 (fst w)); mkrow3 (0, 0, 1) (x3 (fst w));
   mkrow3 (-1, 0, 0) (- x1 (snd w)); mkrow3 (0, -1, 0) (- x2 (snd w)); mkrow3 (0, 0, -1) (- x3 (snd w))].
Definition cube (c rm : R) : v3 * v3 := ((c - rm, c - rm, c - rm), (c + rm, c + rm, c + rm)).

(** boundary_intervals.py:486-500 for one inequality: the polygon, if there is one; [None]: an
    exception *)
Definition polygon_of (rows : list row3) (k : nat) (r : row3) : option (list (list ev3)) :=
  let (rs, cnmty) := plane rows k r in
  if cnmty then
    match boundary_intervals eps rs with
    | [] => Some []
    | (_ :: _) as T => match intervals2path T with None => None | Some P => Some [map (lift r) P] end
    end
  else Some [].
Fixpoint join {T} (l : list (option (list T))) : option (list T) :=
  match l with
  | [] => Some []
  | None :: _ => None
  | Some a :: rest => match join rest with Some b => Some (a ++ b) | None => None end
  end.
Definition polygons (rows : list row3) : option (list (list ev3)) := join (each (polygon_of rows) rows).

(** lineqs3D, boundary_intervals.py:408-528; [None]: an exception.  With one inequality left
    ChangeVariable indexes with an empty float array and raises. *)
Definition lineqs3 (rows : list row3) (bounds : option (v3 * v3)) : option (list (list ev3)) :=
  let rs := prepared rows in
  if (length rs =? 1)%nat then None else
  let PP := flat_map fst (probes rs) in
  match PP with
  | [] => Some []
  | _ =>
      if existsb snd (probes rs) then
        match bounds with
        | Some w => polygons (rs ++ box3 w)
        | None => match all_points PP with None => None | Some ps => let (c, rm) := default3 ps in polygons (rs ++ box3 (cube c rm)) end
        end
      else polygons rs
  end.
End Space.
