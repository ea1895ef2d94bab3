(** Model of linear/boundary_intervals.py: half-plane systems in the plane,
    their boundary segments and vertices, the orthant systems of interval linear
    equations and the change of variables used in space.  Numbers are exact
    reals; coordinates that may become infinite are [ext].  Plotting is not
    modelled. *)
From Coq Require Import Reals List Arith Bool.
From Verif Require Import Exact.
Import ListNotations.
Open Scope R_scope.

(** A float coordinate: a number, an infinity, or NaN.
    (numpy floats of boundary_intervals.py:10-221) *)
Inductive ext : Type := Fin (r : R) | PInf | NInf | NaN.
Definition ext_eq_dec (a b : ext) : {a = b} + {a <> b}.
Proof. decide equality. apply Req_EM_T. Defined.
(** [a <= b], [a < b] of floats (numpy, for boundary_intervals.py:10-221) *)
Definition ext_le (a b : ext) : bool :=
  match a, b with
  | NaN, _ | _, NaN => false
  | NInf, _ | _, PInf => true
  | PInf, _ | _, NInf => false
  | Fin x, Fin y => if Rle_dec x y then true else false
  end.
Definition ext_lt (a b : ext) : bool := match a, b with NaN, _ | _, NaN => false | _, _ => negb (ext_le b a) end.
(** number * coordinate and number + coordinate (numpy, for boundary_intervals.py:52-68) *)
Definition ext_scale (c : R) (q : ext) : ext :=
  match q with
  | Fin t => Fin (c * t)
  | NaN => NaN
  | PInf => if Rlt_dec 0 c then PInf else if Rlt_dec c 0 then NInf else NaN
  | NInf => if Rlt_dec 0 c then NInf else if Rlt_dec c 0 then PInf else NaN
  end.
Definition ext_shift (d : R) (q : ext) : ext := match q with Fin t => Fin (d + t) | e => e end.
(** |a - b| (numpy, for boundary_intervals.py:70-89) *)
Definition ext_dist (a b : ext) : ext :=
  match a, b with
  | Fin x, Fin y => Fin (Rabs (x - y))
  | NaN, _ | _, NaN | PInf, PInf | NInf, NInf => NaN
  | _, _ => PInf
  end.
(** [np.max] of two entries: NaN wins (numpy, for boundary_intervals.py:173-221) *)
Definition ext_max (a b : ext) : ext :=
  match a, b with NaN, _ | _, NaN => NaN | _, _ => if ext_le a b then b else a end.

(** One inequality [a0 x0 + a1 x1 >= rhs]: a row of A and an entry of b.
    (boundary_intervals.py:10-50) *)
Record row : Type := mkrow { a0 : R; a1 : R; rhs : R }.
Definition dot2 (r s : row) : R := a0 r * a0 s + a1 r * a1 s.
Definition pt : Type := (R * R)%type.
Definition ept : Type := (ext * ext)%type.
Definition at_pt (r : row) (x : pt) : R := a0 r * fst x + a1 r * snd x.

(** ** BoundaryIntervals, boundary_intervals.py:10-49 *)

(** boundary_intervals.py:17: [dotx], the foot of the perpendicular from the origin; boundary_intervals.py:19: [p] *)
Definition foot (r : row) : pt := (a0 r * rhs r / dot2 r r, a1 r * rhs r / dot2 r r).
Definition dir (r : row) : pt := (- a1 r, a0 r).
Inductive scan : Type := EmptySet | NoFace | Face (q0 q1 : ext).
(** boundary_intervals.py:21-39, the inner loop from index [k] on *)
Fixpoint bi_scan (i : nat) (ri : row) (k : nat) (rows : list row) (q0 q1 : ext) : scan :=
  match rows with
  | [] => Face q0 q1
  | rk :: rest =>
      if (k =? i)%nat then bi_scan i ri (S k) rest q0 q1 else
      let akx := at_pt rk (foot ri) in
      let c := at_pt rk (dir ri) in
      if Rlt_dec c 0 then
        let tmp := Fin ((rhs rk - akx) / c) in
        bi_scan i ri (S k) rest q0 (if ext_le q1 tmp then q1 else tmp)
      else if Rlt_dec 0 c then
        let tmp := Fin ((rhs rk - akx) / c) in
        bi_scan i ri (S k) rest (if ext_lt tmp q0 then q0 else tmp) q1
      else if Rlt_dec akx (rhs rk) then
        (if Rlt_dec 0 (dot2 rk ri) then NoFace else EmptySet)
      else bi_scan i ri (S k) rest q0 q1
  end.
(** A row of the returned array: start point, end point, index of the inequality.
    (boundary_intervals.py:10-50) *)
Record seg : Type := mkseg { s_from : ept; s_to : ept; s_idx : nat }.
Section BI.
(** 1e-301, boundary_intervals.py:45 *)
Variable eps : R.
(** boundary_intervals.py:47: [dotx + p * q] with the changed p *)
Definition on_line (ri : row) (q : ext) : ept :=
  (ext_shift (fst (foot ri)) (ext_scale (fst (dir ri) + eps) q), ext_shift (snd (foot ri)) (ext_scale (snd (dir ri) + eps) q)).
(** boundary_intervals.py:14-47, the outer loop from index [i] on; [None]: boundary_intervals.py:39 returned [] *)
Fixpoint bi_rows (all : list row) (i : nat) (rest : list row) : option (list seg) :=
  match rest with
  | [] => Some []
  | ri :: rest' =>
      match bi_scan i ri 0 all NInf PInf with
      | EmptySet => None
      | NoFace => bi_rows all (S i) rest'
      | Face q0 q1 =>
          match bi_rows all (S i) rest' with
          | None => None
          | Some l => Some (if ext_lt q1 q0 then l else mkseg (on_line ri q0) (on_line ri q1) i :: l)
          end
      end
  end.
Definition boundary_intervals (rows : list row) : list seg := match bi_rows rows 0 rows with Some l => l | None => [] end.

(** ** Intervals2Path, boundary_intervals.py:70-88 *)
Definition ept_dist (u v : ept) : ext := ext_max (ext_dist (fst u) (fst v)) (ext_dist (snd u) (snd v)).
Definition tol8 : ext := Fin (/ 100000000).
(** boundary_intervals.py:75-78: the first row that starts at [bs]; a failed search keeps the
    previous index *)
Fixpoint find_start (bs : ept) (k : nat) (S : list seg) : option nat :=
  match S with
  | [] => None
  | s :: S' => if ext_lt (ept_dist bs (s_from s)) tol8 then Some k else find_start bs (Datatypes.S k) S'
  end.
Fixpoint drop_nth {T} (k : nat) (l : list T) : list T :=
  match l, k with [], _ => [] | _ :: l', O => l' | a :: l', S k' => a :: drop_nth k' l' end.
(** boundary_intervals.py:74-88; [index = None]: not yet bound.  Every pass removes a row, so
    [fuel = length S] is enough. [None]: UnboundLocalError or IndexError *)
Fixpoint path_loop (fuel : nat) (bp bs : ept) (index : option nat) (S : list seg) : option (list ept) :=
  match fuel, S with
  | _, [] => Some []
  | O, _ => Some []
  | Datatypes.S f, _ =>
      match (match find_start bs 0 S with Some k => Some k | None => index end) with
      | None => None
      | Some k =>
          match nth_error S k with
          | None => None
          | Some s =>
              let es := s_to s in
              if ext_lt tol8 (ept_dist bs es) then
                if ext_lt (ept_dist bp es) tol8 then Some [es]
                else match path_loop f bp es (Some k) (drop_nth k S) with Some l => Some (es :: l) | None => None end
              else path_loop f bp bs (Some k) (drop_nth k S)
          end
      end
  end.
(** boundary_intervals.py:70-72: an empty S raises *)
Definition intervals2path (S : list seg) : option (list ept) :=
  match S with
  | [] => None
  | s :: _ => match path_loop (length S) (s_from s) (s_from s) None S with Some l => Some (s_from s :: l) | None => None end
  end.

(** ** clear_zero_rows and unique, kernel/preprocessing.py:16-42 for two columns *)
(** [np.around(_, 12)] (preprocessing.py:35-45) *)
Variable around : R -> R.
Definition around_row (r : row) : row := mkrow (around (a0 r)) (around (a1 r)) (around (rhs r)).
Definition tiny (x : R) : bool := if Rle_dec (Rabs x) (/ 1000000000000) then true else false.
Definition zero_row (r : row) : bool := tiny (a0 r) && tiny (a1 r).
(** The remaining rows, and whether no zero row has a positive right-hand side
    (preprocessing.py:35-45) *)
Definition clear_zero_rows (rows : list row) : list row * bool :=
  let rs := map around_row rows in
  (filter (fun r => negb (zero_row r)) rs, negb (existsb (fun r => zero_row r && (if Rlt_dec 0 (rhs r) then true else false)) rs)).
Definition around_ext (e : ext) : ext := match e with Fin x => Fin (around x) | e => e end.
Definition around_ept (p : ept) : ept := (around_ext (fst p), around_ext (snd p)).
Definition ept_eq_dec (u v : ept) : {u = v} + {u <> v}.
Proof. decide equality; apply ext_eq_dec. Defined.
(** First occurrences, in order (preprocessing.py:17-22) *)
Fixpoint firsts (seen l : list ept) : list ept :=
  match l with
  | [] => []
  | p :: l' => if in_dec ept_eq_dec p seen then firsts seen l' else p :: firsts (p :: seen) l'
  end.
Definition unique (l : list ept) : list ept := firsts [] (map around_ept l).

(** ** lineqs, boundary_intervals.py:173-221 (without plotting) *)

(** ParticularPoints (boundary_intervals.py:52-67): is some start infinite (or NaN)? *)
Definition ext_inf (e : ext) : bool := match e with Fin _ => false | _ => true end.
Definition unbounded (S : list seg) : bool := existsb (fun s => ext_inf (fst (s_from s)) || ext_inf (snd (s_from s))) S.
(** boundary_intervals.py:58-61: the feet of the inequalities in S *)
Definition feet (rows : list row) (S : list seg) : list pt := map (fun s => foot (nth (s_idx s) rows (mkrow 0 0 0))) S.
Definition mins (l : list R) : R := match l with [] => 0 | a :: l => fold_left Rmin l a end.
Definition maxs (l : list R) : R := match l with [] => 0 | a :: l => fold_left Rmax l a end.
(** boundary_intervals.py:191-198: lower and upper corner of the drawing window *)
Definition window (PP : list pt) : pt * pt :=
  let x0 := mins (map fst PP) in let y0 := mins (map snd PP) in
  let x1 := maxs (map fst PP) in let y1 := maxs (map snd PP) in
  let cx := (x0 + x1) / 2 in let cy := (y0 + y1) / 2 in
  let rm := Rmax ((x1 - x0) / 2) ((y1 - y0) / 2) in
  ((cx - 5 * rm, cy - 5 * rm), (cx + 5 * rm, cy + 5 * rm)).
Definition box_rows (w : pt * pt) : list row :=
  [mkrow 1 0 (fst (fst w)); mkrow 0 1 (snd (fst w)); mkrow (-1) 0 (- fst (snd w)); mkrow 0 (-1) (- snd (snd w))].
(** [bounds]: lower and upper corner given by the caller.  [None]: an exception.
    (boundary_intervals.py:173-221) *)
Definition lineqs (rows : list row) (bounds : option (pt * pt)) : option (list ept) :=
  let rs := fst (clear_zero_rows rows) in
  let S := boundary_intervals rs in
  match S with
  | [] => Some []
  | _ =>
      let S' := if unbounded S then
                  boundary_intervals (rs ++ box_rows (match bounds with Some w => w | None => window (feet rs S) end))
                else S in
      match intervals2path S' with None => None | Some P => Some (unique P) end
  end.
End BI.

(** ** The orthant systems, boundary_intervals.py:303-324 (two unknowns) and 606-633 (three) *)

(** boundary_intervals.py:309-312: [tmp]; entries are pairs of endpoints, dual ones swapped *)
Definition wl_tmp (sg : nat -> bool) (A : imat) : imat := fun i j => if sg j then mkr (rh (A i j)) (rl (A i j)) else A i j.
(** [sg k = true] stands for ortant[ort][k] == -1.  Rows 0..m-1, m..2m-1 and
    2m..2m+n-1 of WorkListA and WorkListb for m equations and n unknowns.
    (boundary_intervals.py:303-324) *)
Definition wl_A (uni : bool) (m : nat) (sg : nat -> bool) (A : imat) : mat := fun i j =>
  let t := wl_tmp sg A in
  if (i <? m)%nat then (if uni then rl (t i j) else - rl (t i j))
  else if (i <? 2 * m)%nat then (if uni then - rh (t (i - m)%nat j) else rh (t (i - m)%nat j))
  else if (i - 2 * m =? j)%nat then (if sg j then 1 else -1) else 0.
Definition wl_b (uni : bool) (m : nat) (b : ivec) : vec := fun i =>
  if (i <? m)%nat then (if uni then rh (b i) else - rl (b i))
  else if (i <? 2 * m)%nat then (if uni then - rl (b (i - m)%nat) else rh (b (i - m)%nat))
  else 0.
(** boundary_intervals.py:629-633, only in space: the first 2m entries are moved by 1e-15
    (here [d]) towards zero, or upwards when negative *)
Definition wl_b3 (d : R) (uni : bool) (m : nat) (b : ivec) : vec := fun i =>
  let v := wl_b uni m b i in
  if (i <? 2 * m)%nat then (if Rle_dec 0 v then v - d else v + d) else v.
(** boundary_intervals.py:324: lineqs receives -WorkListA, -WorkListb *)
Definition neg_mat (A : mat) : mat := fun i j => - A i j.
Definition neg_vec (b : vec) : vec := fun i => - b i.
(** The rows as [lineqs] sees them (two unknowns) (boundary_intervals.py:324) *)
Definition wl_rows (uni : bool) (m : nat) (sg : nat -> bool) (A : imat) (b : ivec) : list row :=
  map (fun i => mkrow (neg_mat (wl_A uni m sg A) i 0%nat) (neg_mat (wl_A uni m sg A) i 1%nat) (neg_vec (wl_b uni m b) i)) (seq 0 (2 * m + 2)).
(** boundary_intervals.py:296, in this order *)
Definition orthants2 : list (nat -> bool) :=
  [fun _ => false; fun k => (k =? 0)%nat; fun _ => true; fun k => (k =? 1)%nat].
(** IntLinIncR2 with explicit bounds (so that the second pass of boundary_intervals.py:328-333
    does not take place) *)
Definition int_lin_inc_r2 (eps : R) (around : R -> R) (uni : bool) (m : nat) (A : imat) (b : ivec) (bounds : pt * pt) : list (option (list ept)) :=
  map (fun sg => lineqs eps around (wl_rows uni m sg A b) (Some bounds)) orthants2.

(** ** ChangeVariable, boundary_intervals.py:91-108 *)
Definition v3 : Type := (R * R * R)%type.
Definition x1 (v : v3) := fst (fst v).
Definition x2 (v : v3) := snd (fst v).
Definition x3 (v : v3) := snd v.
Definition dot3 (u v : v3) : R := x1 u * x1 v + x2 u * x2 v + x3 u * x3 v.
Definition cross3 (u v : v3) : v3 := (x2 u * x3 v - x3 u * x2 v, x3 u * x1 v - x1 u * x3 v, x1 u * x2 v - x2 u * x1 v).
Definition cv_xi (a : v3) (b : R) : v3 := (x1 a * b / dot3 a a, x2 a * b / dot3 a a, x3 a * b / dot3 a a).
(** [l = argmin |A[k]|], first minimum (boundary_intervals.py:91-109) *)
Definition cv_l (a : v3) : nat :=
  if Rle_dec (Rabs (x1 a)) (Rabs (x2 a)) then (if Rle_dec (Rabs (x1 a)) (Rabs (x3 a)) then 0%nat else 2%nat)
  else (if Rle_dec (Rabs (x2 a)) (Rabs (x3 a)) then 1%nat else 2%nat).
Definition cv_y1 (a : v3) : v3 :=
  match cv_l a with
  | 0%nat => (0, x3 a, - x2 a)
  | 1%nat => (- x3 a, 0, x1 a)
  | _ => (x2 a, - x1 a, 0)
  end.
Definition cv_y2 (a : v3) : v3 := cross3 a (cv_y1 a).
(** [xi + y1 * s + y2 * t], boundary_intervals.py:442, 497 *)
Definition cv_point (a : v3) (b s t : R) : v3 :=
  let xi := cv_xi a b in let y1 := cv_y1 a in let y2 := cv_y2 a in
  (x1 xi + x1 y1 * s + x1 y2 * t, x2 xi + x2 y1 * s + x2 y2 * t, x3 xi + x3 y1 * s + x3 y2 * t).
(** A remaining inequality [c . x >= d] in the new variables, boundary_intervals.py:105-106 *)
Definition cv_row (a : v3) (b : R) (c : v3) (d : R) : row :=
  mkrow (dot3 c (cv_y1 a)) (dot3 c (cv_y2 a)) (d - dot3 c (cv_xi a b)).
