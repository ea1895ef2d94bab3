(** Model of the module variable [__center_rm] of linear/boundary_intervals.py:
    lineqs appends to it and IntLinIncR2 reads and empties it, so answers depend
    on the calls made before.  (lineqs3D and IntLinIncR3 use the same variable;
    they are not part of the histories here.) *)
From Coq Require Import Reals List Arith Bool.
From Verif Require Import Exact Boundary.
Import ListNotations.
Open Scope R_scope.

(** boundary_intervals.py:192-198: [max(abs(center) + 5*rm)] *)
Definition center_rm (PP : list pt) : R :=
  let x0 := mins (map fst PP) in let y0 := mins (map snd PP) in
  let x1 := maxs (map fst PP) in let y1 := maxs (map snd PP) in
  let cx := (x0 + x1) / 2 in let cy := (y0 + y1) / 2 in
  let rm := Rmax ((x1 - x0) / 2) ((y1 - y0) / 2) in
  Rmax (Rabs cx + 5 * rm) (Rabs cy + 5 * rm).
Section State.
Variables (eps : R) (around : R -> R).
(** lineqs, boundary_intervals.py:173-221: the answer ([None]: an exception) and the new value of
    the variable *)
Definition lineqs_call (rows : list row) (bounds : option (pt * pt)) (st : list R) : option (list ept) * list R :=
  let rs := fst (clear_zero_rows around rows) in
  let S := boundary_intervals eps rs in
  (lineqs eps around rows bounds,
   if unbounded S then match bounds with None => st ++ [center_rm (feet rs S)] | Some _ => st end else st).
(** IntLinIncR2, boundary_intervals.py:303-324: one pass over the orthants; an exception in
    lineqs ends it *)
Fixpoint r2_pass (uni : bool) (m : nat) (A : imat) (b : ivec) (bounds : option (pt * pt)) (sgs : list (nat -> bool)) (st : list R) : option (list (list ept)) * list R :=
  match sgs with
  | [] => (Some [], st)
  | sg :: rest =>
      let (P, st1) := lineqs_call (wl_rows uni m sg A b) bounds st in
      match P with
      | None => (None, st1)
      | Some p => let (ps, st2) := r2_pass uni m A b bounds rest st1 in (match ps with Some l => Some (p :: l) | None => None end, st2)
      end
  end.
(** boundary_intervals.py:325-335, 349 *)
Definition r2_call (uni : bool) (m : nat) (A : imat) (b : ivec) (bounds : option (pt * pt)) (st : list R) : option (list (list ept)) * list R :=
  let (V, st1) := r2_pass uni m A b bounds orthants2 st in
  match V with
  | None => (None, st1)
  | Some _ =>
      match st1 with
      | [] => (V, [])
      | _ =>
          let M := maxs st1 in
          let (V2, st2) := r2_pass uni m A b (Some ((- M, - M), (M, M))) orthants2 st1 in
          match V2 with None => (None, st2) | Some _ => (V2, []) end
      end
  end.
(** Histories: the value of the variable after some calls, starting from the
    import of the module (boundary_intervals.py:111) *)
Inductive call : Type :=
  | CallLineqs (rows : list row) (bounds : option (pt * pt))
  | CallR2 (uni : bool) (m : nat) (A : imat) (b : ivec) (bounds : option (pt * pt)).
Definition after (c : call) (st : list R) : list R :=
  match c with
  | CallLineqs rows bounds => snd (lineqs_call rows bounds st)
  | CallR2 uni m A b bounds => snd (r2_call uni m A b bounds st)
  end.
Definition history (cs : list call) : list R := fold_left (fun st c => after c st) cs [].
End State.
