(** Model of IntLinIncR3 (linear/boundary_intervals.py:531-699) and of the module
    variable [__center_rm] it shares with lineqs, IntLinIncR2 and lineqs3D.
    Exact reals; drawing (boundary_intervals.py:658-696) is not modelled. *)
From Coq Require Import Reals ZArith List Arith Bool.
From Flocq Require Import Core.
From Verif Require Import Exact Boundary BoundaryState Boundary3.
Import ListNotations.
Open Scope R_scope.

(** numpy.around(x, decimals=12), kernel/preprocessing.py:37 and 27-28; the
    product, the rounding to an integer (ties to even) and the quotient, exactly *)
Definition around12 (x : R) : R := IZR (ZnearestE (x * 1000000000000)) / 1000000000000.
(** boundary_intervals.py:611-633: -WorkListA, -WorkListb for one orthant, m equations; [d] is 1e-15 *)
Definition wl_rows3 (d : R) (uni : bool) (m : nat) (sg : nat -> bool) (A : imat) (b : ivec) : list row3 :=
  map (fun i => mkrow3 (neg_mat (wl_A uni m sg A) i 0%nat, neg_mat (wl_A uni m sg A) i 1%nat, neg_mat (wl_A uni m sg A) i 2%nat) (neg_vec (wl_b3 d uni m b) i)) (seq 0 (2 * m + 3)).
(** boundary_intervals.py:598-599, in this order; [true] stands for -1 *)
Definition sign3 (a b c : bool) : nat -> bool := fun k => match k with 0%nat => a | 1%nat => b | _ => c end.
Definition orthants3 : list (nat -> bool) :=
  [sign3 false false false; sign3 true false false; sign3 true true false; sign3 false true false;
   sign3 false false true; sign3 true false true; sign3 true true true; sign3 false true true].
Section State.
Variables (eps : R) (around : R -> R).
(** lineqs3D: the answer and the new value of the variable (boundary_intervals.py:475) *)
Definition lineqs3_call (rows : list row3) (bounds : option (v3 * v3)) (st : list R) : option (list (list ev3)) * list R :=
  let rs := prepared around rows in
  let PP := flat_map fst (probes eps around rs) in
  (lineqs3 eps around rows bounds,
   if (length rs =? 1)%nat then st else
   match bounds with
   | Some _ => st
   | None => if existsb snd (probes eps around rs) then match all_points PP with Some ps => let (c, rm) := default3 ps in st ++ [Rabs c + rm] | None => st end else st
   end).
(** [algo], boundary_intervals.py:606-644: one pass over the orthants; an exception ends it *)
Fixpoint r3_pass (d : R) (uni : bool) (m : nat) (A : imat) (b : ivec) (bounds : option (v3 * v3)) (sgs : list (nat -> bool)) (st : list R) : option (list (list (list ev3))) * list R :=
  match sgs with
  | [] => (Some [], st)
  | sg :: rest =>
      let (P, st1) := lineqs3_call (wl_rows3 d uni m sg A b) bounds st in
      match P with
      | None => (None, st1)
      | Some p => let (ps, st2) := r3_pass d uni m A b bounds rest st1 in (match ps with Some l => Some (p :: l) | None => None end, st2)
      end
  end.
(** boundary_intervals.py:646-656, 699 *)
Definition r3_call (d : R) (uni : bool) (m : nat) (A : imat) (b : ivec) (bounds : option (v3 * v3)) (st : list R) : option (list (list (list ev3))) * list R :=
  let (V, st1) := r3_pass d uni m A b bounds orthants3 st in
  match V with
  | None => (None, st1)
  | Some _ =>
      match st1 with
      | [] => (V, [])
      | _ =>
          let M := maxs st1 in
          let (V2, st2) := r3_pass d uni m A b (Some ((- M, - M, - M), (M, M, M))) orthants3 st1 in
          match V2 with None => (None, st2) | Some _ => (V2, []) end
      end
  end.
(** Histories of all four functions. (boundary_intervals.py:112, 224, 352 and 531) *)
Inductive call3 : Type :=
  | Flat (c : call)
  | CallLineqs3 (rows : list row3) (bounds : option (v3 * v3))
  | CallR3 (d : R) (uni : bool) (m : nat) (A : imat) (b : ivec) (bounds : option (v3 * v3)).
Definition after3 (c : call3) (st : list R) : list R :=
  match c with
  | Flat c => after eps around c st
  | CallLineqs3 rows bounds => snd (lineqs3_call rows bounds st)
  | CallR3 d uni m A b bounds => snd (r3_call d uni m A b bounds st)
  end.
Definition history3 (cs : list call3) : list R := fold_left (fun st c => after3 c st) cs [].
(** The eight answers with given bounds. (boundary_intervals.py:606-633) *)
Definition int_lin_inc_r3 (d : R) (uni : bool) (m : nat) (A : imat) (b : ivec) (bounds : v3 * v3) : list (option (list (list ev3))) :=
  map (fun sg => lineqs3 eps around (wl_rows3 d uni m sg A b) (Some bounds)) orthants3.
End State.
