(** Property C70: IntLinIncR3 draws the solution set, orthant by orthant, cut by
    one window. *)
From Coq Require Import Reals List Lra.
From Verif Require Import Exact SpecExact Boundary SpecBoundary BoundaryState BoundaryStateProofs Boundary3 SpecBoundary3 Boundary3Plane Boundary3Proofs Boundary3Cases Boundary3State SpecBoundary3State Boundary3StateProofs Boundary3Slices Boundary3SlicesCases.
Import ListNotations.
Open Scope R_scope.

(** Each of the eight answers is, up to the shift [d] of the right-hand side, the
    part of the solution set in its orthant: the hull of the returned points. An
    unbounded part is cut by the window asked for. *)
Theorem C70_orthants : forall d uni m A b bounds, 0 <= d -> proper_mat m 3 A -> proper_vec m b ->
  (forall sg, In sg orthants3 -> fine bounds (wl_rows3 d uni m sg A b)) ->
  exists V, r3_call 0 (fun t => t) d uni m A b bounds [] = (Some V, []) /\
    Forall2 (fun sg L => forall x,
      (hull3 (listed3 L) x -> in_orthant 3 sg (vec3 x) /\ solution3 uni m A (widen d b) x) /\
      (in_orthant 3 sg (vec3 x) -> solution3 uni m A (widen (- d) b) x -> (forall w, bounds = Some w -> in_window w x) -> hull3 (listed3 L) x) /\
      (hull3 (listed3 L) x -> bounded3 (wl_rows3 d uni m sg A b) \/ exists w, bounds = Some w /\ in_window w x)) orthants3 V.
Proof. exact slices_fine. Qed.
Print Assumptions C70_orthants.

(** Together the eight answers are the solution set. *)
Theorem C70_union : forall d uni m A b bounds, 0 <= d -> proper_mat m 3 A -> proper_vec m b ->
  (forall sg, In sg orthants3 -> fine bounds (wl_rows3 d uni m sg A b)) ->
  exists V, r3_call 0 (fun t => t) d uni m A b bounds [] = (Some V, []) /\ length V = 8%nat /\ forall x,
    ((exists L, In L V /\ hull3 (listed3 L) x) -> solution3 uni m A (widen d b) x) /\
    (solution3 uni m A (widen (- d) b) x -> (forall w, bounds = Some w -> in_window w x) -> exists L, In L V /\ hull3 (listed3 L) x).
Proof. exact slices_union. Qed.
Print Assumptions C70_union.

(** [1, 2] x_k = [-1, 1] for k = 1, 2, 3 with the shift 1e-15, without a window;
    0 x = [-1, 1], all of space, with the window [-2, 2]^3. *)
Example C70_bounded_case : 0 <= d15 /\ proper_mat 3 3 twoA /\ proper_vec 3 oneb /\ (forall sg, In sg orthants3 -> fine None (wl_rows3 d15 true 3 sg twoA oneb)) /\ solution3 true 3 twoA (widen (- d15) oneb) (1 / 2, - (1 / 2), 0).
Proof.
  assert (D := d15_small). split; [lra|]. split; [intros i j _ _; unfold proper, twoA; destruct Nat.eqb; simpl; lra|]. split; [intros i _; unfold proper, oneb; simpl; lra|]. split; [intros sg _; apply two_fine|].
  exists (fun i j => if Nat.eqb i j then 1 else 0), (vec3 (1 / 2, - (1 / 2), 0)). split; [intros i j _ _; unfold inI, twoA; destruct Nat.eqb; simpl; lra|]. split.
  - intros [|[|i]] _; unfold inI, widen, oneb; cbn [vec3 rl rh]; unf3; lra.
  - intros [|[|[|i]]] Hi; unfold times; cbn [total Nat.eqb vec3]; unf3; lra.
Qed.
Example C70_window_case : 0 <= d15 /\ proper_mat 1 3 zeroA /\ proper_vec 1 oneb /\ (forall sg, In sg orthants3 -> fine (Some (ball 2)) (wl_rows3 d15 true 1 sg zeroA oneb)) /\ in_window (ball 2) (1, -1, 2).
Proof.
  assert (D := d15_small). split; [lra|]. split; [apply zero_proper|]. split; [apply zero_proper|]. split; [intros sg _; apply zero_fine; now right|]. unfold in_window, ball. unf3. lra.
Qed.

(** Whatever was called before, and for any rounding: the eight answers of a call
    that returns are cut by one and the same window, and the module variable is
    empty afterwards. *)
Theorem C70_one_window : forall eps around d uni m A b bounds cs V st', r3_call eps around d uni m A b bounds (history3 eps around cs) = (Some V, st') ->
  st' = [] /\ exists w, int_lin_inc_r3 eps around d uni m A b w = map Some V.
Proof. intros eps around d uni m A b bounds cs V st'. apply r3_one_window. Qed.
Print Assumptions C70_one_window.
Theorem C70_given_window : forall eps around d uni m A b w V, int_lin_inc_r3 eps around d uni m A b w = map Some V <-> r3_call eps around d uni m A b (Some w) [] = (Some V, []).
Proof. exact r3_given_window. Qed.
Print Assumptions C70_given_window.
(** A call of IntLinIncR2 or IntLinIncR3 that returns leaves nothing behind. *)
Theorem C70_history : forall eps around cs c, returns3 eps around c (history3 eps around cs) -> history3 eps around (cs ++ [c]) = [].
Proof. exact r3_history. Qed.
Print Assumptions C70_history.
Example C70_returns_case : exists c, returns3 0 (fun t => t) c (history3 0 (fun t => t) []).
Proof.
  destruct C70_window_case as (D & PA & Pb & F & _). destruct (slices_fine d15 true 1 zeroA oneb (Some (ball 2)) D PA Pb F) as (V & E & _). exists (CallR3 d15 true 1 zeroA oneb (Some (ball 2))). cbn [returns3 history3 fold_left].
  change (r3_call 0 (fun t => t) d15 true 1 zeroA oneb (Some (ball 2)) []) with (r3_call 0 idr d15 true 1 zeroA oneb (Some (ball 2)) []). rewrite E. discriminate.
Qed.

(** After a call of lineqs3D without bounds the window asked for is not used: a
    solution inside it is missing from the answer. *)
Theorem C70_stale_window_refuted : exists rows A b w V V' x, history3 0 (fun t => t) [CallLineqs3 rows None] <> [] /\
  r3_call 0 (fun t => t) d15 true 1 A b (Some w) [] = (Some V, []) /\ r3_call 0 (fun t => t) d15 true 1 A b (Some w) (history3 0 (fun t => t) [CallLineqs3 rows None]) = (Some V', []) /\
  (exists L, In L V /\ hull3 (listed3 L) x) /\ ~ (exists L, In L V' /\ hull3 (listed3 L) x).
Proof. exists corner_wedge. exact stale3_refuted. Qed.
Print Assumptions C70_stale_window_refuted.

(** With the program's own rounding to 12 decimals and shift 1e-15: an equation is
    lost because its row of A - b equals another one's.  The solution set is empty,
    even for right-hand sides widened by 1/4; a box is returned. *)
Theorem C70_dropped_equation_refuted : exists A b, proper_mat 4 3 A /\ proper_vec 4 b /\ (forall x, ~ solution3 true 4 A (widen (/ 4) b) x) /\
  forall bounds, exists V L, r3_call 0 around12 d15 true 4 A b bounds [] = (Some V, []) /\ nth_error V 6 = Some L /\ listed3 L (-1, -1, -1).
Proof. exact dropped_refuted. Qed.
Print Assumptions C70_dropped_equation_refuted.
