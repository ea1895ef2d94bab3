(** Property C69: lineqs3D lists the faces of a set in space. *)
From Coq Require Import Reals List Lra.
From Verif Require Import Exact Boundary Boundary3 SpecBoundary3 Boundary3Plane Boundary3Proofs Boundary3Cases BoundaryHull Boundary3Sound.
Import ListNotations.
Open Scope R_scope.

(** A bounded set: one polygon for every non-empty face, in the order of the
    inequalities, listing each corner of the face once in order. *)
Theorem C69_faces : forall rows bounds, told_apart rows -> all_apart rows -> bounded3 rows -> separated3 rows ->
  exists L, lineqs3 0 (fun t => t) rows bounds = Some L /\ all_faces rows L.
Proof. exact faces_of_bounded. Qed.
Print Assumptions C69_faces.

Example C69_faces_case : told_apart unit_cube /\ all_apart unit_cube /\ bounded3 unit_cube /\ separated3 unit_cube /\ in_set3 unit_cube (1 / 2, 1 / 2, 1 / 2).
Proof.
  split; [exact unit_cube_told|]. split; [apply axis_apart, unit_cube_axis|]. split; [exact unit_cube_bounded|]. split; [apply axis_separated3, unit_cube_axis|].
  apply unit_cube_in. unf3. lra.
Qed.

(** An unbounded set is cut by the window asked for. *)
Theorem C69_window : forall rows w, told_apart rows -> (2 <= length rows)%nat -> ~ bounded3 rows -> all_apart (rows ++ box3 w) -> separated3 (rows ++ box3 w) ->
  (forall x, in_set3 (rows ++ box3 w) x <-> in_set3 rows x /\ in_window w x) /\
  exists L, lineqs3 0 (fun t => t) rows (Some w) = Some L /\ all_faces (rows ++ box3 w) L.
Proof. exact faces_in_window. Qed.
Print Assumptions C69_window.

(** Without a window: the call raises, and then a whole plane belongs to the set,
    or the set is cut by a cube with three equal centre coordinates. *)
Theorem C69_default : forall rows, told_apart rows -> (2 <= length rows)%nat -> ~ bounded3 rows -> all_apart rows ->
  lineqs3 0 (fun t => t) rows None = None /\ (exists r, In r rows /\ forall x, tight3 r x -> in_set3 rows x) \/
  exists c h, 0 < h /\ (all_apart (rows ++ box3 (cube c h)) -> separated3 (rows ++ box3 (cube c h)) ->
    exists L, lineqs3 0 (fun t => t) rows None = Some L /\ all_faces (rows ++ box3 (cube c h)) L).
Proof. exact faces_default. Qed.
Print Assumptions C69_default.

Definition c69_wedge : list row3 := [mkrow3 (1, 0, 0) 0; mkrow3 (0, 1, 0) (-1)].
Definition c69_w : v3 * v3 := ((-1, -1, -1), (1, 1, 1)).
Example C69_window_case : told_apart c69_wedge /\ (2 <= length c69_wedge)%nat /\ ~ bounded3 c69_wedge /\ all_apart (c69_wedge ++ box3 c69_w) /\ separated3 (c69_wedge ++ box3 c69_w) /\ in_window c69_w (1, 0, 1).
Proof.
  assert (Ax : forall r, In r (c69_wedge ++ box3 c69_w) -> axis3 r).
  { intros r H. unfold c69_wedge, c69_w, box3 in H. unfold axis3. unf3. cbn [app fst snd] in H. repeat (destruct H as [<-|H]; [cbn [nrm off]; split; [tauto|lra]|]). destruct H. }
  split; [split|split; [simpl; auto|split; [|split; [now apply axis_apart|split; [now apply axis_separated3|]]]]].
  - unfold c69_wedge, row_minus_off. cbn [map nrm off]. unf3. repeat (constructor; [cbn [In]; intro H; repeat (destruct H as [H|H]; [revert H; ne3|]); exact H|]). constructor.
  - intros r Hr. apply axis_direction, Ax, in_or_app. now left.
  - intros (B & H). destruct (H (0, 0, Rabs B + 1)) as (_ & _ & H3); [intros r [<-|[<-|[]]]; unfold holds3; cbn [nrm off]; unf3; lra|]. unf3. assert (X := Rle_abs B). assert (Y := Rabs_pos B). rewrite Rabs_pos_eq in H3; lra.
  - unfold in_window, c69_w. unf3. lra.
Qed.

(** The set is the convex hull of the points returned. *)
Theorem C69_hull : forall rows bounds, told_apart rows -> all_apart rows -> bounded3 rows -> separated3 rows ->
  exists L, lineqs3 0 (fun t => t) rows bounds = Some L /\ forall x, in_set3 rows x <-> hull3 (listed3 L) x.
Proof. intros rows bounds T Ap Bd Sp. destruct (faces_of_bounded rows bounds T Ap Bd Sp) as (L & E & F). exists L. split; [exact E|]. now apply all_faces_hull. Qed.
Print Assumptions C69_hull.
Theorem C69_window_hull : forall rows w, told_apart rows -> (2 <= length rows)%nat -> ~ bounded3 rows -> all_apart (rows ++ box3 w) -> separated3 (rows ++ box3 w) ->
  exists L, lineqs3 0 (fun t => t) rows (Some w) = Some L /\ forall x, in_set3 rows x /\ in_window w x <-> hull3 (listed3 L) x.
Proof.
  intros rows w T L2 Nb Ap Sp. destruct (faces_in_window rows w T L2 Nb Ap Sp) as (I & L & E & F). exists L. split; [exact E|]. intro x. rewrite <- I. apply all_faces_hull; [exact Ap|apply box3_bounded|exact F].
Qed.
Print Assumptions C69_window_hull.

(** For any rounding of the entries, and any positions of the planes: a returned
    point lies on the plane of one inequality and nearly satisfies all that are
    kept, and the window. *)
Theorem C69_nearly_feasible : forall around d rows bounds L x, (forall t, Rabs (around t - t) <= d) -> (forall t, around (around t) = around t) ->
  lineqs3 0 around rows bounds = Some L -> listed3 L x ->
  exists window r, In r (prepared around rows ++ window) /\ tight3 r x /\
    (forall s, In s (prepared around rows ++ window) -> nearly ((d + / 1000000000000) * (1 + 2 * norm3 x * (/ norm3 (nrm r) + / (norm3 (nrm r) * norm3 (nrm r))))) s x) /\
    (window = [] \/ exists w, window = box3 w /\ (forall w', bounds = Some w' -> w' = w)).
Proof. exact lineqs3_sound. Qed.
Print Assumptions C69_nearly_feasible.
Example C69_nearly_case : (forall t, Rabs ((fun t : R => t) t - t) <= 0) /\ exists L, lineqs3 0 (fun t => t) unit_cube None = Some L /\ listed3 L (0, 0, 0).
Proof.
  split; [intro t; rewrite Rminus_diag_eq, Rabs_R0 by reflexivity; lra|]. destruct (unit_cube_faces None) as (L & E & F). exists L. split; [exact E|]. destruct (origin_listed L F) as (P & H). now exists P.
Qed.

(** Repeated inequalities do not matter; two different ones are confused only
    when their rows of A - b are the same. *)
Theorem C69_repeated : forall rows, exists kept, told_apart kept /\ (forall r, In r kept -> In r rows) /\
  (forall bounds, lineqs3 0 (fun t => t) rows bounds = lineqs3 0 (fun t => t) kept bounds) /\
  ((forall r s, In r rows -> In s rows -> row_minus_off r = row_minus_off s -> r = s) ->
   (forall r, In r rows -> has_direction r \/ (nrm r = (0, 0, 0) /\ off r <= 0)) -> forall x, in_set3 kept x <-> in_set3 rows x).
Proof. intro rows. exists (prepared idr rows). destruct (prepared_spec rows) as (H1 & H2 & H3). split; [exact H1|]. split; [exact H2|]. split; [intro bounds; apply lineqs3_again|exact H3]. Qed.
Print Assumptions C69_repeated.

(** Different inequalities with the same row of A - b: one is dropped, and a
    returned point violates it. *)
Theorem C69_merged_refuted : exists rows L P, lineqs3 0 (fun t => t) rows None = Some L /\ In P L /\ In (fin3 (0, 0, 0)) P /\
  ~ in_set3 rows (0, 0, 0) /\ (forall r, In r rows -> has_direction r) /\ NoDup rows.
Proof. exact merged_refuted. Qed.
Print Assumptions C69_merged_refuted.

(** An inequality 0 >= 1 is dropped: polygons are returned for an empty set. *)
Theorem C69_contradiction_refuted : exists rows L, (forall x, ~ in_set3 rows x) /\ lineqs3 0 (fun t => t) rows None = Some L /\ L <> [].
Proof. exact contradiction_refuted. Qed.
Print Assumptions C69_contradiction_refuted.

(** One inequality raises, with and without a window; a system with a whole
    plane raises without a window. *)
Theorem C69_one_inequality_refuted : forall r bounds, has_direction r -> lineqs3 0 (fun t => t) [r] bounds = None.
Proof. exact one_inequality_raises. Qed.
Print Assumptions C69_one_inequality_refuted.
Theorem C69_whole_plane_refuted : forall rows, told_apart rows -> all_apart rows -> (exists r, In r rows /\ forall x, tight3 r x -> in_set3 rows x) -> lineqs3 0 (fun t => t) rows None = None.
Proof. exact whole_plane_raises. Qed.
Print Assumptions C69_whole_plane_refuted.

Definition c69_slab : list row3 := [mkrow3 (1, 0, 0) 0; mkrow3 (-1, 0, 0) (-1)].
Example C69_raises_case : has_direction (mkrow3 (1, 0, 0) 0) /\ told_apart c69_slab /\ all_apart c69_slab /\ exists r, In r c69_slab /\ forall x, tight3 r x -> in_set3 c69_slab x.
Proof.
  assert (Ax : forall r, In r c69_slab -> axis3 r). { intros r [<-|[<-|[]]]; unfold axis3; cbn [nrm off]; split; tauto. }
  split; [apply axis_direction, Ax; now left|]. split; [split; [|intros r Hr; now apply axis_direction, Ax]|split; [now apply axis_apart|]].
  - unfold c69_slab, row_minus_off. cbn [map nrm off]. unf3. repeat (constructor; [cbn [In]; intro H; repeat (destruct H as [H|H]; [revert H; ne3|]); exact H|]). constructor.
  - exists (mkrow3 (1, 0, 0) 0). split; [now left|]. intros x T r [<-|[<-|[]]]; unfold holds3, tight3 in *; cbn [nrm off] in *; unf3; lra.
Qed.

(** The window the program chooses can miss the set: for x >= 2, y <= -2 nothing
    is returned. *)
Theorem C69_default_window_refuted : exists rows, (forall t, in_set3 rows (2, -2, t)) /\ lineqs3 0 (fun t => t) rows None = Some [].
Proof. exists corner_wedge. split; apply window_misses_refuted. Qed.
Print Assumptions C69_default_window_refuted.
