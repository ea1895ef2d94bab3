(** Which inequalities lineqs3D keeps, its chosen window, and concrete systems. *)
From Coq Require Import Reals List Bool Arith Lia Lra Psatz Sorted Classical.
From Verif Require Import Exact SpecExact Boundary SpecBoundary BoundaryProofs BoundaryMore BoundaryPath BoundaryWindow Boundary3 SpecBoundary3 Boundary3Plane Boundary3Proofs.
Import ListNotations.
Open Scope R_scope.

Lemma around_idr (rows : list row3) : map (around_row3 idr) rows = rows.
Proof. induction rows as [|[[[a b] c] d] rows IH]; [reflexivity|]. cbn [map]. rewrite IH. reflexivity. Qed.
Lemma zero_direction r : zero_row3 r = false <-> has_direction r.
Proof.
  unfold zero_row3, has_direction, tiny. destruct (Rle_dec (Rabs (x1 (nrm r))) _), (Rle_dec (Rabs (x2 (nrm r))) _), (Rle_dec (Rabs (x3 (nrm r))) _); simpl; split; intro H; try reflexivity; try discriminate; try (exfalso; lra); lra.
Qed.
Lemma cleared3 rows : (forall r, In r rows -> has_direction r) -> clear_zero_rows3 idr rows = rows.
Proof.
  unfold clear_zero_rows3. rewrite around_idr. induction rows as [|r rows IH]; intro H; [reflexivity|]. cbn [filter]. rewrite (proj2 (zero_direction r)) by (apply H; now left). cbn [negb]. f_equal. apply IH. intros q Hq. apply H. now right.
Qed.
Lemma first_keys_id rows : forall seen, NoDup (map row_minus_off rows) -> (forall r, In r rows -> ~ In (key r) seen) -> first_keys seen rows = rows.
Proof.
  induction rows as [|r rows IH]; intros seen Nd Ns; [reflexivity|]. cbn [first_keys map] in *. inversion Nd as [|? ? N1 N2]; subst. destruct (in_dec v3_eq_dec (key r) seen) as [H|H]; [destruct (Ns r ltac:(now left) H)|]. f_equal. apply IH; [exact N2|].
  intros q Hq [E|E]; [apply N1; change (In (key r) (map key rows)); rewrite E; now apply in_map|]. exact (Ns q ltac:(now right) E).
Qed.
Lemma prepared_told_apart rows : told_apart rows -> prepared idr rows = rows.
Proof. intros [Nd D]. unfold prepared, non_repeat. rewrite (cleared3 rows D), around_idr. apply first_keys_id; auto. Qed.
Lemma first_keys_in rows : forall seen r, In r (first_keys seen rows) -> In r rows /\ ~ In (key r) seen.
Proof.
  induction rows as [|q rows IH]; intros seen r H; [destruct H|]. cbn [first_keys] in H. destruct (in_dec v3_eq_dec (key q) seen) as [E|E].
  - apply IH in H. split; [now right|tauto].
  - destruct H as [<-|H]; [split; [now left|exact E]|]. apply IH in H. split; [now right|]. intro X. apply (proj2 H). now right.
Qed.
Lemma first_keys_nodup rows : forall seen, NoDup (map row_minus_off (first_keys seen rows)).
Proof.
  induction rows as [|q rows IH]; intro seen; [constructor|]. cbn [first_keys]. destruct (in_dec v3_eq_dec (key q) seen); [apply IH|]. cbn [map]. constructor; [|apply IH]. intro H. apply in_map_iff in H. destruct H as (r & E & Hr). apply first_keys_in in Hr. apply (proj2 Hr). left. symmetry. exact E.
Qed.
Lemma first_keys_has rows : forall seen r, In r rows -> ~ In (key r) seen -> exists q, In q (first_keys seen rows) /\ key q = key r.
Proof.
  induction rows as [|p rows IH]; intros seen r H N; [destruct H|]. cbn [first_keys]. destruct (in_dec v3_eq_dec (key p) seen) as [E|E].
  - destruct H as [->|H]; [contradiction|]. now apply IH.
  - destruct H as [->|H]; [exists r; split; [now left|reflexivity]|]. destruct (v3_eq_dec (key p) (key r)) as [Q|Q]; [exists p; split; [now left|exact Q]|]. destruct (IH (key p :: seen) r H) as (q & Hq & Eq); [intros [X|X]; [exact (Q X)|exact (N X)]|]. exists q. split; [now right|exact Eq].
Qed.
(** The inequalities kept are told apart, and they describe the same set when
    different ones have different rows of A - b. *)
Theorem prepared_spec rows : told_apart (prepared idr rows) /\ (forall r, In r (prepared idr rows) -> In r rows) /\
  ((forall r s, In r rows -> In s rows -> row_minus_off r = row_minus_off s -> r = s) -> (forall r, In r rows -> has_direction r \/ (nrm r = (0, 0, 0) /\ off r <= 0)) -> forall x, in_set3 (prepared idr rows) x <-> in_set3 rows x).
Proof.
  assert (I : forall r, In r (prepared idr rows) -> In r rows /\ has_direction r).
  { intros r H. unfold prepared, non_repeat in H. apply first_keys_in in H. rewrite around_idr in H. destruct H as [H _]. unfold clear_zero_rows3 in H. rewrite around_idr in H. apply filter_In in H. destruct H as [H1 H2]. split; [exact H1|]. apply zero_direction. now apply negb_true_iff. }
  split; [split; [apply first_keys_nodup|intros r H; now apply I]|]. split; [intros r H; now apply I|]. intros Sep Dir x. split; [|intros H r Hr; apply H; now apply I].
  intros H r Hr. destruct (Dir r Hr) as [D|[E L]].
  - destruct (first_keys_has (clear_zero_rows3 idr rows) [] r) as (q & Hq & Eq); [|intros []|].
    { unfold clear_zero_rows3. rewrite around_idr. apply filter_In. split; [exact Hr|]. rewrite (proj2 (zero_direction r) D). reflexivity. }
    assert (P : In q (prepared idr rows)) by (unfold prepared, non_repeat; rewrite around_idr; exact Hq). rewrite <- (Sep q r); [now apply H|now apply I|exact Hr|exact Eq].
  - unfold holds3. rewrite E. unf3. lra.
Qed.
Theorem lineqs3_again rows bounds : lineqs3 0 idr rows bounds = lineqs3 0 idr (prepared idr rows) bounds.
Proof. unfold lineqs3. rewrite (prepared_told_apart (prepared idr rows)); [reflexivity|]. apply prepared_spec. Qed.

(** ** The theorems for systems that are told apart *)
Theorem faces_of_bounded rows bounds : told_apart rows -> all_apart rows -> bounded3 rows -> separated3 rows -> exists L, lineqs3 0 idr rows bounds = Some L /\ all_faces rows L.
Proof. intros T Ap Bd Sp. assert (E := prepared_told_apart rows T). assert (H := lineqs3_bounded rows bounds). cbv zeta in H. rewrite E in H. now apply H. Qed.
Theorem faces_in_window rows w : told_apart rows -> (2 <= length rows)%nat -> ~ bounded3 rows -> all_apart (rows ++ box3 w) -> separated3 (rows ++ box3 w) ->
  (forall x, in_set3 (rows ++ box3 w) x <-> in_set3 rows x /\ in_window w x) /\ exists L, lineqs3 0 idr rows (Some w) = Some L /\ all_faces (rows ++ box3 w) L.
Proof.
  intros T L2 Nb Ap Sp. split; [intro x; rewrite in_set3_app, box3_in; reflexivity|]. assert (E := prepared_told_apart rows T). assert (H := lineqs3_window rows w). cbv zeta in H. rewrite E in H. now apply H.
Qed.
Theorem faces_default rows : told_apart rows -> (2 <= length rows)%nat -> ~ bounded3 rows -> all_apart rows ->
  lineqs3 0 idr rows None = None /\ (exists r, In r rows /\ forall x, tight3 r x -> in_set3 rows x) \/
  exists c h, 0 < h /\ (all_apart (rows ++ box3 (cube c h)) -> separated3 (rows ++ box3 (cube c h)) -> exists L, lineqs3 0 idr rows None = Some L /\ all_faces (rows ++ box3 (cube c h)) L).
Proof. intros T L2 Nb Ap. assert (E := prepared_told_apart rows T). assert (H := lineqs3_default rows). cbv zeta in H. rewrite E in H. now apply H. Qed.
Theorem one_inequality_raises r bounds : has_direction r -> lineqs3 0 idr [r] bounds = None.
Proof. intro D. unfold lineqs3. rewrite (prepared_told_apart [r]); [reflexivity|]. split; [repeat constructor; intros []|intros q [<-|[]]; exact D]. Qed.
(** If the whole plane of an inequality belongs to the set and no window is
    given, the call raises. *)
Theorem whole_plane_raises rows : told_apart rows -> all_apart rows -> (exists r, In r rows /\ forall x, tight3 r x -> in_set3 rows x) -> lineqs3 0 idr rows None = None.
Proof.
  intros T Ap (r & Hr & W). unfold lineqs3. rewrite (prepared_told_apart rows T). destruct (length rows =? 1)%nat; [reflexivity|]. cbv zeta. apply In_nth_error in Hr. destruct Hr as (k & Hk).
  assert (Pr : probe 0 idr rows k r = ([Bare (cv_xi (nrm r) (off r))], true)).
  { assert (NO := fun x => not_ok rows k r Hk Ap x). assert (Iff := fun p => face_plane rows k r Hk Ap p). assert (Nz := rs_nonzero rows k r). unfold probe. rewrite (surjective_pairing (plane idr rows k r)). set (qs := fst (plane idr rows k r)) in *. set (ok := snd (plane idr rows k r)) in *.
    assert (Tp := phi_tight rows k r Hk Ap). destruct ok; [|exfalso; apply (NO (phi r (0, 0)) eq_refl); split; [now apply W|apply Tp]].
    destruct qs as [|q qs]; [reflexivity|]. exfalso. assert (N := Nz q ltac:(now left)). assert (P := norm_pos q N).
    assert (K : forall p, holds q p) by (intro p; apply (proj1 (Iff p eq_refl)); [split; [apply W, Tp|apply Tp]|now left]).
    set (l := - (1 + Rabs (rhs q)) / dot2 q q). specialize (K (l * a0 q, l * a1 q)). unfold holds in K. cbn [fst snd] in K. replace (a0 q * (l * a0 q) + a1 q * (l * a1 q)) with (- (1 + Rabs (rhs q))) in K by (unfold l, dot2 in *; field; lra).
    assert (X := Rle_abs (- rhs q)). rewrite Rabs_Ropp in X. lra. }
  assert (In (probe 0 idr rows k r) (probes 0 idr rows)) by (apply each_in; eauto). rewrite Pr in H.
  assert (U : existsb snd (probes 0 idr rows) = true) by (apply existsb_exists; eexists; split; [exact H|reflexivity]). rewrite U.
  assert (B : In (Bare (cv_xi (nrm r) (off r))) (flat_map fst (probes 0 idr rows))) by (apply in_flat_map; eexists; split; [exact H|now left]).
  destruct (flat_map fst (probes 0 idr rows)) as [|e l]; [destruct B|]. assert (AP : all_points (e :: l) = None); [|now rewrite AP].
  clear - B. revert B. generalize (cv_xi (nrm r) (off r)). generalize (e :: l). clear. induction l as [|e l IH]; intros xi B; [destruct B|]. destruct e as [y|ps]; [reflexivity|]. destruct B as [B|B]; [discriminate|]. cbn [all_points]. now rewrite (IH xi B).
Qed.

(** ** Systems along the axes *)
Definition axis3 (r : row3) : Prop := (nrm r = (1, 0, 0) \/ nrm r = (-1, 0, 0) \/ nrm r = (0, 1, 0) \/ nrm r = (0, -1, 0) \/ nrm r = (0, 0, 1) \/ nrm r = (0, 0, -1)) /\ (off r = -1 \/ off r = 0 \/ off r = 1 \/ off r = 2).
Ltac ne3 := let E := fresh in intro E; injection E; intros; lra.
Lemma small_square n : 10 <= n -> 0 < / n ^ 2 < / 8.
Proof. intro H. assert (100 <= n ^ 2) by nra. split; [apply Rinv_0_lt_compat; lra|apply Rinv_lt_contravar; [lra|lra]]. Qed.
Lemma axis_apart rows : (forall r, In r rows -> axis3 r) -> all_apart rows.
Proof.
  intros Ax r s Hr Hs. destruct (Ax r Hr) as [R _]. destruct (Ax s Hs) as [Q _]. clear Ax Hr Hs. split.
  - destruct R as [-> |[-> |[-> |[-> |[-> | ->]]]]]; ne3.
  - unfold apart. assert (C := small_square 1000000000000 ltac:(lra)). set (t := / 1000000000000 ^ 2) in *. clearbody t. destruct R as [-> |[-> |[-> |[-> |[-> | ->]]]]]; destruct Q as [-> |[-> |[-> |[-> |[-> | ->]]]]]; unfold cross3, dot3, x1, x2, x3; cbn [fst snd];
      first [left; apply v3_ext; unfold x1, x2, x3; cbn [fst snd]; ring | right; lra].
Qed.
Definition grid (t : R) : Prop := t = -2 \/ t = -1 \/ t = 0 \/ t = 1 \/ t = 2.
Lemma axis_tight r x : axis3 r -> tight3 r x -> (x2 (nrm r) = 0 /\ x3 (nrm r) = 0 /\ grid (x1 x)) \/ (x1 (nrm r) = 0 /\ x3 (nrm r) = 0 /\ grid (x2 x)) \/ (x1 (nrm r) = 0 /\ x2 (nrm r) = 0 /\ grid (x3 x)).
Proof.
  intros [R O] T. unfold tight3 in T. unfold grid. destruct R as [E|[E|[E|[E|[E|E]]]]]; rewrite E in *; unfold dot3, x1, x2, x3 in *; cbn [fst snd] in *; [left|left|right; left|right; left|right; right|right; right]; (split; [reflexivity|split; [reflexivity|]]); destruct O as [O|[O|[O|O]]]; lra.
Qed.
Lemma grid_corner rows r x : (forall r, In r rows -> axis3 r) -> In r rows -> corner3 rows r x -> grid (x1 x) /\ grid (x2 x) /\ grid (x3 x).
Proof.
  intros Ax Hr [[_ Tr] (s & t & Hs & Ht & Ts & Tt & D)]. assert (A := axis_tight r x (Ax r Hr) Tr). assert (B := axis_tight s x (Ax s Hs) Ts). assert (C := axis_tight t x (Ax t Ht) Tt). revert D A B C. unf3.
  destruct (nrm r) as [[p q] z], (nrm s) as [[p' q'] z'], (nrm t) as [[p'' q''] z'']. cbn [fst snd]. intros D A B C.
  destruct A as [(-> & -> & A)|[(-> & -> & A)|(-> & -> & A)]], B as [(-> & -> & B)|[(-> & -> & B)|(-> & -> & B)]], C as [(-> & -> & C)|[(-> & -> & C)|(-> & -> & C)]]; first [tauto | exfalso; apply D; ring].
Qed.
Lemma grid_gap s t : grid s -> grid t -> s = t \/ 1 <= (s - t) * (s - t).
Proof. unfold grid. intros S T. destruct S as [-> |[-> |[-> |[-> | ->]]]], T as [-> |[-> |[-> |[-> | ->]]]]; first [left; reflexivity | right; lra]. Qed.
Lemma axis_separated3 rows : (forall r, In r rows -> axis3 r) -> separated3 rows.
Proof.
  intros Ax r x y Hr Cx Cy. destruct (grid_corner rows r x Ax Hr Cx) as (G1 & G2 & G3). destruct (grid_corner rows r y Ax Hr Cy) as (K1 & K2 & K3).
  assert (N : dot3 (nrm r) (nrm r) = 1) by (destruct (Ax r Hr) as [R _]; destruct R as [-> |[-> |[-> |[-> |[-> | ->]]]]]; unf3; ring). rewrite N. change (dot3 (sub3 x y) (sub3 x y)) with ((x1 x - x1 y) * (x1 x - x1 y) + (x2 x - x2 y) * (x2 x - x2 y) + (x3 x - x3 y) * (x3 x - x3 y)). assert (C := small_square 100000000 ltac:(lra)). set (t := / 100000000 ^ 2) in *. clearbody t.
  destruct (grid_gap _ _ G1 K1) as [E1|E1]; [destruct (grid_gap _ _ G2 K2) as [E2|E2]; [destruct (grid_gap _ _ G3 K3) as [E3|E3]; [left; now apply v3_ext|]|]|]; right.
  - assert (S1 := Rle_0_sqr (x1 x - x1 y)). assert (S2 := Rle_0_sqr (x2 x - x2 y)). unfold Rsqr in *. lra.
  - assert (S1 := Rle_0_sqr (x1 x - x1 y)). assert (S2 := Rle_0_sqr (x3 x - x3 y)). unfold Rsqr in *. lra.
  - assert (S1 := Rle_0_sqr (x2 x - x2 y)). assert (S2 := Rle_0_sqr (x3 x - x3 y)). unfold Rsqr in *. lra.
Qed.
Lemma axis_direction r : axis3 r -> has_direction r.
Proof. intros [R _]. unfold has_direction. destruct R as [-> |[-> |[-> |[-> |[-> | ->]]]]]; unf3; unfold Rabs; repeat destruct Rcase_abs; lra. Qed.
(** The unit cube. *)
Definition unit_cube : list row3 := box3 ((0, 0, 0), (1, 1, 1)).
Lemma unit_cube_axis r : In r unit_cube -> axis3 r.
Proof. unfold unit_cube, box3, axis3. unf3. intro H. repeat (destruct H as [<-|H]; [cbn [nrm off]; split; [tauto|lra]|]). destruct H. Qed.
Lemma unit_cube_keys : NoDup (map row_minus_off unit_cube).
Proof. unfold unit_cube, box3, row_minus_off. unf3. cbn [map nrm off fst snd]. repeat (constructor; [cbn [In]; intro H; repeat (destruct H as [H|H]; [revert H; ne3|]); exact H|]). constructor. Qed.
Lemma unit_cube_told : told_apart unit_cube.
Proof. split; [exact unit_cube_keys|]. intros r Hr. now apply axis_direction, unit_cube_axis. Qed.
Lemma unit_cube_bounded : bounded3 unit_cube.
Proof. exact (box3_bounded [] ((0, 0, 0), (1, 1, 1))). Qed.
Lemma unit_cube_in x : in_set3 unit_cube x <-> 0 <= x1 x <= 1 /\ 0 <= x2 x <= 1 /\ 0 <= x3 x <= 1.
Proof. unfold unit_cube. rewrite box3_in. cbn [fst snd]. unf3. reflexivity. Qed.
Lemma unit_cube_faces bounds : exists L, lineqs3 0 idr unit_cube bounds = Some L /\ all_faces unit_cube L.
Proof. apply faces_of_bounded; [exact unit_cube_told|apply axis_apart, unit_cube_axis|exact unit_cube_bounded|apply axis_separated3, unit_cube_axis]. Qed.
Lemma origin_listed L : all_faces unit_cube L -> exists P, In P L /\ In (fin3 (0, 0, 0)) P.
Proof.
  intros (idx & _ & Iff & F). assert (C : corner3 unit_cube (mkrow3 (1, 0, 0) 0) (0, 0, 0)).
  { split; [split; [apply unit_cube_in; unf3; lra|unfold tight3; cbn [nrm off]; unf3; ring]|]. exists (mkrow3 (0, 1, 0) 0), (mkrow3 (0, 0, 1) 0). unfold unit_cube, box3, tight3. cbn [nrm off]. unf3. cbn [In]. repeat split; auto; lra. }
  assert (H : In 0%nat idx). { apply Iff. exists (mkrow3 (1, 0, 0) 0), (0, 0, 0). split; [reflexivity|exact (proj1 C)]. }
  clear Iff. induction F as [|i P idx' L' (r & Hr & V & Cc & -> & (_ & Vs & _) & _) F IH]; [destruct H|]. destruct H as [->|H].
  - injection Hr as <-. eexists. split; [now left|]. apply in_map. apply in_or_app. left. apply Vs. exact C.
  - destruct (IH H) as (Q & HQ & I). exists Q. split; [now right|exact I].
Qed.
(** A seventh inequality with the same row of A - b as the first is dropped. *)
Theorem merged_refuted : exists rows L P, lineqs3 0 idr rows None = Some L /\ In P L /\ In (fin3 (0, 0, 0)) P /\ ~ in_set3 rows (0, 0, 0) /\ (forall r, In r rows -> has_direction r) /\ NoDup rows.
Proof.
  set (extra := mkrow3 (2, 1, 1) 1). assert (Pe : prepared idr (unit_cube ++ [extra]) = unit_cube).
  { assert (D : forall r, In r (unit_cube ++ [extra]) -> has_direction r).
    { intros r Hr. apply in_app_or in Hr. destruct Hr as [Hr|[<-|[]]]; [now apply unit_cube_told|]. left. unfold extra. cbn [nrm]. unf3. rewrite Rabs_pos_eq; lra. }
    unfold prepared, non_repeat. rewrite (cleared3 _ D), around_idr.
    assert (G : forall l seen, NoDup (map row_minus_off l) -> (forall r, In r l -> ~ In (key r) seen) -> In (key extra) seen \/ In (key extra) (map key l) -> first_keys seen (l ++ [extra]) = l).
    { induction l as [|q l IH]; intros seen Nd Ns I; cbn [app first_keys].
      - destruct I as [I|[]]. destruct in_dec; [reflexivity|contradiction].
      - cbn [map] in Nd. inversion Nd as [|? ? N1 N2]; subst. destruct in_dec as [B|B]; [destruct (Ns q ltac:(now left) B)|]. f_equal. apply IH; [exact N2| |].
        + intros p Hp [E|E]; [apply N1; change (In (key q) (map key l)); rewrite E; now apply in_map|exact (Ns p ltac:(now right) E)].
        + destruct I as [I|[I|I]]; [left; now right|left; now left|now right]. }
    apply G; [exact unit_cube_keys|auto|]. right. left. unfold key, extra. cbn [nrm off]. apply v3_ext; unf3; lra. }
  destruct (unit_cube_faces None) as (L & EL & F). destruct (origin_listed L F) as (P & HP & I). exists (unit_cube ++ [extra]), L, P. split; [rewrite lineqs3_again, Pe; exact EL|]. split; [exact HP|]. split; [exact I|]. split; [|split].
  - intro H. specialize (H extra ltac:(apply in_or_app; right; now left)). unfold holds3, extra in H. cbn [nrm off] in H. unf3. lra.
  - intros r Hr. apply in_app_or in Hr. destruct Hr as [Hr|[<-|[]]]; [now apply unit_cube_told|]. left. unfold extra. cbn [nrm]. unf3. rewrite Rabs_pos_eq; lra.
  - unfold unit_cube, box3, extra. unf3. cbn [app fst snd]. repeat (constructor; [cbn [In]; intro H; repeat (destruct H as [H|H]; [revert H; ne3|]); exact H|]). constructor.
Qed.
(** A contradictory inequality 0 >= 1 is dropped: the set is empty, the answer
    is the unit cube. *)
Theorem contradiction_refuted : exists rows L, (forall x, ~ in_set3 rows x) /\ lineqs3 0 idr rows None = Some L /\ L <> [].
Proof.
  set (bad := mkrow3 (0, 0, 0) 1). destruct (unit_cube_faces None) as (L & EL & F). destruct (origin_listed L F) as (P & HP & _). exists (bad :: unit_cube), L. split; [|split].
  - intros x H. specialize (H bad ltac:(now left)). unfold holds3, bad in H. cbn [nrm off] in H. unf3. lra.
  - rewrite lineqs3_again. replace (prepared idr (bad :: unit_cube)) with (prepared idr unit_cube); [rewrite <- lineqs3_again; exact EL|]. unfold prepared, clear_zero_rows3. rewrite !around_idr. f_equal. cbn [filter]. unfold zero_row3 at 2, bad. cbn [nrm]. unf3. rewrite !tiny_zero by reflexivity. reflexivity.
  - intro E. rewrite E in HP. destruct HP.
Qed.
(** ** The window chosen by the program *)
Definition corner_wedge : list row3 := [mkrow3 (1, 0, 0) 2; mkrow3 (0, -1, 0) 2].
Lemma wedge_axis r : In r corner_wedge -> axis3 r.
Proof. intros [<-|[<-|[]]]; unfold axis3; cbn [nrm off]; split; tauto. Qed.
Lemma wedge_told : told_apart corner_wedge.
Proof. split; [|intros r Hr; now apply axis_direction, wedge_axis]. unfold corner_wedge, row_minus_off. cbn [map nrm off]. unf3. repeat (constructor; [cbn [In]; intro H; repeat (destruct H as [H|H]; [revert H; ne3|]); exact H|]). constructor. Qed.
Lemma single_row q : nonzero q -> exists s, boundary_intervals 0 [q] = [s] /\ s_idx s = 0%nat /\ unbounded [s] = true.
Proof.
  intro N. assert (Nz : forall r, In r [q] -> nonzero r) by (intros r [<-|[]]; exact N). destruct (boundary_indices 0 [q] Nz) as [Nd Iff].
  assert (F : face [q] 0 (foot q)). { split; [intros r [<-|[]]; unfold holds; rewrite (foot_tight q N); lra|]. exists q. split; [reflexivity|now apply foot_tight]. }
  assert (Un : unbounded (boundary_intervals 0 [q]) = true).
  { apply (unbounded_detected [q] Nz (foot q)); [discriminate|apply F|]. intros (B & HB). assert (P := norm_pos q N).
    assert (K : forall t, in_set [q] (param q t)) by (intros t r [<-|[]]; unfold holds; rewrite (param_tight q t N); lra).
    assert (Kx : forall t, Rabs (along q (param q t)) <= Rabs (a1 q) * B + Rabs (a0 q) * B).
    { intro t. destruct (HB _ (K t)) as [B1 B2]. unfold along. eapply Rle_trans; [apply Rabs_triang|]. rewrite !Rabs_mult, Rabs_Ropp. assert (P1 := Rabs_pos (a1 q)). assert (P2 := Rabs_pos (a0 q)). nra. }
    set (D := Rabs (a1 q) * B + Rabs (a0 q) * B) in *. assert (E : forall t, along q (param q t) = t * dot2 q q \/ along q (param q t) = - (t * dot2 q q)) by (intro t; unfold along, param, foot, dir, dot2; cbn [fst snd]; unfold dot2 in P; first [left; field; lra|right; field; lra]).
    specialize (Kx ((Rabs D + 1) / dot2 q q)). assert (E2 := E ((Rabs D + 1) / dot2 q q)). replace ((Rabs D + 1) / dot2 q q * dot2 q q) with (Rabs D + 1) in E2 by (field; lra). assert (X := Rle_abs D). assert (Y := Rabs_pos D).
    destruct E2 as [E2|E2]; rewrite E2 in Kx; [|rewrite Rabs_Ropp in Kx]; rewrite Rabs_pos_eq in Kx; lra. }
  destruct (proj2 (Iff 0%nat)) as (s & Hs & Es); [eauto|]. assert (A : forall s', In s' (boundary_intervals 0 [q]) -> s_idx s' = 0%nat).
  { intros s' Hs'. destruct (proj1 (Iff (s_idx s'))) as (y & _ & r & Hr & _); [eauto|]. assert (s_idx s' < 1)%nat by (apply (nth_error_Some [q]); congruence). lia. }
  destruct (boundary_intervals 0 [q]) as [|s1 [|s2 l]] eqn:EB; [destruct Hs|exists s1; split; [reflexivity|split; [apply A; now left|exact Un]]|]. exfalso. cbn [map] in Nd. inversion Nd as [|? ? N1 _]; subst. apply N1. left. rewrite (A s1), (A s2); [reflexivity|right; now left|now left].
Qed.
Lemma wedge_probe k r : nth_error corner_wedge k = Some r -> probe 0 idr corner_wedge k r = ([Points [(2, -2, 0)]], true).
Proof.
  intro Hk. assert (Ap := axis_apart _ wedge_axis). assert (Rs := rs_in corner_wedge k r Hk Ap). assert (Nz := rs_nonzero corner_wedge k r). assert (NO := fun x => not_ok corner_wedge k r Hk Ap x).
  assert (W : in_set3 corner_wedge (2, -2, 0)) by (intros q [<-|[<-|[]]]; unfold holds3; cbn [nrm off]; unf3; lra).
  assert (Fs : exists s, drop_nth k corner_wedge = [s] /\ (r = mkrow3 (1, 0, 0) 2 /\ s = mkrow3 (0, -1, 0) 2 \/ s = mkrow3 (1, 0, 0) 2 /\ r = mkrow3 (0, -1, 0) 2)).
  { destruct k as [|[|k]]; cbn [nth_error corner_wedge] in Hk; [injection Hk as <-; eexists; split; [reflexivity|now left]|injection Hk as <-; eexists; split; [reflexivity|now right]|destruct k; discriminate]. }
  destruct Fs as (s & Es & Cs). unfold probe. rewrite (surjective_pairing (plane idr corner_wedge k r)).
  assert (Eq : fst (plane idr corner_wedge k r) = [cv_row (nrm r) (off r) (nrm s) (off s)]).
  { unfold plane. rewrite clear_id. cbn [fst]. unfold plane_rows. rewrite Es. cbn [map filter]. destruct (zero_row (cv_row (nrm r) (off r) (nrm s) (off s))) eqn:Z; [|reflexivity]. exfalso. apply (zero_cross corner_wedge k r Hk Ap s) in Z.
    - destruct Cs as [[-> ->]|[-> ->]]; cbn [nrm] in Z; unfold cross3, x1, x2, x3 in Z; cbn [fst snd] in Z; injection Z; intros; lra.
    - apply (drop_nth_in k). rewrite Es. now left. }
  rewrite Eq in *. assert (Ok : snd (plane idr corner_wedge k r) = true). { destruct (snd (plane idr corner_wedge k r)) eqn:E; [reflexivity|]. exfalso. apply (NO (2, -2, 0) eq_refl). split; [exact W|]. destruct Cs as [[-> _]|[_ ->]]; unfold tight3; cbn [nrm off]; unf3; lra. }
  rewrite Ok. destruct (single_row (cv_row (nrm r) (off r) (nrm s) (off s)) (Nz _ ltac:(now left))) as (g & -> & Eg & ->). cbv zeta. unfold feet. cbn [map]. rewrite Eg. cbn [nth]. f_equal. f_equal. f_equal. f_equal.
  assert (Y := y1_cases (nrm r)). assert (Yn := cv_y1_nz (nrm r)). unfold cv_point, foot, cv_row, cv_xi, cv_y2. cbn [a0 a1 rhs].
  destruct Cs as [[-> ->]|[-> ->]]; cbn [nrm off] in *; unfold x1, x2, x3 in Y; cbn [fst snd] in Y; destruct Y as [Y|[Y|Y]]; rewrite Y in *; clear Y;
    first [exfalso; assert (Z := Yn ltac:(ne3)); unfold dot3, x1, x2, x3 in Z; cbn [fst snd] in Z; lra | clear Yn; unfold dot2, dot3, cross3, x1, x2, x3; cbn [a0 a1 rhs fst snd]; apply v3_ext; unfold x1, x2, x3; cbn [fst snd]; field].
Qed.
(** x >= 2, y <= -2: both particular points are (2, -2, 0), the window is the
    cube around (0, 0, 0) with half width 1, and nothing is returned. *)
Theorem window_misses_refuted : in_set3 corner_wedge (2, -2, 0) /\ (forall t, in_set3 corner_wedge (2, -2, t)) /\ lineqs3 0 idr corner_wedge None = Some [].
Proof.
  split; [|split]; [intros q [<-|[<-|[]]]; unfold holds3; cbn [nrm off]; unf3; lra|intros t q [<-|[<-|[]]]; unfold holds3; cbn [nrm off]; unf3; lra|].
  unfold lineqs3. rewrite (prepared_told_apart _ wedge_told). cbn [length corner_wedge Nat.eqb]. cbv zeta.
  assert (Ep : probes 0 idr corner_wedge = [([Points [(2, -2, 0)]], true); ([Points [(2, -2, 0)]], true)]).
  { change (probes 0 idr corner_wedge) with [probe 0 idr corner_wedge 0 (mkrow3 (1, 0, 0) 2); probe 0 idr corner_wedge 1 (mkrow3 (0, -1, 0) 2)]. rewrite !wedge_probe by reflexivity. reflexivity. }
  fold corner_wedge. rewrite Ep. cbn [flat_map fst snd app existsb orb all_points].
  assert (E : default3 [(2, -2, 0); (2, -2, 0)] = (0, 1)).
  { unfold default3, mean. cbv zeta. unf3. cbn [map fst snd fold_right length mins maxs fold_left]. f_equal; [simpl; lra|]. unfold Rmax, Rmin. repeat destruct Rle_dec; lra. }
  match goal with |- context [default3 ?l] => change (default3 l) with (default3 [(2, -2, 0); (2, -2, 0)]) end. rewrite E. assert (Ax : forall r, In r (corner_wedge ++ box3 (cube 0 1)) -> axis3 r).
  { intros r Hr. apply in_app_or in Hr. destruct Hr as [Hr|Hr]; [now apply wedge_axis|]. revert Hr. unfold box3, cube, axis3. unf3. intro H. repeat (destruct H as [<-|H]; [cbn [nrm off]; split; [tauto|lra]|]). destruct H. }
  destruct (polygons_faces _ (axis_apart _ Ax) (box3_bounded _ _) (axis_separated3 _ Ax)) as (L & EL & idx & _ & Iff & F). rewrite EL. f_equal. destruct idx as [|i idx]; [now inversion F|]. exfalso.
  destruct (proj1 (Iff i) ltac:(now left)) as (r & x & _ & Ix & _). apply in_set3_app in Ix. destruct Ix as [I1 I2]. apply box3_in in I2. specialize (I1 _ (or_introl eq_refl)). unfold holds3 in I1. cbn [nrm off] in I1. unfold cube in I2. unf3. cbn [fst snd] in *. lra.
Qed.
