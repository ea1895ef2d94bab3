(** lineqs3D lists the faces. *)
From Coq Require Import Reals List Bool Arith Lia Lra Psatz Sorted Classical.
From Verif Require Import Exact SpecExact Boundary SpecBoundary BoundaryProofs BoundaryMore BoundaryPath BoundaryWindow Boundary3 SpecBoundary3 Boundary3Plane.
Import ListNotations.
Open Scope R_scope.

Lemma polygons_from rows : all_apart rows -> bounded3 rows -> separated3 rows -> forall suf start, (forall j r, nth_error suf j = Some r -> nth_error rows (start + j) = Some r) ->
  exists L idx, join (map (fun p => polygon_of 0 idr rows (fst p) (snd p)) (combine (seq start (length suf)) suf)) = Some L /\
    StronglySorted lt idx /\ (forall i, In i idx <-> (start <= i < start + length suf)%nat /\ exists r x, nth_error rows i = Some r /\ face3 rows r x) /\
    Forall2 (fun i P => exists r, nth_error rows i = Some r /\ shows rows r P) idx L.
Proof.
  intros Ap Bd Sp. induction suf as [|r suf IH]; intros start Hn.
  - exists [], []. split; [reflexivity|]. split; [constructor|]. split; [|constructor]. intro i. split; [intros []|]. intros [H _]. simpl in H. lia.
  - destruct (IH (S start)) as (L & idx & EL & Ss & Iff & F). { intros j q Hq. rewrite Nat.add_succ_comm. now apply Hn. }
    assert (Hr := Hn 0%nat r eq_refl). rewrite Nat.add_0_r in Hr. destruct (polygon_of_spec rows start r Hr Ap Bd Sp) as (L0 & E0 & Cs).
    cbn [length seq combine map join fst snd]. rewrite E0, EL. destruct Cs as [[(x & Fx) (P & -> & Sh)]|[Nf ->]].
    + exists ([P] ++ L), (start :: idx). split; [reflexivity|]. split; [|split].
      * constructor; [exact Ss|]. apply Forall_forall. intros i Hi. apply Iff in Hi. lia.
      * intro i. cbn [In length]. rewrite Iff. split; [intros [<-|[H1 H2]]; [split; [lia|eauto]|split; [lia|exact H2]]|]. intros [H1 H2]. destruct (Nat.eq_dec start i); [now left|right; split; [lia|exact H2]].
      * constructor; [eauto|exact F].
    + exists L, idx. split; [reflexivity|]. split; [exact Ss|]. split; [|exact F]. intro i. cbn [length]. rewrite Iff. split; [intros [H1 H2]; split; [lia|exact H2]|]. intros [H1 (q & x & Hq & Fx)]. split; [|eauto].
      destruct (Nat.eq_dec start i) as [->|]; [|lia]. exfalso. assert (q = r) by congruence. subst q. exact (Nf x Fx).
Qed.
Theorem polygons_faces rows : all_apart rows -> bounded3 rows -> separated3 rows -> exists L, polygons 0 idr rows = Some L /\ all_faces rows L.
Proof.
  intros Ap Bd Sp. destruct (polygons_from rows Ap Bd Sp rows 0 ltac:(auto)) as (L & idx & EL & Ss & Iff & F). exists L. split; [exact EL|]. exists idx. split; [exact Ss|]. split; [|exact F].
  intro i. rewrite Iff. split; [tauto|]. intros (r & x & Hr & Fx). split; [|eauto]. assert (nth_error rows i <> None) by congruence. apply nth_error_Some in H. lia.
Qed.

(** ** If every face is bounded, so is the set *)
Definition slice_row (x u w : v3) (s : row3) : row := mkrow (dot3 (nrm s) u) (dot3 (nrm s) w) (off s - dot3 (nrm s) x).
Definition nonzero_b (q : row) : bool := if Req_EM_T (a0 q) 0 then if Req_EM_T (a1 q) 0 then false else true else true.
Lemma nonzero_b_spec q : nonzero_b q = true <-> nonzero q.
Proof. unfold nonzero_b, nonzero. destruct (Req_EM_T (a0 q) 0), (Req_EM_T (a1 q) 0); split; intro H; try reflexivity; try discriminate; tauto. Qed.
Definition at3 (x u w : v3) (p : pt) : v3 := (x1 x + x1 u * fst p + x1 w * snd p, x2 x + x2 u * fst p + x2 w * snd p, x3 x + x3 u * fst p + x3 w * snd p).
Lemma dot_at3 c x u w p : dot3 c (at3 x u w p) = dot3 c x + dot3 c u * fst p + dot3 c w * snd p.
Proof. unfold at3. unf3. ring. Qed.
Definition within (B : R) (x : v3) : Prop := Rabs (x1 x) <= B /\ Rabs (x2 x) <= B /\ Rabs (x3 x) <= B.
Lemma dot_within B c x : within B x -> Rabs (dot3 c x) <= (Rabs (x1 c) + Rabs (x2 c) + Rabs (x3 c)) * B.
Proof.
  intros (X1 & X2 & X3). unfold dot3. eapply Rle_trans; [apply Rabs_triang|]. eapply Rle_trans; [apply Rplus_le_compat_r, Rabs_triang|]. rewrite !Rabs_mult.
  assert (T1 := Rabs_pos (x1 c)). assert (T2 := Rabs_pos (x2 c)). assert (T3 := Rabs_pos (x3 c)). nra.
Qed.
Lemma abs_solve y s c0 d n : 0 < n -> y = c0 + n * s -> Rabs y <= d -> Rabs s <= (d + Rabs c0) / n.
Proof.
  intros Hn E Hy. apply Rmult_le_reg_r with n; [exact Hn|]. unfold Rdiv. rewrite Rmult_assoc, Rinv_l, Rmult_1_r by lra. rewrite <- (Rabs_pos_eq n) at 1 by lra. rewrite <- Rabs_mult.
  replace (s * n) with (y - c0) by lra. unfold Rminus. eapply Rle_trans; [apply Rabs_triang|]. rewrite Rabs_Ropp. lra.
Qed.
Lemma common_bound {T} (P : T -> R -> Prop) (l : list T) : (forall t B C, P t B -> B <= C -> P t C) -> (forall t, In t l -> exists B, P t B) -> exists B, forall t, In t l -> P t B.
Proof.
  intros Mono. induction l as [|t l IH]; intro H; [exists 0; intros t []|]. destruct IH as (B & HB); [intros q Hq; apply H; now right|]. destruct (H t ltac:(now left)) as (C & HC).
  exists (Rmax B C). intros q [<-|Hq]; [apply (Mono t C); [exact HC|apply Rmax_r]|apply (Mono q B); [now apply HB|apply Rmax_l]].
Qed.
Lemma faces_bounded rows : rows <> [] -> (forall r, In r rows -> nrm r <> (0, 0, 0)) -> (forall r, In r rows -> exists B, forall x, face3 rows r x -> within B x) -> bounded3 rows.
Proof.
  intros Ne Nz Hf. destruct (common_bound (fun r B => forall x, face3 rows r x -> within B x) rows) as (B & HB); [|exact Hf|].
  { intros t B C H L x Fx. destruct (H x Fx) as (? & ? & ?). repeat split; lra. }
  exists B. intros x Ix. destruct rows as [|r0 rest] eqn:Er; [congruence|]. rewrite <- Er in *. assert (H0 : In r0 rows) by (rewrite Er; now left). clear Er rest Ne Hf.
  set (u := nrm r0). set (w := cv_y1 u). assert (Nu : u <> (0, 0, 0)) by now apply Nz. assert (Pu := dot3_pos u Nu). assert (Pw := cv_y1_nz u Nu). destruct (cv_orth u) as (O1 & _ & _). fold w in Pw, O1.
  set (prs := filter nonzero_b (map (slice_row x u w) rows)).
  assert (Pin : forall q, In q prs -> exists s, In s rows /\ q = slice_row x u w s) by (intros q Hq; apply filter_In in Hq; destruct Hq as [Hq _]; apply in_map_iff in Hq; destruct Hq as (s & <- & Hs); eauto).
  assert (Pnz : forall q, In q prs -> nonzero q) by (intros q Hq; apply filter_In in Hq; now apply nonzero_b_spec).
  assert (Hh : forall s p, holds (slice_row x u w s) p <-> holds3 s (at3 x u w p)) by (intros s p; unfold holds, holds3; rewrite dot_at3; cbn [a0 a1 rhs slice_row]; lra).
  assert (Ht : forall s p, tight (slice_row x u w s) p <-> tight3 s (at3 x u w p)) by (intros s p; unfold tight, tight3; rewrite dot_at3; cbn [a0 a1 rhs slice_row]; lra).
  assert (Pset : forall p, in_set prs p <-> in_set3 rows (at3 x u w p)).
  { intro p. split.
    - intros H s Hs. apply Hh. destruct (nonzero_b (slice_row x u w s)) eqn:Nb; [apply H, filter_In; split; [now apply in_map|exact Nb]|].
      unfold nonzero_b in Nb. destruct (Req_EM_T (a0 (slice_row x u w s)) 0) as [E1|]; [|discriminate]. destruct (Req_EM_T (a1 (slice_row x u w s)) 0) as [E2|]; [|discriminate].
      unfold holds. rewrite E1, E2. cbn [rhs slice_row]. specialize (Ix s Hs). unfold holds3 in Ix. lra.
    - intros H q Hq. destruct (Pin q Hq) as (s & Hs & ->). apply Hh. now apply H. }
  assert (Pne : prs <> []).
  { intro E. assert (In (slice_row x u w r0) prs); [|rewrite E in H; destruct H]. apply filter_In. split; [now apply in_map|]. apply nonzero_b_spec. left. cbn [a0 slice_row]. fold u. lra. }
  assert (x0 : in_set prs (0, 0)). { apply Pset. replace (at3 x u w (0, 0)) with x; [exact Ix|]. apply v3_ext; unfold at3, x1, x2, x3; cbn [fst snd]; ring. }
  assert (Cl : forall p, within B (at3 x u w p) -> Rabs (fst p) <= ((Rabs (x1 u) + Rabs (x2 u) + Rabs (x3 u)) * B + Rabs (dot3 u x)) / dot3 u u /\ Rabs (snd p) <= ((Rabs (x1 w) + Rabs (x2 w) + Rabs (x3 w)) * B + Rabs (dot3 w x)) / dot3 w w).
  { intros p Hp. split.
    - apply (abs_solve (dot3 u (at3 x u w p))); [exact Pu| |now apply dot_within]. rewrite dot_at3, O1. ring.
    - apply (abs_solve (dot3 w (at3 x u w p))); [exact Pw| |now apply dot_within]. rewrite dot_at3. replace (dot3 w u) with (dot3 u w) by (unfold dot3; ring). rewrite O1. ring. }
  assert (Bp : bounded prs).
  { apply finite_bounded; [exact Pnz|exact Pne|]. intros s Hs. destruct (bi_spec 0 prs Pnz) as (H1 & _ & _). destruct (H1 s Hs) as (r & _ & _ & Hr & _).
    destruct (boundary_ends 0 prs s r Pnz Hs Hr) as [E1 E2]. destruct (Pin r (nth_error_In _ _ Hr)) as (t & Ht1 & Et).
    set (c1 := ((Rabs (x1 u) + Rabs (x2 u) + Rabs (x3 u)) * B + Rabs (dot3 u x)) / dot3 u u) in *. set (c2 := ((Rabs (x1 w) + Rabs (x2 w) + Rabs (x3 w)) * B + Rabs (dot3 w x)) / dot3 w w) in *.
    assert (A : forall p, face prs (s_idx s) p -> Rabs (along r p) <= Rabs (a1 r) * c1 + Rabs (a0 r) * c2).
    { intros p (Ip & r' & Hr' & Tp). assert (r' = r) by congruence. subst r'. destruct (Cl p) as [X1 X2]. { apply (HB t Ht1). split; [now apply Pset|]. apply Ht. now rewrite <- Et. }
      unfold along. eapply Rle_trans; [apply Rabs_triang|]. rewrite !Rabs_mult, Rabs_Ropp. assert (P1 := Rabs_pos (a1 r)). assert (P2 := Rabs_pos (a0 r)). nra. }
    destruct (proj2 E1) as (f & Hf'). { exists (- (Rabs (a1 r) * c1 + Rabs (a0 r) * c2)). intros p Fp. specialize (A p Fp). assert (L := Rle_abs (- along r p)). rewrite Rabs_Ropp in L. lra. }
    destruct (proj2 E2) as (g & Hg). { exists (Rabs (a1 r) * c1 + Rabs (a0 r) * c2). intros p Fp. specialize (A p Fp). assert (L := Rle_abs (along r p)). lra. }
    exact (seg_fin prs Pnz s f g Hs Hf' Hg). }
  destruct Bp as (D & HD).
  assert (End : forall sg, sg = 1 \/ sg = -1 -> exists c, 0 <= c /\ within B (at3 x u w (sg * c, 0))).
  { intros sg Hsg. assert (D0 := HD _ x0). cbn [fst snd] in D0. rewrite Rabs_R0 in D0. destruct (last_point prs (0, 0) (sg * (D + 1), 0) x0) as (l & Hl & Il & [->|(q & Hq & Tq)]).
    - apply HD in Il. unfold towards in Il; cbn [fst snd] in Il. destruct Il as [Il _]. replace (0 + 1 * (sg * (D + 1) - 0)) with (sg * (D + 1)) in Il by ring. rewrite Rabs_mult, (Rabs_pos_eq (D + 1)) in Il by lra. destruct Hsg as [-> | ->]; [rewrite Rabs_R1 in Il|rewrite (Rabs_left (-1)) in Il by lra]; lra.
    - exists (l * (D + 1)). split; [apply Rmult_le_pos; lra|]. destruct (Pin q Hq) as (s & Hs & ->). apply (HB s Hs). replace (sg * (l * (D + 1)), 0) with (towards (0, 0) (sg * (D + 1), 0) l) by (unfold towards; cbn [fst snd]; f_equal; ring).
      split; [now apply Pset|]. now apply Ht. }
  destruct (End 1 ltac:(now left)) as (c & Hc & W1). destruct (End (-1) ltac:(now right)) as (d & Hd & W2).
  assert (K : forall t v, Rabs (t + v * (1 * c) + 0) <= B -> Rabs (t + v * (-1 * d) + 0) <= B -> Rabs t <= B).
  { intros t v K1 K2. assert (L1 := Rle_abs (t + v * (1 * c) + 0)). assert (L2 := Rle_abs (- (t + v * (1 * c) + 0))). assert (L3 := Rle_abs (t + v * (-1 * d) + 0)). assert (L4 := Rle_abs (- (t + v * (-1 * d) + 0))). rewrite Rabs_Ropp in L2, L4.
    apply Rabs_le. destruct (Rle_dec 0 v) as [V|V].
    - assert (0 <= v * c) by (apply Rmult_le_pos; lra). assert (0 <= v * d) by (apply Rmult_le_pos; lra). lra.
    - assert (0 <= - v * c) by (apply Rmult_le_pos; lra). assert (0 <= - v * d) by (apply Rmult_le_pos; lra). lra. }
  destruct W1 as (A1 & A2 & A3). destruct W2 as (B1 & B2 & B3). clear - K A1 A2 A3 B1 B2 B3. unfold at3 in *. cbn [fst snd] in *. rewrite !Rmult_0_r in A1, A2, A3, B1, B2, B3.
  split; [apply (K _ (x1 u)); [exact A1|exact B1]|split; [apply (K _ (x2 u)); [exact A2|exact B2]|apply (K _ (x3 u)); [exact A3|exact B3]]].
Qed.

(** ** lineqs3D *)
Section Main.
Context (rs : list row3).
Hypothesis Ap : all_apart rs.
Lemma each_in {T} (f : nat -> row3 -> T) t : In t (each f rs) <-> exists k r, nth_error rs k = Some r /\ t = f k r.
Proof.
  unfold each. rewrite in_map_iff. split.
  - intros ([k r] & <- & H). apply In_nth_error in H. destruct H as (j & Hj). exists k, r. split; [|reflexivity].
    assert (Lj : (j < length rs)%nat). { assert (j < length (combine (seq 0 (length rs)) rs))%nat by (apply nth_error_Some; congruence). rewrite combine_length, seq_length in H. lia. }
    assert (G : forall (l : list row3) s j, nth_error (combine (seq s (length l)) l) j = match nth_error l j with Some r => Some ((s + j)%nat, r) | None => None end).
    { clear. induction l as [|r l IH]; intros s [|j]; cbn [length seq combine nth_error]; try reflexivity; [now rewrite Nat.add_0_r|]. rewrite IH. destruct (nth_error l j); [|reflexivity]. now rewrite Nat.add_succ_comm. }
    rewrite G in Hj. destruct (nth_error rs j) eqn:E; [|discriminate]. injection Hj as <- <-. exact E.
  - intros (k & r & Hk & ->). exists (k, r). split; [reflexivity|]. assert (G : forall (l : list row3) s j r, nth_error l j = Some r -> In ((s + j)%nat, r) (combine (seq s (length l)) l)).
    { clear. induction l as [|q l IH]; intros s [|j] r H; try discriminate; cbn [length seq combine].
      - injection H as <-. left. now rewrite Nat.add_0_r.
      - right. rewrite <- Nat.add_succ_comm. now apply IH. }
    exact (G rs 0%nat k r Hk).
Qed.
Lemma probe_face k r : nth_error rs k = Some r -> (fst (probe 0 idr rs k r) = [] -> forall x, ~ face3 rs r x) /\
  (snd (probe 0 idr rs k r) = false -> exists B, forall x, face3 rs r x -> within B x) /\ (snd (probe 0 idr rs k r) = true -> fst (probe 0 idr rs k r) <> []) /\
  (bounded3 rs -> snd (probe 0 idr rs k r) = false).
Proof.
  intro Hk. assert (Nz := rs_nonzero rs k r). assert (FP := fun p => face_plane rs k r Hk Ap p). assert (NO := fun x => not_ok rs k r Hk Ap x). assert (On := phi_onto rs k r Hk Ap). assert (PB := plane_bounded rs k r Hk Ap).
  unfold probe. rewrite (surjective_pairing (plane idr rs k r)). set (ps := fst (plane idr rs k r)) in *. set (ok := snd (plane idr rs k r)) in *. destruct ok.
  2:{ split; [|split; [|split]]; cbn [fst snd]; [intros _ x; now apply NO| |discriminate|reflexivity]. intros _. exists 0. intros x Fx. destruct (NO x eq_refl Fx). }
  specialize (PB eq_refl). destruct ps as [|q ps'] eqn:Ep.
  - cbn [fst snd]. split; [discriminate|]. split; [discriminate|]. split; [intros _; discriminate|]. intro Bd. exfalso. apply PB in Bd. now apply (bounded_nonempty _ Bd).
  - rewrite <- Ep in *. destruct (boundary_intervals 0 ps) as [|s0 S0] eqn:ES.
    + assert (Emp : forall x, ~ face3 rs r x). { intros x Fx. destruct (On x (proj2 Fx)) as (p & ->). apply FP in Fx; [|reflexivity]. apply (boundary_empty 0 ps Nz ltac:(rewrite Ep; discriminate) ES p Fx). }
      cbn [fst snd]. split; [auto|]. split; [|split; [discriminate|reflexivity]]. intros _. exists 0. intros x Fx. destruct (Emp x Fx).
    + cbv zeta. cbn [fst snd]. rewrite <- ES. split; [discriminate|]. split; [|split; [discriminate|]].
      * intro Un. assert (Bp : bounded ps).
        { destruct (classic (bounded ps)) as [|N]; [assumption|]. exfalso. assert (exists p, in_set ps p) as (p & Ip).
          { destruct (boundary_indices 0 ps Nz) as [_ H]. destruct (proj1 (H (s_idx s0))) as (p & Ip & _); [exists s0; rewrite ES; split; [now left|reflexivity]|]. exists p. exact Ip. }
          assert (U := unbounded_detected ps Nz p ltac:(rewrite Ep; discriminate) Ip N). congruence. }
        destruct Bp as (B & HB). set (xi := cv_xi (nrm r) (off r)). set (y1 := cv_y1 (nrm r)). set (y2 := cv_y2 (nrm r)).
        exists (Rabs (x1 xi) + Rabs (x2 xi) + Rabs (x3 xi) + (Rabs (x1 y1) + Rabs (x2 y1) + Rabs (x3 y1)) * Rabs B + (Rabs (x1 y2) + Rabs (x2 y2) + Rabs (x3 y2)) * Rabs B).
        intros x Fx. destruct (On x (proj2 Fx)) as (p & ->). apply FP in Fx; [|reflexivity]. apply HB in Fx. destruct Fx as [P1 P2]. assert (BB := Rle_abs B).
        assert (G : forall c d e, Rabs (c + d * fst p + e * snd p) <= Rabs c + Rabs d * Rabs B + Rabs e * Rabs B).
        { intros c d e. eapply Rle_trans; [apply Rabs_triang|]. rewrite Rabs_mult. eapply Rle_trans; [apply Rplus_le_compat_r, Rabs_triang|]. rewrite Rabs_mult. assert (T1 := Rabs_pos d). assert (T2 := Rabs_pos e).
          assert (Rabs d * Rabs (fst p) <= Rabs d * Rabs B) by (apply Rmult_le_compat_l; lra). assert (Rabs e * Rabs (snd p) <= Rabs e * Rabs B) by (apply Rmult_le_compat_l; lra). lra. }
        assert (N : forall t, 0 <= Rabs t * Rabs B) by (intro t; apply Rmult_le_pos; apply Rabs_pos).
        unfold phi, cv_point. fold xi y1 y2. unfold within. assert (X := N (x1 y1)). assert (X0 := N (x2 y1)). assert (X1 := N (x3 y1)). assert (X2 := N (x1 y2)). assert (X3 := N (x2 y2)). assert (X4 := N (x3 y2)).
        assert (Z1 := Rabs_pos (x1 xi)). assert (Z2 := Rabs_pos (x2 xi)). assert (Z3 := Rabs_pos (x3 xi)).
        split; [|split]; [unfold x1 at 1|unfold x2 at 1|unfold x3 at 1]; cbn [fst snd]; (eapply Rle_trans; [apply G|]); lra.
      * intro Bd. apply PB in Bd. destruct (unbounded (boundary_intervals 0 ps)) eqn:U; [|reflexivity]. exfalso. unfold unbounded in U. apply existsb_exists in U. destruct U as (s & Hs & Inf).
        destruct (bounded_segs ps Nz Bd s Hs) as (rr & t0 & t1 & _ & E0 & _). rewrite E0 in Inf. discriminate.
Qed.
Lemma probes_bounded : bounded3 rs -> existsb snd (probes 0 idr rs) = false.
Proof.
  intro Bd. rewrite <- not_true_iff_false. intro E. apply existsb_exists in E. destruct E as (t & Ht & St). apply each_in in Ht. destruct Ht as (k & r & Hk & ->).
  destruct (probe_face k r Hk) as (_ & _ & _ & H). rewrite (H Bd) in St. discriminate.
Qed.
Lemma probes_unbounded : rs <> [] -> ~ bounded3 rs -> existsb snd (probes 0 idr rs) = true.
Proof.
  intros Ne Nb. destruct (existsb snd (probes 0 idr rs)) eqn:E; [reflexivity|]. exfalso. apply Nb. apply faces_bounded; [exact Ne|intros r Hr; now apply (Ap r r)|].
  intros r Hr. apply In_nth_error in Hr. destruct Hr as (k & Hk). destruct (probe_face k r Hk) as (_ & H & _ & _). apply H.
  destruct (snd (probe 0 idr rs k r)) eqn:F; [|reflexivity]. rewrite <- not_true_iff_false in E. exfalso. apply E. apply existsb_exists. exists (probe 0 idr rs k r). split; [apply each_in; eauto|exact F].
Qed.
Lemma probes_some : existsb snd (probes 0 idr rs) = true -> flat_map fst (probes 0 idr rs) <> [].
Proof.
  intros E N. apply existsb_exists in E. destruct E as (t & Ht & St). assert (fst t = []).
  { destruct (fst t) as [|e l] eqn:F; [reflexivity|]. assert (In e (flat_map fst (probes 0 idr rs))) by (apply in_flat_map; exists t; rewrite F; split; [exact Ht|now left]). rewrite N in H. destruct H. }
  apply each_in in Ht. destruct Ht as (k & r & Hk & ->). destruct (probe_face k r Hk) as (_ & _ & H2 & _). exact (H2 St H).
Qed.
Lemma probes_none : flat_map fst (probes 0 idr rs) = [] -> forall k r, nth_error rs k = Some r -> forall x, ~ face3 rs r x.
Proof.
  intros N k r Hk. destruct (probe_face k r Hk) as (H & _). apply H. destruct (fst (probe 0 idr rs k r)) as [|e l] eqn:F; [reflexivity|].
  assert (In e (flat_map fst (probes 0 idr rs))) by (apply in_flat_map; exists (probe 0 idr rs k r); rewrite F; split; [apply each_in; eauto|now left]). rewrite N in H0. destruct H0.
Qed.
End Main.
Lemma half_unbounded r : ~ bounded3 [r] \/ nrm r = (0, 0, 0).
Proof.
  destruct (v3_eq_dec (nrm r) (0, 0, 0)) as [E|N]; [now right|left]. intros (B & HB). assert (P := dot3_pos _ N). destruct (nrm r) as [[a b] c] eqn:En.
  set (t := Rabs B + Rabs (off r) + 1). assert (T : 1 <= t) by (unfold t; assert (X := Rabs_pos B); assert (Y := Rabs_pos (off r)); lra).
  assert (TO : off r <= t) by (unfold t; assert (X := Rle_abs (off r)); assert (Y := Rabs_pos B); lra). assert (TB : B < t) by (unfold t; assert (X := Rle_abs B); assert (Y := Rabs_pos (off r)); lra).
  unf3. set (q := a * a + b * b + c * c) in *.
  assert (Z : exists l, 0 < l /\ t <= l * q /\ (a <> 0 -> B < Rabs (l * a)) /\ (b <> 0 -> B < Rabs (l * b)) /\ (c <> 0 -> B < Rabs (l * c))).
  { assert (I : forall d, 0 <= / Rabs d * t). { intro d. destruct (Req_dec d 0) as [->|Nd]; [rewrite Rabs_R0, Rinv_0; lra|]. apply Rmult_le_pos; [apply Rlt_le, Rinv_0_lt_compat, Rabs_pos_lt, Nd|lra]. }
    assert (I1 := I a). assert (I2 := I b). assert (I3 := I c). assert (Q : 0 < / q) by now apply Rinv_0_lt_compat.
    exists (t * / q + / Rabs a * t + / Rabs b * t + / Rabs c * t). assert (0 < t * / q) by (apply Rmult_lt_0_compat; lra). split; [lra|]. split.
    - replace t with (t * / q * q) at 1 by (field; lra). apply Rmult_le_compat_r; lra.
    - assert (G : forall d l, d <> 0 -> / Rabs d * t <= l -> B < Rabs (l * d)).
      { intros d l Nd L. assert (Pd := Rabs_pos_lt _ Nd). rewrite Rabs_mult. assert (0 <= / Rabs d * t) by apply I. rewrite (Rabs_pos_eq l) by lra. apply Rlt_le_trans with t; [exact TB|]. replace t with (/ Rabs d * t * Rabs d) at 1 by (field; lra). apply Rmult_le_compat_r; lra. }
      split; [|split]; intro Nd; apply (G _ _ Nd); lra. }
  destruct Z as (l & Hl & Hq & Ga & Gb & Gc). destruct (HB (l * a, l * b, l * c)) as (B1 & B2 & B3).
  { intros q' [<-|[]]. unfold holds3. rewrite En. unf3. replace (a * (l * a) + b * (l * b) + c * (l * c)) with (l * q) by (unfold q; ring). lra. }
  cbn [fst snd] in *. destruct (Req_dec a 0) as [Ea|Nn]; [|specialize (Ga Nn); lra]. destruct (Req_dec b 0) as [Eb|Nn]; [|specialize (Gb Nn); lra]. destruct (Req_dec c 0) as [Ec|Nn]; [|specialize (Gc Nn); lra].
  apply N. now rewrite Ea, Eb, Ec.
Qed.
Theorem lineqs3_bounded rows bounds : let rs := prepared idr rows in all_apart rs -> bounded3 rs -> separated3 rs -> exists L, lineqs3 0 idr rows bounds = Some L /\ all_faces rs L.
Proof.
  intros rs Ap Bd Sp. unfold lineqs3. fold rs. assert (L1 : (length rs =? 1)%nat = false).
  { apply Nat.eqb_neq. intro E. destruct rs as [|r [|q l]] eqn:Er; try discriminate. rewrite <- Er in *. destruct (half_unbounded r) as [H|H]; [apply H; rewrite <- Er; exact Bd|]. apply (Ap r r); [rewrite Er; now left|rewrite Er; now left|exact H]. }
  rewrite L1. cbv zeta. destruct (flat_map fst (probes 0 idr rs)) as [|e l] eqn:EP.
  - exists []. split; [reflexivity|]. exists []. split; [constructor|]. split; [|constructor]. intro i. split; [intros []|]. intros (r & x & Hr & Fx). exact (probes_none rs Ap EP i r Hr x Fx).
  - rewrite (probes_bounded rs Ap Bd). now apply polygons_faces.
Qed.
(** With bounds an unbounded set is cut by the window asked for. *)
Lemma box3_in w x : in_set3 (box3 w) x <-> x1 (fst w) <= x1 x <= x1 (snd w) /\ x2 (fst w) <= x2 x <= x2 (snd w) /\ x3 (fst w) <= x3 x <= x3 (snd w).
Proof.
  unfold box3. destruct w as [[[a b] c] [[d e] f]]. destruct x as [[x y] z]. unf3. split.
  - intro H. assert (K : forall r, In r (box3 (a, b, c, (d, e, f))) -> holds3 r (x, y, z)) by exact H. unfold box3 in K. unf3.
    assert (K1 := K (mkrow3 (1, 0, 0) a) ltac:(simpl; auto 8)). assert (K2 := K (mkrow3 (0, 1, 0) b) ltac:(simpl; auto 8)). assert (K3 := K (mkrow3 (0, 0, 1) c) ltac:(simpl; auto 8)).
    assert (K4 := K (mkrow3 (-1, 0, 0) (- d)) ltac:(simpl; auto 8)). assert (K5 := K (mkrow3 (0, -1, 0) (- e)) ltac:(simpl; auto 8)). assert (K6 := K (mkrow3 (0, 0, -1) (- f)) ltac:(simpl; auto 8)).
    unfold holds3 in *. cbn [nrm off] in *. unf3. lra.
  - intros H r Hr. cbn [In] in Hr. unfold holds3. repeat (destruct Hr as [<-|Hr]; [cbn [nrm off]; unf3; lra|]). destruct Hr.
Qed.
Lemma in_set3_app a b x : in_set3 (a ++ b) x <-> in_set3 a x /\ in_set3 b x.
Proof. unfold in_set3. split; [intro H; split; intros r Hr; apply H, in_or_app; auto|]. intros [H1 H2] r Hr. apply in_app_or in Hr. destruct Hr; auto. Qed.
Lemma box3_bounded rs w : bounded3 (rs ++ box3 w).
Proof.
  exists (Rmax (Rmax (Rmax (Rabs (x1 (fst w))) (Rabs (x1 (snd w)))) (Rmax (Rabs (x2 (fst w))) (Rabs (x2 (snd w))))) (Rmax (Rabs (x3 (fst w))) (Rabs (x3 (snd w))))).
  intros x Hx. apply in_set3_app in Hx. destruct Hx as [_ Hx]. apply box3_in in Hx. destruct Hx as (X1 & X2 & X3).
  assert (G : forall p q t, p <= t <= q -> Rabs t <= Rmax (Rabs p) (Rabs q)). { intros p q t Ht. assert (P1 := Rle_abs (- p)). rewrite Rabs_Ropp in P1. assert (P2 := Rle_abs q). assert (M1 := Rmax_l (Rabs p) (Rabs q)). assert (M2 := Rmax_r (Rabs p) (Rabs q)). apply Rabs_le. lra. }
  apply G in X1. apply G in X2. apply G in X3. split; [|split].
  - eapply Rle_trans; [exact X1|]. eapply Rle_trans; [apply Rmax_l|apply Rmax_l].
  - eapply Rle_trans; [exact X2|]. eapply Rle_trans; [apply Rmax_r|apply Rmax_l].
  - eapply Rle_trans; [exact X3|]. apply Rmax_r.
Qed.
Theorem lineqs3_window rows w : let rs := prepared idr rows in let cut := rs ++ box3 w in (2 <= length rs)%nat -> ~ bounded3 rs -> all_apart cut -> separated3 cut ->
  exists L, lineqs3 0 idr rows (Some w) = Some L /\ all_faces cut L.
Proof.
  intros rs cut L2 Nb Ap Sp. assert (Ap0 : all_apart rs) by (intros r s Hr Hs; apply Ap; apply in_or_app; now left).
  assert (Ne : rs <> []) by (intro E; rewrite E in L2; simpl in L2; lia). unfold lineqs3. fold rs. assert (L1 : (length rs =? 1)%nat = false) by (apply Nat.eqb_neq; lia). rewrite L1. cbv zeta.
  assert (U := probes_unbounded rs Ap0 Ne Nb). assert (S := probes_some rs Ap0 U). destruct (flat_map fst (probes 0 idr rs)) as [|e l]; [congruence|]. rewrite U. fold cut. apply polygons_faces; [exact Ap|apply box3_bounded|exact Sp].
Qed.
(** Without bounds the call either raises or cuts with some cube. *)
Theorem lineqs3_default rows : let rs := prepared idr rows in (2 <= length rs)%nat -> ~ bounded3 rs -> all_apart rs ->
  lineqs3 0 idr rows None = None /\ (exists r, In r rs /\ forall x, tight3 r x -> in_set3 rs x) \/
  exists c h, 0 < h /\ (all_apart (rs ++ box3 (cube c h)) -> separated3 (rs ++ box3 (cube c h)) -> exists L, lineqs3 0 idr rows None = Some L /\ all_faces (rs ++ box3 (cube c h)) L).
Proof.
  intros rs L2 Nb Ap0. assert (Ne : rs <> []) by (intro E; rewrite E in L2; simpl in L2; lia). unfold lineqs3. fold rs. assert (L1 : (length rs =? 1)%nat = false) by (apply Nat.eqb_neq; lia). rewrite L1. cbv zeta.
  assert (U := probes_unbounded rs Ap0 Ne Nb). assert (S := probes_some rs Ap0 U). destruct (flat_map fst (probes 0 idr rs)) as [|e l] eqn:EP; [congruence|]. rewrite U.
  destruct (all_points (e :: l)) as [ps|] eqn:EA.
  - right. unfold default3. cbv zeta. set (c := mean _). set (rm := maxs (map x1 ps) - mins (map x1 ps) + (maxs (map x2 ps) - mins (map x2 ps)) + (maxs (map x3 ps) - mins (map x3 ps))).
    exists c, (if Rle_dec rm (/ 100000000000000) then rm + 1 else rm). split.
    + assert (G : forall l, mins l <= maxs l).
      { intros [|a l']; [simpl; lra|]. unfold mins, maxs. assert (G1 : forall l a, fold_left Rmin l a <= a) by (induction l0 as [|b l0 IH]; intro t; simpl; [lra|]; eapply Rle_trans; [apply IH|apply Rmin_l]).
        assert (G2 : forall l a, a <= fold_left Rmax l a) by (induction l0 as [|b l0 IH]; intro t; simpl; [lra|]; eapply Rle_trans; [|apply IH]; apply Rmax_l). eapply Rle_trans; [apply G1|apply G2]. }
      assert (0 <= rm) by (unfold rm; assert (A := G (map x1 ps)); assert (B := G (map x2 ps)); assert (C := G (map x3 ps)); lra). destruct Rle_dec; lra.
    + intros Ap Sp. apply polygons_faces; [exact Ap|apply box3_bounded|exact Sp].
  - left. split; [reflexivity|].
    assert (exists xi, In (Bare xi) (e :: l)) as (xi & Hxi).
    { clear - EA. revert EA. generalize (e :: l). induction l0 as [|[xi|qs] l0 IH]; intro H; [discriminate|exists xi; now left|]. cbn [all_points] in H. destruct (all_points l0) eqn:E; [discriminate|]. destruct (IH eq_refl) as (xi & Hxi). exists xi. now right. }
    rewrite <- EP in Hxi. apply in_flat_map in Hxi. destruct Hxi as (t & Ht & Hxi). apply each_in in Ht. destruct Ht as (k & r & Hk & ->). exists r. split; [eapply nth_error_In; exact Hk|]. intros x Tx.
    destruct (phi_onto rs k r Hk Ap0 x Tx) as (p & ->). revert Hxi. unfold probe. rewrite (surjective_pairing (plane idr rs k r)). assert (IP := in_plane rs k r Hk Ap0 p). set (qs := fst (plane idr rs k r)) in *. set (ok := snd (plane idr rs k r)) in *. destruct ok; [|intros []].
    destruct qs as [|q qs]; [intros _; apply IP; [reflexivity|intros q []]|]. destruct (boundary_intervals 0 (q :: qs)); [intros []|]. cbv zeta. cbn [fst In]. intros [H|[]]. discriminate.
Qed.
