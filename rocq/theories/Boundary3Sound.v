(** Points returned by lineqs3D nearly satisfy the inequalities, for any rounding. *)
From Coq Require Import Reals List Bool Arith Lia Lra Psatz Classical.
From Verif Require Import Exact SpecExact Boundary SpecBoundary BoundaryProofs BoundaryMore BoundaryPath BoundaryWindow Boundary3 SpecBoundary3 Boundary3Plane Boundary3Proofs.
Import ListNotations.
Open Scope R_scope.

Lemma ext_add_fin a b x : ext_add a b = Fin x -> exists u v, a = Fin u /\ b = Fin v.
Proof. destruct a, b; cbn; intro H; try discriminate; eauto. Qed.
Lemma lift_finite r p x : lift r p = fin3 x -> exists q, p = fin q /\ x = phi r q.
Proof.
  intro H. assert (exists q, p = fin q) as (q & ->).
  { unfold lift, fin3 in H. injection H as H1 _ _. apply ext_add_fin in H1. destruct H1 as (u & v & A & B). destruct p as [p1 p2]. cbn [fst snd] in *.
    assert (exists t, p1 = Fin t) as (t1 & ->). { destruct p1 as [t| | |]; [eauto|..]; exfalso; revert A; unfold ext_scale, ext_shift; repeat destruct Rlt_dec; repeat destruct Req_EM_T; repeat destruct Rle_dec; discriminate. }
    assert (exists t, p2 = Fin t) as (t2 & ->). { destruct p2 as [t| | |]; [eauto|..]; exfalso; revert B; unfold ext_scale, ext_shift; repeat destruct Rlt_dec; repeat destruct Req_EM_T; repeat destruct Rle_dec; discriminate. }
    exists (t1, t2). reflexivity. }
  exists q. split; [reflexivity|]. rewrite lift_fin in H. unfold fin3 in H. injection H as H1 H2 H3. now apply v3_ext.
Qed.
Lemma norm_xi a b x : a <> (0, 0, 0) -> dot3 a x = b -> dot3 (sub3 x (cv_xi a b)) (sub3 x (cv_xi a b)) <= dot3 x x.
Proof.
  intros Na T. assert (P := dot3_pos a Na). assert (E : dot3 (sub3 x (cv_xi a b)) (sub3 x (cv_xi a b)) = dot3 x x - b * b / dot3 a a).
  { unfold sub3, cv_xi. unf3. destruct a as [[p q] r], x as [[u v] w]. cbn [fst snd] in *. rewrite <- T. field. lra. }
  rewrite E. assert (0 <= b * b / dot3 a a); [|lra]. unfold Rdiv. apply Rmult_le_pos; [nra|]. apply Rlt_le, Rinv_0_lt_compat, P.
Qed.
Lemma phi_zero r : phi r (0, 0) = cv_xi (nrm r) (off r).
Proof. unfold phi, cv_point. cbn [fst snd]. apply v3_ext; unf3; ring. Qed.
Lemma coord_bound r q : nrm r <> (0, 0, 0) -> Rabs (fst q) + Rabs (snd q) <= 2 * norm3 (phi r q) * (/ norm3 (nrm r) + / (norm3 (nrm r) * norm3 (nrm r))).
Proof.
  intro Na. set (a := nrm r) in *. assert (P := dot3_pos a Na). assert (Y := y1_half a). assert (Py := cv_y1_nz a Na). set (n := norm3 a). assert (Pn : 0 < n) by (unfold n, norm3; now apply sqrt_lt_R0). assert (En : n * n = dot3 a a) by (unfold n, norm3; apply sqrt_sqrt; lra).
  assert (D := phi_dist r q (0, 0)). rewrite phi_zero in D. cbn [fst snd] in D. rewrite !Rminus_0_r in D. fold a in D.
  assert (T : dot3 a (phi r q) = off r) by (destruct (change_variable a (off r) Na) as (H & _); apply H). assert (N := norm_xi a (off r) (phi r q) Na T). rewrite D in N.
  set (m := norm3 (phi r q)). assert (Pm : 0 <= m) by apply sqrt_pos. assert (Em : m * m = dot3 (phi r q) (phi r q)). { unfold m, norm3. apply sqrt_sqrt. unfold dot3. nra. }
  rewrite <- Em in N. rewrite <- En in *. set (h := dot3 (cv_y1 a) (cv_y1 a)) in *.
  assert (B : forall t k, 0 < k -> t * t * (k * k) <= 2 * (m * m) -> Rabs t <= 2 * m * / k).
  { intros t k Hk H. apply Rmult_le_reg_r with k; [exact Hk|]. rewrite Rmult_assoc, Rinv_l by lra. apply Rsqr_incr_0_var; [|lra]. unfold Rsqr. replace (Rabs t * k * (Rabs t * k)) with ((Rabs t * Rabs t) * (k * k)) by ring. rewrite <- Rabs_mult, (Rabs_pos_eq (t * t)) by nra. nra. }
  assert (S1 : 0 <= fst q * fst q) by nra. assert (S2 : 0 <= snd q * snd q) by nra. assert (S3 : 0 <= n * n * (snd q * snd q)) by nra.
  assert (B1 := B (fst q) n Pn). assert (B2 := B (snd q) (n * n) ltac:(nra)). destruct Y as [Y _].
  assert (G : (fst q * fst q + n * n * (snd q * snd q)) * (n * n) <= 2 * (m * m)).
  { apply Rle_trans with ((fst q * fst q + n * n * (snd q * snd q)) * (2 * h)); [apply Rmult_le_compat_l; lra|]. match type of N with ?L <= _ => replace ((fst q * fst q + n * n * (snd q * snd q)) * (2 * h)) with (2 * L) by ring end. lra. }
  assert (Q1 : fst q * fst q * (n * n) <= 2 * (m * m)). { eapply Rle_trans; [|exact G]. apply Rmult_le_compat_r; [nra|lra]. }
  assert (Q2 : snd q * snd q * (n * n * (n * n)) <= 2 * (m * m)). { eapply Rle_trans; [|exact G]. replace (snd q * snd q * (n * n * (n * n))) with (n * n * (snd q * snd q) * (n * n)) by ring. apply Rmult_le_compat_r; [nra|lra]. }
  specialize (B1 Q1). specialize (B2 Q2). lra.
Qed.
Section Round.
Variables (around : R -> R) (d : R).
Hypothesis Har : forall x, Rabs (around x - x) <= d.
Lemma d_pos : 0 <= d.
Proof. assert (H := Har 0). assert (P := Rabs_pos (around 0 - 0)). lra. Qed.
(** A row and its rounded version differ little at a point. *)
Lemma rounded_row q p : Rabs (at_pt (around_row around q) p - rhs (around_row around q) - (at_pt q p - rhs q)) <= d * (1 + Rabs (fst p) + Rabs (snd p)).
Proof.
  assert (D := d_pos). unfold at_pt, around_row. cbn [a0 a1 rhs].
  replace (around (a0 q) * fst p + around (a1 q) * snd p - around (rhs q) - (a0 q * fst p + a1 q * snd p - rhs q)) with ((around (a0 q) - a0 q) * fst p + (around (a1 q) - a1 q) * snd p + - (around (rhs q) - rhs q)) by ring.
  eapply Rle_trans; [apply Rabs_triang|]. eapply Rle_trans; [apply Rplus_le_compat_r, Rabs_triang|]. rewrite !Rabs_mult, Rabs_Ropp.
  assert (A := Har (a0 q)). assert (B := Har (a1 q)). assert (C := Har (rhs q)). assert (P1 := Rabs_pos (fst p)). assert (P2 := Rabs_pos (snd p)). nra.
Qed.
Lemma plane_point rows k r s p : snd (plane around rows k r) = true -> in_set (fst (plane around rows k r)) p -> In s (drop_nth k rows) ->
  nearly ((d + / 1000000000000) * (1 + Rabs (fst p) + Rabs (snd p))) s (phi r p).
Proof.
  intros Ok Ip Hs. set (q := cv_row (nrm r) (off r) (nrm s) (off s)). assert (Rq := rounded_row q p). assert (Hq : In (around_row around q) (map (around_row around) (plane_rows rows k r))) by (apply in_map, in_map_iff; exists s; auto).
  assert (E : at_pt q p - rhs q = dot3 (nrm s) (phi r p) - off s) by (unfold q, at_pt, cv_row, phi; cbn [a0 a1 rhs]; rewrite dot3_point; ring). rewrite E in Rq.
  assert (P1 := Rabs_pos (fst p)). assert (P2 := Rabs_pos (snd p)). assert (D := d_pos). unfold nearly.
  assert (Low : - (/ 1000000000000) * (1 + Rabs (fst p) + Rabs (snd p)) <= at_pt (around_row around q) p - rhs (around_row around q)).
  { unfold plane, clear_zero_rows in Ok, Ip. cbn [fst snd] in *. destruct (zero_row (around_row around q)) eqn:Z.
    - apply negb_true_iff in Ok. rewrite <- not_true_iff_false in Ok. assert (L : rhs (around_row around q) <= 0).
      { destruct (Rle_dec (rhs (around_row around q)) 0) as [L|L]; [exact L|]. exfalso. apply Ok. apply existsb_exists. exists (around_row around q). split; [exact Hq|]. rewrite Z. destruct Rlt_dec; [reflexivity|lra]. }
      unfold zero_row, tiny in Z. apply andb_true_iff in Z. destruct Z as [Z1 Z2]. destruct (Rle_dec (Rabs (a0 (around_row around q))) _) as [T1|]; [|discriminate]. destruct (Rle_dec (Rabs (a1 (around_row around q))) _) as [T2|]; [|discriminate].
      assert (M : forall u v, Rabs u <= / 1000000000000 -> - (/ 1000000000000) * Rabs v <= u * v).
      { intros u v Hu. assert (X := Rle_abs (- (u * v))). rewrite Rabs_Ropp, Rabs_mult in X. assert (Rabs u * Rabs v <= / 1000000000000 * Rabs v) by (apply Rmult_le_compat_r; [apply Rabs_pos|exact Hu]). lra. }
      unfold at_pt. assert (M1 := M _ (fst p) T1). assert (M2 := M _ (snd p) T2). lra.
    - assert (H := Ip (around_row around q) ltac:(apply filter_In; split; [exact Hq|now rewrite Z])). unfold holds in H. unfold at_pt. nra. }
  assert (X := Rle_abs (at_pt (around_row around q) p - rhs (around_row around q) - (dot3 (nrm s) (phi r p) - off s))). lra.
Qed.
Lemma polygons_in rows L x : polygons 0 around rows = Some L -> listed3 L x -> exists k r p, nth_error rows k = Some r /\ snd (plane around rows k r) = true /\ in_set (fst (plane around rows k r)) p /\ x = phi r p.
Proof.
  intros E (P & HP & Hx). assert (J : forall (l : list (option (list (list ev3)))) L, join l = Some L -> In P L -> exists l0, In (Some l0) l /\ In P l0).
  { induction l as [|[a|] l IH]; intros L0 H I; cbn [join] in H; try discriminate; [injection H as <-; destruct I|]. destruct (join l) as [b|] eqn:Eb; [|discriminate]. injection H as <-. apply in_app_or in I. destruct I as [I|I]; [exists a; split; [now left|exact I]|]. destruct (IH b eq_refl I) as (l0 & H1 & H2). exists l0. split; [now right|exact H2]. }
  destruct (J _ _ E HP) as (l0 & H0 & H1). apply each_in in H0. destruct H0 as (k & r & Hk & E0). exists k, r. unfold polygon_of in E0. rewrite (surjective_pairing (plane around rows k r)) in E0. set (qs := fst (plane around rows k r)) in *.
  destruct (snd (plane around rows k r)); [|injection E0 as ->; destruct H1]. destruct (boundary_intervals 0 qs) as [|s0 S0] eqn:ES; [injection E0 as ->; destruct H1|]. rewrite <- ES in E0. destruct (intervals2path (boundary_intervals 0 qs)) as [Q|] eqn:EQ; [|discriminate]. injection E0 as ->.
  destruct H1 as [<-|[]]. apply in_map_iff in Hx. destruct Hx as (p & Ep & Hp). apply lift_finite in Ep. destruct Ep as (q & -> & ->). exists q. split; [exact Hk|]. split; [reflexivity|]. split; [|reflexivity].
  destruct (path_in _ Q (fin q) EQ Hp) as (s & Hs & Hsq). apply (seg_ends qs s (fin q) q); [apply cleared_nonzero|exact Hs|exact Hsq|reflexivity].
Qed.
Lemma polygons_sound rows L x : (forall r, In r rows -> nrm r <> (0, 0, 0)) -> polygons 0 around rows = Some L -> listed3 L x ->
  exists r, In r rows /\ tight3 r x /\ forall s, In s rows -> nearly ((d + / 1000000000000) * (1 + 2 * norm3 x * (/ norm3 (nrm r) + / (norm3 (nrm r) * norm3 (nrm r))))) s x.
Proof.
  intros Nz E Hx. destruct (polygons_in rows L x E Hx) as (k & r & p & Hk & Ok & Ip & ->). assert (Hr : In r rows) by (eapply nth_error_In; exact Hk). exists r. split; [exact Hr|]. assert (D := d_pos).
  assert (T : tight3 r (phi r p)) by (destruct (change_variable (nrm r) (off r) (Nz r Hr)) as (H & _); apply H). split; [exact T|]. assert (B := coord_bound r p (Nz r Hr)). assert (P1 := Rabs_pos (fst p)). assert (P2 := Rabs_pos (snd p)). set (c := 2 * norm3 (phi r p) * _) in *.
  intros s Hs. destruct (drop_in_k k rows r s Hk Hs) as [->|Hd].
  - unfold nearly, tight3 in *. rewrite T. assert (0 <= (d + / 1000000000000) * (1 + c)) by (apply Rmult_le_pos; lra). lra.
  - assert (N := plane_point rows k r s p Ok Ip Hd). unfold nearly in *. assert ((d + / 1000000000000) * (1 + Rabs (fst p) + Rabs (snd p)) <= (d + / 1000000000000) * (1 + c)) by (apply Rmult_le_compat_l; lra). lra.
Qed.
Lemma prepared_nonzero rows r : In r (prepared around rows) -> exists q, In q rows /\ r = around_row3 around (around_row3 around q) /\ has_direction (around_row3 around q).
Proof.
  unfold prepared, non_repeat. intro H. assert (G : forall l seen, In r (first_keys seen l) -> In r l) by (induction l as [|p l IH]; intros seen I; [destruct I|]; cbn [first_keys] in I; destruct in_dec; [right; eauto|destruct I as [<-|I]; [now left|right; eauto]]). apply G in H. apply in_map_iff in H. destruct H as (q1 & <- & H).
  unfold clear_zero_rows3 in H. apply filter_In in H. destruct H as [H Z]. apply in_map_iff in H. destruct H as (q & <- & Hq). exists q. split; [exact Hq|]. split; [reflexivity|]. apply negb_true_iff in Z. revert Z. clear. unfold zero_row3, has_direction, tiny.
  destruct (Rle_dec (Rabs (x1 _)) _), (Rle_dec (Rabs (x2 _)) _), (Rle_dec (Rabs (x3 _)) _); simpl; intro; try discriminate; repeat match goal with H : ~ (_ <= _) |- _ => apply Rnot_le_lt in H end; tauto.
Qed.
End Round.
(** Rounding twice is rounding once. *)
Theorem lineqs3_sound around d rows bounds L x : (forall t, Rabs (around t - t) <= d) -> (forall t, around (around t) = around t) ->
  lineqs3 0 around rows bounds = Some L -> listed3 L x ->
  exists window r, In r (prepared around rows ++ window) /\ tight3 r x /\
    (forall s, In s (prepared around rows ++ window) -> nearly ((d + / 1000000000000) * (1 + 2 * norm3 x * (/ norm3 (nrm r) + / (norm3 (nrm r) * norm3 (nrm r))))) s x) /\
    (window = [] \/ exists w, window = box3 w /\ (forall w', bounds = Some w' -> w' = w)).
Proof.
  intros Har Idem. unfold lineqs3. set (rs := prepared around rows). destruct (length rs =? 1)%nat; [discriminate|]. cbv zeta. destruct (flat_map fst (probes 0 around rs)) as [|e l] eqn:EP; [intros H (P & HP & _); injection H as <-; destruct HP|].
  assert (Nz : forall r, In r rs -> nrm r <> (0, 0, 0)).
  { intros r Hr E. apply prepared_nonzero in Hr. destruct Hr as (q & _ & -> & D). assert (E2 : around_row3 around (around_row3 around q) = around_row3 around q) by (unfold around_row3; cbn [nrm off]; unf3; rewrite !Idem; reflexivity). rewrite E2 in E. unfold has_direction in D. rewrite E in D. unf3. rewrite Rabs_R0 in D. lra. }
  assert (Nb : forall w r, In r (rs ++ box3 w) -> nrm r <> (0, 0, 0)).
  { intros w r Hr. apply in_app_or in Hr. destruct Hr as [Hr|Hr]; [now apply Nz|]. unfold box3 in Hr. cbn [In] in Hr. repeat (destruct Hr as [<-|Hr]; [cbn [nrm]; intro E; injection E; intros; lra|]). destruct Hr. }
  destruct (existsb snd (probes 0 around rs)).
  - destruct bounds as [w|].
    + intros E Hx. destruct (polygons_sound around d Har _ L x (Nb w) E Hx) as (r & H1 & H2 & H3). exists (box3 w), r. split; [exact H1|]. split; [exact H2|]. split; [exact H3|]. right. exists w. split; [reflexivity|]. intros w' H. now injection H as ->.
    + destruct (all_points (e :: l)) as [ps|]; [|discriminate]. destruct (default3 ps) as [c rm]. intros E Hx. destruct (polygons_sound around d Har _ L x (Nb (cube c rm)) E Hx) as (r & H1 & H2 & H3). exists (box3 (cube c rm)), r. split; [exact H1|]. split; [exact H2|]. split; [exact H3|]. right. eexists. split; [reflexivity|]. intros w' H. discriminate.
  - intros E Hx. destruct (polygons_sound around d Har _ L x Nz E Hx) as (r & H1 & H2 & H3). exists [], r. rewrite app_nil_r. split; [exact H1|]. split; [exact H2|]. split; [exact H3|]. now left.
Qed.
