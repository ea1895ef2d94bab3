(** Proofs about boundary_intervals.py. *)
From Coq Require Import Reals List Sorted Arith Bool Lia Lra Psatz.
From Verif Require Import Exact Recog SpecExact ExactProofs RecogProofs Boundary SpecBoundary EstimProofs.
Import ListNotations.
Open Scope R_scope.

(** ** Lines and directions *)
Definition param (r : row) (t : R) : pt := (fst (foot r) + fst (dir r) * t, snd (foot r) + snd (dir r) * t).
Lemma norm_pos r : nonzero r -> 0 < dot2 r r.
Proof. unfold nonzero, dot2. intros [H|H]; nra. Qed.
Lemma foot_tight r : nonzero r -> tight r (foot r).
Proof. intro H. apply norm_pos in H. unfold tight, foot; simpl. unfold dot2 in *. field. lra. Qed.
Lemma at_param rk ri t : at_pt rk (param ri t) = at_pt rk (foot ri) + t * at_pt rk (dir ri).
Proof. unfold at_pt, param; simpl. ring. Qed.
Lemma param_tight r t : nonzero r -> tight r (param r t).
Proof. intro H. assert (T := foot_tight r H). unfold tight in *. change (at_pt r (param r t) = rhs r). rewrite at_param. unfold at_pt at 1. rewrite T. unfold at_pt, dir; simpl. ring. Qed.
Lemma tight_param r x : nonzero r -> tight r x -> x = param r (along r x / dot2 r r).
Proof.
  intros H T. apply norm_pos in H. unfold tight, along, param, foot, dir in *. destruct x as [x y]; simpl in *. unfold dot2 in *. rewrite <- T.
  f_equal; field; lra.
Qed.
Lemma along_param r t : nonzero r -> along r (param r t) = dot2 r r * t.
Proof. intro H. apply norm_pos in H. unfold along, param, foot, dir; simpl. unfold dot2 in *. field. lra. Qed.
Lemma param_inj r s t : nonzero r -> param r s = param r t -> s = t.
Proof.
  intros H E. assert (E2 : dot2 r r * s = dot2 r r * t) by (rewrite <- !along_param by exact H; now rewrite E). apply norm_pos in H.
  apply Rmult_eq_reg_l in E2; lra.
Qed.
Lemma parallel_at rk ri x : nonzero ri -> at_pt rk (dir ri) = 0 -> dot2 ri ri * at_pt rk x = dot2 rk ri * at_pt ri x.
Proof.
  intros H E. unfold at_pt, dir, dot2 in *. destruct x as [x y]; simpl in *.
  assert (E1 : a1 rk * a0 ri = a0 rk * a1 ri) by lra.
  replace ((a0 ri * a0 ri + a1 ri * a1 ri) * (a0 rk * x + a1 rk * y)) with (a0 rk * a0 ri * a0 ri * x + (a0 rk * a1 ri) * a1 ri * x + (a1 rk * a0 ri) * a0 ri * y + a1 rk * a1 ri * a1 ri * y) by ring.
  replace ((a0 rk * a0 ri + a1 rk * a1 ri) * (a0 ri * x + a1 ri * y)) with (a0 rk * a0 ri * a0 ri * x + (a1 rk * a0 ri) * a1 ri * x + (a0 rk * a1 ri) * a0 ri * y + a1 rk * a1 ri * a1 ri * y) by ring.
  rewrite E1. ring.
Qed.

(** ** The scan over the other inequalities *)
Definition is_lo (q : ext) := q = NInf \/ exists r, q = Fin r.
Definition is_hi (q : ext) := q = PInf \/ exists r, q = Fin r.
Definition above (q : ext) (t : R) : Prop := match q with NInf => True | Fin r => r <= t | _ => False end.
Definition below (q : ext) (t : R) : Prop := match q with PInf => True | Fin r => t <= r | _ => False end.
Lemma hi_step q s : is_hi q -> is_hi (if ext_le q (Fin s) then q else Fin s) /\ forall t, below (if ext_le q (Fin s) then q else Fin s) t <-> below q t /\ t <= s.
Proof.
  intros [->|[r ->]]; simpl; [split; [right; eauto | simpl; intuition]|].
  destruct Rle_dec; simpl; (split; [right; eauto|]); intros; lra.
Qed.
Lemma lo_step q s : is_lo q -> is_lo (if ext_lt (Fin s) q then q else Fin s) /\ forall t, above (if ext_lt (Fin s) q then q else Fin s) t <-> above q t /\ s <= t.
Proof.
  intros [->|[r ->]]; simpl; [split; [right; eauto | simpl; intuition]|].
  destruct Rle_dec; simpl; (split; [right; eauto|]); intros; lra.
Qed.
Definition others (i k : nat) (rows : list row) (x : pt) : Prop := forall j r, nth_error rows j = Some r -> (k + j)%nat <> i -> holds r x.
Lemma others_cons i k r rows x : others i k (r :: rows) x <-> (k <> i -> holds r x) /\ others i (S k) rows x.
Proof.
  unfold others. split.
  - intro H. split; [intro Ne; apply (H O r); [reflexivity|lia] | intros j s Hj Ne; apply (H (S j) s); [exact Hj|lia]].
  - intros [H1 H2] [|j] s Hj Ne; [injection Hj as <-; apply H1; lia | apply (H2 j s); [exact Hj|lia]].
Qed.
Lemma scan_spec i ri rows : nonzero ri -> forall k q0 q1, is_lo q0 -> is_hi q1 ->
  match bi_scan i ri k rows q0 q1 with
  | Face a c => is_lo a /\ is_hi c /\ forall t, (above a t /\ below c t) <-> (above q0 t /\ below q1 t /\ others i k rows (param ri t))
  | NoFace => forall t, ~ others i k rows (param ri t)
  | EmptySet => forall x, holds ri x -> ~ others i k rows x
  end.
Proof.
  intro Nz. induction rows as [|rk rest IH]; intros k q0 q1 L0 L1; cbn [bi_scan].
  - split; [exact L0|split; [exact L1|]]. intro t. split; [intros [H1 H2]; repeat split; auto; intros j r Hj; destruct j; discriminate | tauto].
  - destruct (Nat.eqb_spec k i) as [Ek|Ek].
    + specialize (IH (S k) q0 q1 L0 L1). destruct bi_scan.
      * intros x Hx Ho. apply others_cons in Ho. exact (IH x Hx (proj2 Ho)).
      * intros t Ho. apply others_cons in Ho. exact (IH t (proj2 Ho)).
      * destruct IH as (H1 & H2 & H3). split; [exact H1|split; [exact H2|]]. intro t. rewrite H3, others_cons. tauto.
    + cbv zeta. set (akx := at_pt rk (foot ri)). set (c := at_pt rk (dir ri)).
      assert (HP : forall t, holds rk (param ri t) <-> rhs rk <= akx + t * c).
      { intro t. unfold holds. change (a0 rk * fst (param ri t) + a1 rk * snd (param ri t)) with (at_pt rk (param ri t)). rewrite at_param. reflexivity. }
      destruct (Rlt_dec c 0) as [Cn|Cn]; [|destruct (Rlt_dec 0 c) as [Cp|Cp]].
      * set (s := (rhs rk - akx) / c). destruct (hi_step q1 s L1) as [L1' B]. specialize (IH (S k) q0 _ L0 L1').
        assert (HS : forall t, t <= s <-> holds rk (param ri t)).
        { intro t. rewrite HP. assert (E : s * c = rhs rk - akx) by (unfold s; field; lra). split; nra. }
        destruct bi_scan.
        -- intros x Hx Ho. apply others_cons in Ho. exact (IH x Hx (proj2 Ho)).
        -- intros t Ho. apply others_cons in Ho. exact (IH t (proj2 Ho)).
        -- destruct IH as (H1 & H2 & H3). split; [exact H1|split; [exact H2|]]. intro t. rewrite H3, others_cons, B, HS. tauto.
      * set (s := (rhs rk - akx) / c). destruct (lo_step q0 s L0) as [L0' B]. specialize (IH (S k) _ q1 L0' L1).
        assert (HS : forall t, s <= t <-> holds rk (param ri t)).
        { intro t. rewrite HP. assert (E : s * c = rhs rk - akx) by (unfold s; field; lra). split; nra. }
        destruct bi_scan.
        -- intros x Hx Ho. apply others_cons in Ho. exact (IH x Hx (proj2 Ho)).
        -- intros t Ho. apply others_cons in Ho. exact (IH t (proj2 Ho)).
        -- destruct IH as (H1 & H2 & H3). split; [exact H1|split; [exact H2|]]. intro t. rewrite H3, others_cons, B, HS. tauto.
      * assert (C0 : c = 0) by lra. destruct (Rlt_dec akx (rhs rk)) as [V|V].
        -- destruct (Rlt_dec 0 (dot2 rk ri)) as [D|D].
           ++ intros t Ho. apply others_cons in Ho. destruct Ho as [Ho _]. specialize (Ho Ek). rewrite HP, C0 in Ho. lra.
           ++ intros x Hx Ho. apply others_cons in Ho. destruct Ho as [Ho _]. specialize (Ho Ek).
              assert (E1 := parallel_at rk ri x Nz C0). assert (E2 := parallel_at rk ri (foot ri) Nz C0). fold akx in E2. assert (P := norm_pos ri Nz).
              assert (F : at_pt ri (foot ri) = rhs ri) by exact (foot_tight ri Nz). rewrite F in E2.
              unfold holds in Hx, Ho. change (a0 ri * fst x + a1 ri * snd x) with (at_pt ri x) in Hx. change (a0 rk * fst x + a1 rk * snd x) with (at_pt rk x) in Ho. nra.
        -- specialize (IH (S k) q0 q1 L0 L1).
           assert (HS : forall t, holds rk (param ri t)) by (intro t; rewrite HP, C0; lra).
           destruct bi_scan.
           ++ intros x Hx Ho. apply others_cons in Ho. exact (IH x Hx (proj2 Ho)).
           ++ intros t Ho. apply others_cons in Ho. exact (IH t (proj2 Ho)).
           ++ destruct IH as (H1 & H2 & H3). split; [exact H1|split; [exact H2|]]. intro t. rewrite H3, others_cons. specialize (HS t). tauto.
Qed.
Lemma in_set_others rows i ri x : nth_error rows i = Some ri -> in_set rows x <-> holds ri x /\ others i 0 rows x.
Proof.
  intro Hi. unfold in_set, others. split.
  - intro H. split; [apply H; now apply nth_error_In with i | intros j r Hj _; apply H; now apply nth_error_In with j].
  - intros [H1 H2] r Hr. apply In_nth_error in Hr. destruct Hr as [j Hj]. destruct (Nat.eq_dec j i) as [->|Ne]; [congruence|]. apply (H2 j r Hj). simpl. exact Ne.
Qed.
Lemma tight_holds r x : tight r x -> holds r x.
Proof. unfold tight, holds. lra. Qed.
Lemma face_param rows i ri x : nonzero ri -> nth_error rows i = Some ri -> face rows i x <-> exists t, x = param ri t /\ others i 0 rows (param ri t).
Proof.
  intros Nz Hi. unfold face. rewrite (in_set_others rows i ri x Hi). split.
  - intros [[_ Ho] (r & Hr & T)]. assert (r = ri) by congruence. subst r. eexists. split; [exact (tight_param ri x Nz T)|]. rewrite <- (tight_param ri x Nz T). exact Ho.
  - intros (t & -> & Ho). split; [split; [apply tight_holds; now apply param_tight | exact Ho]|]. exists ri. split; [exact Hi | now apply param_tight].
Qed.
(** The segment for inequality [i] given by the ends [q0], [q1]. *)
Definition seg_ok (eps : R) (rows : list row) (s : seg) : Prop := exists ri q0 q1,
  nth_error rows (s_idx s) = Some ri /\ s_from s = on_line eps ri q0 /\ s_to s = on_line eps ri q1 /\ is_lo q0 /\ is_hi q1 /\
  (exists t, above q0 t /\ below q1 t) /\ forall x, face rows (s_idx s) x <-> exists t, x = param ri t /\ above q0 t /\ below q1 t.
Lemma nonempty_range q0 q1 : is_lo q0 -> is_hi q1 -> ext_lt q1 q0 = false <-> exists t, above q0 t /\ below q1 t.
Proof.
  intros [->|[a ->]] [->|[c ->]]; simpl.
  - split; [intros _; exists 0; auto | auto].
  - split; [intros _; exists c; simpl; split; [exact I|lra] | auto].
  - split; [intros _; exists a; simpl; split; [lra|exact I] | auto].
  - destruct Rle_dec; simpl; split; intro H; try discriminate; try reflexivity; [exists a; lra | destruct H as [t H]; lra].
Qed.
Lemma rows_spec eps all : (forall r, In r all -> nonzero r) -> forall rest i, (forall j r, nth_error rest j = Some r -> nth_error all (i + j) = Some r) ->
  match bi_rows eps all i rest with
  | None => forall x, ~ in_set all x
  | Some l => (forall s, In s l -> (i <= s_idx s < i + length rest)%nat /\ seg_ok eps all s) /\
      (forall j x, (i <= j < i + length rest)%nat -> face all j x -> exists s, In s l /\ s_idx s = j) /\ StronglySorted lt (map s_idx l)
  end.
Proof.
  intro Nz. induction rest as [|ri rest IH]; intros i Hn; cbn [bi_rows].
  - split; [intros s []|split; [intros j x Hj; simpl in Hj; lia | constructor]].
  - assert (Hi : nth_error all i = Some ri) by (rewrite <- (Nat.add_0_r i); now apply Hn). assert (Ni : nonzero ri) by (apply Nz; now apply nth_error_In with i).
    assert (Sc := scan_spec i ri all Ni 0 NInf PInf ltac:(now left) ltac:(now left)).
    specialize (IH (S i) ltac:(intros j r Hj; replace (S i + j)%nat with (i + S j)%nat by lia; now apply Hn)).
    destruct (bi_scan i ri 0 all NInf PInf) as [| |q0 q1].
    + intros x Hx. apply (in_set_others all i ri x Hi) in Hx. exact (Sc x (proj1 Hx) (proj2 Hx)).
    + destruct (bi_rows eps all (S i) rest) as [l|]; [|exact IH]. destruct IH as (I1 & I2 & I3). split; [|split; [|exact I3]].
      * intros s Hs. destruct (I1 s Hs) as [R1 R2]. split; [simpl; lia|exact R2].
      * intros j x Hj Fx. destruct (Nat.eq_dec j i) as [->|Ne]; [|apply (I2 j x); [simpl in Hj; lia|exact Fx]].
        exfalso. apply (face_param all i ri x Ni Hi) in Fx. destruct Fx as (t & _ & Ho). exact (Sc t Ho).
    + destruct Sc as (L0 & L1 & Ht). destruct (bi_rows eps all (S i) rest) as [l|]; [|exact IH]. destruct IH as (I1 & I2 & I3).
      assert (Fc : forall x, face all i x <-> exists t, x = param ri t /\ above q0 t /\ below q1 t).
      { intro x. rewrite (face_param all i ri x Ni Hi). split; intros (t & E & H); exists t; (split; [exact E|]); specialize (Ht t); simpl in Ht; tauto. }
      destruct (ext_lt q1 q0) eqn:El.
      * split; [|split; [|exact I3]].
        -- intros s Hs. destruct (I1 s Hs) as [R1 R2]. split; [simpl; lia|exact R2].
        -- intros j x Hj Fx. destruct (Nat.eq_dec j i) as [->|Ne]; [|apply (I2 j x); [simpl in Hj; lia|exact Fx]].
           exfalso. apply Fc in Fx. destruct Fx as (t & _ & H). assert (ext_lt q1 q0 = false) by (apply nonempty_range; eauto). congruence.
      * split; [|split].
        -- intros s [<-|Hs]; [|destruct (I1 s Hs) as [R1 R2]; split; [simpl; lia|exact R2]]. split; [simpl; lia|].
           exists ri, q0, q1. refine (conj Hi (conj eq_refl (conj eq_refl (conj L0 (conj L1 (conj _ Fc)))))). now apply nonempty_range.
        -- intros j x Hj Fx. destruct (Nat.eq_dec j i) as [->|Ne]; [eexists; split; [now left|reflexivity]|].
           destruct (I2 j x ltac:(simpl in Hj; lia) Fx) as (s & Hs & E). exists s. split; [now right|exact E].
        -- simpl. constructor; [exact I3|]. apply Forall_forall. intros j Hj. apply in_map_iff in Hj. destruct Hj as (s & <- & Hs). destruct (I1 s Hs). lia.
Qed.
Lemma bi_spec eps rows : (forall r, In r rows -> nonzero r) ->
  (forall s, In s (boundary_intervals eps rows) -> seg_ok eps rows s) /\
  (forall i x, face rows i x -> exists s, In s (boundary_intervals eps rows) /\ s_idx s = i) /\ StronglySorted lt (map s_idx (boundary_intervals eps rows)).
Proof.
  intro Nz. assert (H := rows_spec eps rows Nz rows 0 ltac:(auto)). unfold boundary_intervals. destruct (bi_rows eps rows 0 rows) as [l|].
  - destruct H as (H1 & H2 & H3). split; [|split; [|exact H3]].
    + intros s Hs. apply H1; exact Hs.
    + intros i x Fx. apply (H2 i x); [|exact Fx]. destruct Fx as (_ & r & Hr & _). assert (nth_error rows i <> None) by congruence. apply nth_error_Some in H. lia.
  - split; [intros s []|split; [|constructor]]. intros i x [Hx _]. destruct (H x Hx).
Qed.

(** ** Statements *)
Lemma on_line_fin eps r t : on_line eps r (Fin t) = (Fin (fst (param r t) + eps * t), Fin (snd (param r t) + eps * t)).
Proof. unfold on_line, param; simpl. f_equal; f_equal; ring. Qed.
Lemma on_line_inf eps r q u : (q = PInf \/ q = NInf) -> ~ finite_at (on_line eps r q) u.
Proof.
  unfold finite_at, on_line. intros [-> | ->] H; simpl in H; destruct Rlt_dec; simpl in H; try discriminate; destruct Rlt_dec; simpl in H; discriminate.
Qed.
(** There is exactly one segment for every inequality whose line meets the set. *)
Theorem boundary_indices eps rows : (forall r, In r rows -> nonzero r) ->
  NoDup (map s_idx (boundary_intervals eps rows)) /\
  forall i, (exists s, In s (boundary_intervals eps rows) /\ s_idx s = i) <-> exists x, face rows i x.
Proof.
  intro Nz. destruct (bi_spec eps rows Nz) as (H1 & H2 & H3). split.
  - clear H1 H2. induction H3 as [|a l SS IH F]; constructor; [|exact IH]. intro Hin. rewrite Forall_forall in F. specialize (F a Hin). lia.
  - intro i. split.
    + intros (s & Hs & <-). destruct (H1 s Hs) as (ri & q0 & q1 & _ & _ & _ & _ & _ & (t & Ht) & Fc). exists (param ri t). apply Fc. eauto.
    + intros (x & Fx). eauto.
Qed.
(** A segment with finite ends: the ends are (up to the 1e-301 shift, here
    [eps]) the ends of the face, which is all of the segment between them. *)
Theorem boundary_segment eps rows s u v : (forall r, In r rows -> nonzero r) -> In s (boundary_intervals eps rows) ->
  finite_at (s_from s) u -> finite_at (s_to s) v ->
  exists u' v' t0 t1 r, nth_error rows (s_idx s) = Some r /\ (forall x, face rows (s_idx s) x <-> between u' v' x) /\
    along r u' = dot2 r r * t0 /\ along r v' = dot2 r r * t1 /\ t0 <= t1 /\
    fst u = fst u' + eps * t0 /\ snd u = snd u' + eps * t0 /\ fst v = fst v' + eps * t1 /\ snd v = snd v' + eps * t1.
Proof.
  intros Nz Hs Hu Hv. destruct (bi_spec eps rows Nz) as (H1 & _ & _). destruct (H1 s Hs) as (r & q0 & q1 & Hr & E0 & E1 & L0 & L1 & (t & Ht) & Fc).
  assert (Nr : nonzero r) by (apply Nz; now apply nth_error_In with (s_idx s)).
  destruct L0 as [->|[t0 ->]]; [rewrite E0 in Hu; apply on_line_inf in Hu; [destruct Hu|auto]|].
  destruct L1 as [->|[t1 ->]]; [rewrite E1 in Hv; apply on_line_inf in Hv; [destruct Hv|auto]|].
  rewrite E0, on_line_fin in Hu. rewrite E1, on_line_fin in Hv. unfold finite_at in Hu, Hv. simpl in Ht.
  exists (param r t0), (param r t1), t0, t1, r. split; [exact Hr|]. split.
  - intro x. rewrite Fc. simpl. split.
    + intros (t' & -> & A1 & A2). unfold between. destruct (Req_dec t0 t1) as [E|Ne].
      * exists 0. split; [lra|]. replace t' with t0 by lra. split; ring.
      * assert (Lt : t0 < t1) by (destruct (Rtotal_order t0 t1) as [|[|]]; [assumption|contradiction|lra]). exists ((t' - t0) / (t1 - t0)). split; [|unfold param; cbn [fst snd]; split; field; lra].
        split; [apply Rmult_le_pos; [lra|left; apply Rinv_0_lt_compat; lra]|]. apply (Rmult_le_reg_r (t1 - t0)); [lra|]. unfold Rdiv. rewrite Rmult_assoc, Rinv_l; lra.
    + intros (l & Hl & X1 & X2). exists (t0 + l * (t1 - t0)). split; [|nra]. destruct x as [x y]; simpl in *. rewrite X1, X2. unfold param; simpl. f_equal; ring.
  - rewrite !along_param by exact Nr. split; [reflexivity|split; [reflexivity|split; [lra|]]]. injection Hu as U1 U2. injection Hv as V1 V2. unfold param in *. simpl in *. lra.
Qed.
(** Without the shift the returned ends are exact. *)
Theorem boundary_segment_exact rows s u v : (forall r, In r rows -> nonzero r) -> In s (boundary_intervals 0 rows) ->
  finite_at (s_from s) u -> finite_at (s_to s) v -> forall x, face rows (s_idx s) x <-> between u v x.
Proof.
  intros Nz Hs Hu Hv. destruct (boundary_segment 0 rows s u v Nz Hs Hu Hv) as (u' & v' & t0 & t1 & r & _ & F & _ & _ & _ & E1 & E2 & E3 & E4).
  replace u with u' by (destruct u, u'; simpl in *; f_equal; lra). replace v with v' by (destruct v, v'; simpl in *; f_equal; lra). exact F.
Qed.
(** A start (end) is finite exactly when the face is bounded in that direction. *)
Theorem boundary_ends eps rows s r : (forall q, In q rows -> nonzero q) -> In s (boundary_intervals eps rows) -> nth_error rows (s_idx s) = Some r ->
  ((exists u, finite_at (s_from s) u) <-> exists t, forall x, face rows (s_idx s) x -> t <= along r x) /\
  ((exists v, finite_at (s_to s) v) <-> exists t, forall x, face rows (s_idx s) x -> along r x <= t).
Proof.
  intros Nz Hs Hr. destruct (bi_spec eps rows Nz) as (H1 & _ & _). destruct (H1 s Hs) as (r' & q0 & q1 & Hr' & E0 & E1 & L0 & L1 & (t & Ht) & Fc).
  assert (r' = r) by congruence. subst r'. assert (Nr : nonzero r) by (apply Nz; now apply nth_error_In with (s_idx s)). assert (P := norm_pos r Nr). rewrite E0, E1. split.
  - destruct L0 as [->|[t0 ->]].
    + split; [intros (u & Hu); apply on_line_inf in Hu; [destruct Hu|auto]|]. intros (T & HT). exfalso.
      assert (F : face rows (s_idx s) (param r (Rmin t (T / dot2 r r) - 1))).
      { apply Fc. eexists. split; [reflexivity|]. split; [exact I|]. destruct Ht as [_ Ht]. destruct L1 as [->|[t1 ->]]; simpl in *; [exact I|]. assert (M := Rmin_l t (T / dot2 r r)). lra. }
      specialize (HT _ F). rewrite along_param in HT by exact Nr. assert (M := Rmin_r t (T / dot2 r r)). assert (E : dot2 r r * (T / dot2 r r) = T) by (field; lra). nra.
    + split; [intros _|intros _].
      * exists (dot2 r r * t0). intros x Fx. apply Fc in Fx. destruct Fx as (t' & -> & A1 & _). rewrite along_param by exact Nr. simpl in A1. nra.
      * exists (fst (param r t0) + eps * t0, snd (param r t0) + eps * t0). unfold finite_at. now rewrite on_line_fin.
  - destruct L1 as [->|[t1 ->]].
    + split; [intros (u & Hu); apply on_line_inf in Hu; [destruct Hu|auto]|]. intros (T & HT). exfalso.
      assert (F : face rows (s_idx s) (param r (Rmax t (T / dot2 r r) + 1))).
      { apply Fc. eexists. split; [reflexivity|]. split; [|exact I]. destruct Ht as [Ht _]. destruct L0 as [->|[t0 ->]]; simpl in *; [exact I|]. assert (M := Rmax_l t (T / dot2 r r)). lra. }
      specialize (HT _ F). rewrite along_param in HT by exact Nr. assert (M := Rmax_r t (T / dot2 r r)). assert (E : dot2 r r * (T / dot2 r r) = T) by (field; lra). nra.
    + split; [intros _|intros _].
      * exists (dot2 r r * t1). intros x Fx. apply Fc in Fx. destruct Fx as (t' & -> & _ & A1). rewrite along_param by exact Nr. simpl in A1. nra.
      * exists (fst (param r t1) + eps * t1, snd (param r t1) + eps * t1). unfold finite_at. now rewrite on_line_fin.
Qed.
(** Every vertex of the set is an end of a returned segment. *)
Theorem boundary_vertices rows i k ri rk x : (forall r, In r rows -> nonzero r) -> in_set rows x ->
  nth_error rows i = Some ri -> nth_error rows k = Some rk -> tight ri x -> tight rk x -> ~ parallel ri rk ->
  exists s, In s (boundary_intervals 0 rows) /\ s_idx s = i /\ (finite_at (s_from s) x \/ finite_at (s_to s) x).
Proof.
  intros Nz Hx Hi Hk Ti Tk Np. destruct (bi_spec 0 rows Nz) as (H1 & H2 & _).
  assert (Fx : face rows i x) by (split; [exact Hx|eauto]). destruct (H2 i x Fx) as (s & Hs & Es). exists s. split; [exact Hs|split; [exact Es|]].
  destruct (H1 s Hs) as (r & q0 & q1 & Hr & E0 & E1 & L0 & L1 & _ & Fc). rewrite Es in *. assert (r = ri) by congruence. subst r.
  assert (Ni : nonzero ri) by (apply Nz; now apply nth_error_In with i). assert (Fx' := Fx). apply Fc in Fx'. destruct Fx' as (t & Ex & A1 & A2).
  set (c := at_pt rk (dir ri)). assert (Cn : c <> 0). { intro E. apply Np. unfold parallel, c, at_pt, dir in *. simpl in E. lra. }
  assert (HK : forall t', face rows i (param ri t') -> 0 <= (t' - t) * c).
  { intros t' [F' _]. assert (Q : holds rk (param ri t')) by (apply F'; now apply nth_error_In with k). unfold holds in Q. change (rhs rk <= at_pt rk (param ri t')) in Q.
    assert (T2 : at_pt rk (param ri t) = rhs rk) by (rewrite <- Ex; exact Tk). rewrite at_param in Q, T2. fold c in Q, T2. lra. }
  destruct (Rlt_dec 0 c) as [Cp|Cp].
  - left. destruct L0 as [->|[t0 ->]].
    + assert (F : face rows i (param ri (t - 1))). { apply Fc. eexists. split; [reflexivity|]. split; [exact I|]. destruct L1 as [->|[t1 ->]]; simpl in *; [exact I|lra]. }
      specialize (HK _ F). nra.
    + simpl in A1. assert (t = t0). { assert (F : face rows i (param ri t0)). { apply Fc. eexists. split; [reflexivity|]. split; [simpl; lra|]. destruct L1 as [->|[t1 ->]]; simpl in *; [exact I|lra]. } specialize (HK _ F). nra. }
      subst t0. rewrite E0, on_line_fin, Ex. unfold finite_at. f_equal; f_equal; ring.
  - right. destruct L1 as [->|[t1 ->]].
    + assert (F : face rows i (param ri (t + 1))). { apply Fc. eexists. split; [reflexivity|]. split; [|exact I]. destruct L0 as [->|[t0 ->]]; simpl in *; [exact I|lra]. }
      specialize (HK _ F). nra.
    + simpl in A2. assert (t = t1). { assert (F : face rows i (param ri t1)). { apply Fc. eexists. split; [reflexivity|]. split; [|simpl; lra]. destruct L0 as [->|[t0 ->]]; simpl in *; [exact I|lra]. } specialize (HK _ F). nra. }
      subst t1. rewrite E1, on_line_fin, Ex. unfold finite_at. f_equal; f_equal; ring.
Qed.
(** Nothing returned means that no point satisfies the inequalities. *)
Definition towards (x y : pt) (l : R) : pt := (fst x + l * (fst y - fst x), snd x + l * (snd y - snd x)).
Lemma at_towards r x y l : at_pt r (towards x y l) = at_pt r x + l * (at_pt r y - at_pt r x).
Proof. unfold at_pt, towards; simpl. ring. Qed.
Lemma last_point rows x y : in_set rows x -> exists l, 0 <= l <= 1 /\ in_set rows (towards x y l) /\ (l = 1 \/ exists r, In r rows /\ tight r (towards x y l)).
Proof.
  induction rows as [|r rows IH]; intro H.
  - exists 1. split; [lra|split; [intros r []|now left]].
  - destruct IH as (l & Hl & HS & HT); [intros q Hq; apply H; now right|].
    assert (H0 : rhs r <= at_pt r x) by (apply (H r); now left).
    destruct (Rle_dec (rhs r) (at_pt r (towards x y l))) as [K|K].
    + exists l. split; [exact Hl|]. split; [intros q [<-|Hq]; [exact K | now apply HS]|]. destruct HT as [->|(q & Hq & Tq)]; [now left|right; exists q; split; [now right|exact Tq]].
    + rewrite at_towards in K. set (d := at_pt r y - at_pt r x) in *.
      assert (Dn : d < 0) by nra. set (l' := (rhs r - at_pt r x) / d).
      assert (E : l' * d = rhs r - at_pt r x) by (unfold l'; field; lra).
      assert (Hl' : 0 <= l' <= l) by (split; nra).
      exists l'. split; [lra|]. assert (T : at_pt r (towards x y l') = rhs r) by (rewrite at_towards; fold d; lra).
      split; [|right; exists r; split; [now left|exact T]].
      intros q [<-|Hq]; [unfold holds; change (rhs r <= at_pt r (towards x y l')); lra|].
      assert (Q0 : rhs q <= at_pt q x) by (apply (H q); now right). assert (Q1 : rhs q <= at_pt q (towards x y l)) by (now apply HS).
      change (rhs q <= at_pt q (towards x y l')). rewrite at_towards in *. set (e := at_pt q y - at_pt q x) in *. destruct (Rle_dec 0 e); nra.
Qed.
Theorem boundary_empty eps rows : (forall r, In r rows -> nonzero r) -> rows <> [] -> boundary_intervals eps rows = [] -> forall x, ~ in_set rows x.
Proof.
  intros Nz Ne E x Hx. destruct (bi_spec eps rows Nz) as (_ & H2 & _). rewrite E in H2.
  destruct rows as [|r0 rows]; [congruence|]. assert (N0 : nonzero r0) by (apply Nz; now left). assert (P := norm_pos r0 N0).
  set (y := (fst x - a0 r0 * ((at_pt r0 x - rhs r0 + 1) / dot2 r0 r0), snd x - a1 r0 * ((at_pt r0 x - rhs r0 + 1) / dot2 r0 r0))).
  assert (Y : at_pt r0 y = rhs r0 - 1). { unfold y, at_pt; simpl. unfold dot2 in *. field. lra. }
  destruct (last_point (r0 :: rows) x y Hx) as (l & Hl & HS & [->|(r & Hr & T)]).
  - assert (Q : rhs r0 <= at_pt r0 (towards x y 1)) by (apply HS; now left). rewrite at_towards, Y in Q. lra.
  - apply In_nth_error in Hr. destruct Hr as [i Hi]. destruct (H2 i (towards x y l)) as (s & [] & _). split; [exact HS|eauto].
Qed.
