(** The boundary path of a bounded set visits all corners, in order. *)
From Coq Require Import Reals List Arith Bool Lia Lra Psatz Sorting.Sorted.
From Verif Require Import Exact SpecExact Boundary SpecBoundary BoundaryProofs BoundaryMore.
Import ListNotations.
Open Scope R_scope.

Definition go (x : pt) (t : R) (d : pt) : pt := (fst x + t * fst d, snd x + t * snd d).
Lemma at_go r x t d : at_pt r (go x t d) = at_pt r x + t * at_pt r d.
Proof. unfold at_pt, go; simpl. ring. Qed.
Lemma holds_at r x : holds r x <-> rhs r <= at_pt r x.
Proof. reflexivity. Qed.
Lemma tight_at r x : tight r x <-> at_pt r x = rhs r.
Proof. reflexivity. Qed.
(** Small steps in a direction that no tight inequality forbids *)
Lemma can_go rows x d : in_set rows x -> (forall r, In r rows -> tight r x -> 0 <= at_pt r d) ->
  exists e, 0 < e /\ forall t, 0 <= t <= e -> in_set rows (go x t d).
Proof.
  induction rows as [|r rows IH]; intros H F.
  - exists 1. split; [lra|]. intros t _ q [].
  - destruct IH as (e & He & G); [intros q Hq; apply H; now right | intros q Hq; apply F; now right |].
    assert (Hr : rhs r <= at_pt r x) by (apply (H r); now left).
    assert (exists e', 0 < e' /\ forall t, 0 <= t <= e' -> holds r (go x t d)) as (e' & He' & G').
    { destruct (Req_dec (at_pt r x) (rhs r)) as [E|Ne].
      - exists 1. split; [lra|]. intros t Ht. rewrite holds_at. rewrite at_go. assert (0 <= at_pt r d) by (apply F; [now left|exact E]). nra.
      - assert (0 < at_pt r x - rhs r) as P by (destruct (Rtotal_order (at_pt r x) (rhs r)) as [|[|]]; [lra|contradiction|lra]). assert (0 <= Rabs (at_pt r d)) as Q by apply Rabs_pos.
        exists ((at_pt r x - rhs r) / (Rabs (at_pt r d) + 1)). assert (0 < (at_pt r x - rhs r) / (Rabs (at_pt r d) + 1)) by (apply Rdiv_lt_0_compat; lra). split; [assumption|].
        intros t [T1 T2]. rewrite holds_at. rewrite at_go. assert (t * (Rabs (at_pt r d) + 1) <= at_pt r x - rhs r).
        { apply (Rmult_le_compat_r (Rabs (at_pt r d) + 1)) in T2; [|lra]. unfold Rdiv in T2. rewrite Rmult_assoc, Rinv_l in T2 by lra. lra. }
        assert (- Rabs (at_pt r d) <= at_pt r d) by (unfold Rabs; destruct Rcase_abs; lra). nra. }
    exists (Rmin e e'). assert (M1 := Rmin_l e e'). assert (M2 := Rmin_r e e'). split; [unfold Rmin; destruct Rle_dec; lra|].
    intros t Ht q [<-|Hq]; [apply G'; lra | apply G; [lra|exact Hq]].
Qed.
Lemma blocked rows x d : in_set rows x -> (forall t, 0 < t -> ~ in_set rows (go x t d)) -> exists r, In r rows /\ tight r x /\ at_pt r d < 0.
Proof.
  intros H B. destruct (Exists_dec (fun r => tight r x /\ at_pt r d < 0) rows) as [E|N].
  - intro r. destruct (Req_EM_T (at_pt r x) (rhs r)) as [T|T]; [|right; intros [T' _]; contradiction]. destruct (Rlt_dec (at_pt r d) 0); [left; auto | right; intros [_ ?]; contradiction].
  - apply Exists_exists in E. destruct E as (r & Hr & T & L). eauto.
  - exfalso. destruct (can_go rows x d H) as (e & He & G).
    + intros r Hr T. destruct (Rle_dec 0 (at_pt r d)) as [|L]; [assumption|]. exfalso. apply N. apply Exists_exists. exists r. split; [exact Hr|]. split; [exact T|lra].
    + apply (B e He), G. lra.
Qed.
(** The inequality that turns least, among those met *)
Lemma least_turn {T} (al pi : T -> R) (l : list T) : (forall k, In k l -> pi k <= 0) -> (exists k, In k l /\ (pi k < 0 \/ pi k = 0 /\ al k < 0)) ->
  exists k, In k l /\ (pi k < 0 \/ pi k = 0 /\ al k < 0) /\ forall j, In j l -> 0 <= pi j * al k - al j * pi k.
Proof.
  induction l as [|a l IH]; intros Np Ex; [destruct Ex as (k & [] & _)|].
  assert (Pa : pi a <= 0) by (apply Np; now left).
  destruct (Exists_dec (fun k => pi k < 0 \/ pi k = 0 /\ al k < 0) l) as [E|N].
  - intro k. destruct (Rlt_dec (pi k) 0); [left; auto|]. destruct (Req_EM_T (pi k) 0); [|right; tauto]. destruct (Rlt_dec (al k) 0); [left; auto | right; tauto].
  - apply Exists_exists in E. destruct (IH (fun k Hk => Np k (or_intror Hk)) E) as (k & Hk & Vk & Bk).
    destruct (Rle_dec 0 (pi a * al k - al a * pi k)) as [L|L].
    + exists k. split; [now right|]. split; [exact Vk|]. intros j [<-|Hj]; [exact L | now apply Bk].
    + assert (Va : pi a < 0 \/ pi a = 0 /\ al a < 0). { destruct Vk as [Vk|[V1 V2]]; destruct (Rlt_dec (pi a) 0) as [|Z]; [now left | right; split; [lra|] | now left | exfalso; nra]. assert (pi a = 0) as Z0 by lra. rewrite Z0 in L. nra. }
      exists a. split; [now left|]. split; [exact Va|]. intros j [<-|Hj]; [lra|]. specialize (Bk j Hj). assert (Pj := Np j (or_intror Hj)). assert (Pk := Np k (or_intror Hk)).
      destruct Vk as [Vk|[V1 V2]]; [|exfalso; rewrite V1 in L; nra].
      assert (E1 : al j * pi k <= pi j * al k) by lra. assert (E2 : pi a * al k < al a * pi k) by lra.
      assert (K1 : pi a * (pi j * al k) <= pi a * (al j * pi k)) by nra. assert (K2 : pi j * (al a * pi k) <= pi j * (pi a * al k)) by nra.
      assert (pi k * (pi j * al a - al j * pi a) <= 0) by nra. nra.
  - assert (Z : forall j, In j l -> pi j = 0 /\ 0 <= al j).
    { intros j Hj. assert (Pj := Np j (or_intror Hj)). assert (~ (pi j < 0 \/ pi j = 0 /\ al j < 0)) as Q by (intro Q; apply N, Exists_exists; eauto). split; [lra|]. destruct (Rle_dec 0 (al j)); [assumption|]. exfalso. apply Q. right. lra. }
    destruct Ex as (k & [<-|Hk] & Vk); [|destruct (Z k Hk); exfalso; lra].
    exists a. split; [now left|]. split; [exact Vk|]. intros j [<-|Hj]; [lra|]. destruct (Z j Hj) as [-> A]. nra.
Qed.

Definition fin (x : pt) : ept := (Fin (fst x), Fin (snd x)).
Lemma fin_inj x y : fin x = fin y -> x = y.
Proof. unfold fin. intro H. injection H as H1 H2. destruct x, y; simpl in *; congruence. Qed.
Lemma param_go r t e : param r (t + e) = go (param r t) e (dir r).
Proof. unfold param, go. simpl. f_equal; ring. Qed.
Lemma at_dir_sym r s : at_pt r (dir s) = - at_pt s (dir r).
Proof. unfold at_pt, dir; simpl. ring. Qed.
Lemma at_dir_self r : at_pt r (dir r) = 0.
Proof. unfold at_pt, dir; simpl. ring. Qed.
Lemma parallel_dir r s : parallel r s <-> at_pt s (dir r) = 0.
Proof. unfold parallel, at_pt, dir; simpl. split; intro; lra. Qed.

Section Rows.
Context (rows : list row).
Hypothesis Nz : forall r, In r rows -> nonzero r.
Let S := boundary_intervals 0 rows.
(** What a segment with finite ends is *)
Definition seg_at (s : seg) (r : row) (t0 t1 : R) : Prop := nth_error rows (s_idx s) = Some r /\ s_from s = fin (param r t0) /\ s_to s = fin (param r t1) /\ t0 <= t1 /\
  forall x, face rows (s_idx s) x <-> exists t, x = param r t /\ t0 <= t <= t1.
Lemma on_fin r t : on_line 0 r (Fin t) = fin (param r t).
Proof. rewrite on_line_fin. unfold fin. f_equal; f_equal; ring. Qed.
Lemma seg_fin s u v : In s S -> finite_at (s_from s) u -> finite_at (s_to s) v -> exists r t0 t1, seg_at s r t0 t1.
Proof.
  intros Hs Hu Hv. destruct (bi_spec 0 rows Nz) as (H1 & _ & _). destruct (H1 s Hs) as (r & q0 & q1 & Hr & E0 & E1 & L0 & L1 & (t & Ht) & Fc).
  destruct L0 as [->|[t0 ->]]; [rewrite E0 in Hu; apply on_line_inf in Hu; [destruct Hu|auto]|].
  destruct L1 as [->|[t1 ->]]; [rewrite E1 in Hv; apply on_line_inf in Hv; [destruct Hv|auto]|].
  rewrite on_fin in E0, E1. simpl in Ht. exists r, t0, t1. split; [exact Hr|]. split; [exact E0|]. split; [exact E1|]. split; [lra|]. intro x. rewrite Fc. simpl. reflexivity.
Qed.
Lemma seg_row s r t0 t1 : seg_at s r t0 t1 -> In r rows /\ nonzero r.
Proof. intros (H & _). apply nth_error_In in H. auto. Qed.
Lemma seg_in s r t0 t1 t : seg_at s r t0 t1 -> t0 <= t <= t1 -> in_set rows (param r t) /\ tight r (param r t).
Proof. intros H Ht. destruct (seg_row _ _ _ _ H) as [_ N]. destruct H as (_ & _ & _ & _ & F). assert (X : face rows (s_idx s) (param r t)) by (apply F; eauto). split; [apply X | now apply param_tight]. Qed.
Lemma seg_max s r t0 t1 t : seg_at s r t0 t1 -> in_set rows (param r t) -> t0 <= t <= t1.
Proof.
  intros H I. destruct (seg_row _ _ _ _ H) as [_ N]. destruct H as (Hr & _ & _ & _ & F).
  assert (X : face rows (s_idx s) (param r t)) by (split; [exact I|]; exists r; split; [exact Hr | now apply param_tight]). apply F in X. destruct X as (t' & E & Ht'). apply param_inj in E; [|exact N]. subst. exact Ht'.
Qed.
Lemma seg_on s r t0 t1 x : seg_at s r t0 t1 -> in_set rows x -> tight r x -> exists t, x = param r t /\ t0 <= t <= t1.
Proof. intros (Hr & _ & _ & _ & F) I T. apply F. split; [exact I|]. eauto. Qed.
(** Ends of segments are corners *)
Lemma seg_vertices s r t0 t1 : seg_at s r t0 t1 -> vertex rows (param r t0) /\ vertex rows (param r t1).
Proof.
  intro H. destruct (seg_row _ _ _ _ H) as [Ir Nr]. assert (Le : t0 <= t1) by apply H. split.
  - destruct (seg_in s r t0 t1 t0 H ltac:(lra)) as [I0 T0]. split; [exact I0|].
    destruct (blocked rows (param r t0) (- fst (dir r), - snd (dir r)) I0) as (k & Ik & Tk & Lk).
    { intros t Ht X. replace (go (param r t0) t (- fst (dir r), - snd (dir r))) with (param r (t0 - t)) in X by (unfold param, go; simpl; f_equal; ring).
      apply (seg_max s r t0 t1) in X; [lra|exact H]. }
    exists r, k. repeat split; auto. rewrite parallel_dir. intro E. replace (at_pt k (- fst (dir r), - snd (dir r))) with (- at_pt k (dir r)) in Lk by (unfold at_pt; simpl; ring). lra.
  - destruct (seg_in s r t0 t1 t1 H ltac:(lra)) as [I0 T0]. split; [exact I0|].
    destruct (blocked rows (param r t1) (dir r) I0) as (k & Ik & Tk & Lk).
    { intros t Ht X. rewrite <- param_go in X. apply (seg_max s r t0 t1) in X; [lra|exact H]. }
    exists r, k. repeat split; auto. rewrite parallel_dir. intro E. lra.
Qed.
Lemma meet_unique r s x y : ~ parallel r s -> at_pt r x = at_pt r y -> at_pt s x = at_pt s y -> x = y.
Proof.
  intros N E1 E2. rewrite parallel_dir in N. set (c := at_pt s (dir r)) in *. destruct x as [x0 x1], y as [y0 y1].
  assert (c * (x0 - y0) = 0). { unfold c, at_pt, dir in *; simpl in *. replace (( a0 s * - a1 r + a1 s * a0 r) * (x0 - y0)) with (a1 s * ((a0 r * x0 + a1 r * x1) - (a0 r * y0 + a1 r * y1)) - a1 r * ((a0 s * x0 + a1 s * x1) - (a0 s * y0 + a1 s * y1))) by ring. rewrite E1, E2. ring. }
  assert (c * (x1 - y1) = 0). { unfold c, at_pt, dir in *; simpl in *. replace (( a0 s * - a1 r + a1 s * a0 r) * (x1 - y1)) with (a0 r * ((a0 s * x0 + a1 s * x1) - (a0 s * y0 + a1 s * y1)) - a0 s * ((a0 r * x0 + a1 r * x1) - (a0 r * y0 + a1 r * y1))) by ring. rewrite E1, E2. ring. }
  f_equal; apply Rminus_diag_uniq; eapply Rmult_eq_reg_l; try rewrite Rmult_0_r; eauto.
Qed.
(** Leaving a corner *)
Lemma vertex_next v q : vertex rows v -> in_set rows q -> q <> v -> exists r, In r rows /\ tight r v /\
  (exists e, 0 < e /\ in_set rows (go v e (dir r))) /\ forall t, 0 < t -> ~ in_set rows (go v (- t) (dir r)).
Proof.
  intros [Iv (r1 & r2 & J1 & J2 & T1 & T2 & Np)] Iq Ne. set (p := (fst v - fst q, snd v - snd q)). set (n := (snd p, - fst p)).
  assert (NN : 0 < fst p * fst p + snd p * snd p).
  { assert (~ (fst p = 0 /\ snd p = 0)). { unfold p; simpl. intros [A B]. apply Ne. destruct v, q; simpl in *; f_equal; lra. }
    destruct (Req_dec (fst p) 0) as [E|E]; [|nra]. destruct (Req_dec (snd p) 0) as [E'|E']; [tauto|nra]. }
  assert (ID : forall l k, (fst p * fst p + snd p * snd p) * at_pt l (dir k) = at_pt l p * at_pt k n - at_pt l n * at_pt k p) by (intros; unfold at_pt, dir, n; simpl; ring).
  assert (PV : forall k, at_pt k p = at_pt k v - at_pt k q) by (intros; unfold at_pt, p; simpl; ring).
  set (tq := fun r => if Req_EM_T (at_pt r v) (rhs r) then true else false).
  assert (TQ : forall r, In r (filter tq rows) <-> In r rows /\ tight r v). { intro r. rewrite filter_In. unfold tq. destruct Req_EM_T; split; intros [? ?]; split; auto; discriminate. }
  assert (PN : forall k, In k (filter tq rows) -> at_pt k p <= 0). { intros k Hk. apply TQ in Hk. destruct Hk as [Hk Tk]. rewrite (PV k). assert (Q := Iq k Hk). rewrite holds_at in Q. rewrite tight_at in Tk. lra. }
  destruct (least_turn (fun k => at_pt k n) (fun k => at_pt k p) (filter tq rows) PN) as (k & Hk & Vk & Bk).
  { assert (M1 : In r1 (filter tq rows)) by (apply TQ; auto). assert (M2 : In r2 (filter tq rows)) by (apply TQ; auto).
    destruct (Rlt_dec (at_pt r1 p) 0); [exists r1; auto|]. destruct (Rlt_dec (at_pt r2 p) 0); [exists r2; auto|]. exfalso.
    assert (P1 := PN r1 M1). assert (P2 := PN r2 M2). apply Np, parallel_dir. assert (Z := ID r2 r1). replace (at_pt r1 p) with 0 in Z by lra. replace (at_pt r2 p) with 0 in Z by lra. nra. }
  apply TQ in Hk. destruct Hk as [Hk Tk]. exists k. split; [exact Hk|]. split; [exact Tk|].
  assert (DK : forall l, In l rows -> tight l v -> 0 <= at_pt l (dir k)).
  { intros l Hl Tl. assert (B := Bk l (proj2 (TQ l) (conj Hl Tl))). rewrite <- ID in B. nra. }
  split.
  - destruct (can_go rows v (dir k) Iv DK) as (e & He & G). exists e. split; [exact He|]. apply G. lra.
  - intros t Ht X. assert (Z : forall l, In l rows -> tight l v -> at_pt l (dir k) = 0).
    { intros l Hl Tl. specialize (DK l Hl Tl). assert (Q := X l Hl). rewrite holds_at in Q. rewrite at_go in Q. rewrite tight_at in Tl. nra. }
    assert (Z1 := Z r1 J1 T1). assert (Z2 := Z r2 J2 T2). assert (Nk := norm_pos k (Nz k Hk)). apply Np. unfold parallel, at_pt, dir, dot2 in *; simpl in *.
    assert (C1 : (a0 k * a0 k + a1 k * a1 k) * (a0 r1 * a1 r2 - a1 r1 * a0 r2) = 0).
    { replace ((a0 k * a0 k + a1 k * a1 k) * (a0 r1 * a1 r2 - a1 r1 * a0 r2)) with ((a0 k * a0 r1 + a1 k * a1 r1) * (a0 r2 * - a1 k + a1 r2 * a0 k) - (a0 k * a0 r2 + a1 k * a1 r2) * (a0 r1 * - a1 k + a1 r1 * a0 k)) by ring. rewrite Z1, Z2. ring. }
    apply Rmult_integral in C1. destruct C1; lra.
Qed.
(** A proper edge of the set *)
Definition nedge (u v : pt) : Prop := exists s r t0 t1, In s S /\ seg_at s r t0 t1 /\ t0 < t1 /\ u = param r t0 /\ v = param r t1.
Lemma nedge_vertices u v : nedge u v -> vertex rows u /\ vertex rows v /\ u <> v.
Proof.
  intros (s & r & t0 & t1 & _ & H & L & -> & ->). destruct (seg_vertices _ _ _ _ H) as [V0 V1]. split; [exact V0|]. split; [exact V1|]. intro E. apply param_inj in E; [lra|]. eapply seg_row; eauto.
Qed.
Lemma prev_unique u1 u2 v : nedge u1 v -> nedge u2 v -> u1 = u2.
Proof.
  intros (s1 & r1 & p1 & q1 & _ & H1 & L1 & E1 & F1) (s2 & r2 & p2 & q2 & _ & H2 & L2 & E2 & F2).
  destruct (seg_row _ _ _ _ H1) as [I1 N1]. destruct (seg_row _ _ _ _ H2) as [I2 N2].
  assert (G1 : u1 = go v (p1 - q1) (dir r1)) by (rewrite F1, <- param_go, E1; f_equal; ring). assert (G2 : u2 = go v (p2 - q2) (dir r2)) by (rewrite F2, <- param_go, E2; f_equal; ring).
  destruct (seg_in s1 r1 p1 q1 p1 H1 ltac:(lra)) as [A1 _]. destruct (seg_in s2 r2 p2 q2 p2 H2 ltac:(lra)) as [A2 _].
  destruct (seg_in s1 r1 p1 q1 q1 H1 ltac:(lra)) as [_ B1]. destruct (seg_in s2 r2 p2 q2 q2 H2 ltac:(lra)) as [_ B2]. rewrite <- E1 in A1. rewrite <- E2 in A2. rewrite <- F1 in B1. rewrite <- F2 in B2.
  rewrite tight_at in B1. rewrite tight_at in B2.
  assert (K1 := A1 r2 I2). rewrite holds_at in K1. rewrite G1, at_go in K1. assert (K2 := A2 r1 I1). rewrite holds_at in K2. rewrite G2, at_go, at_dir_sym in K2.
  assert (C : at_pt r2 (dir r1) = 0) by nra.
  assert (T1 : tight r2 u1) by (rewrite tight_at; rewrite G1, at_go, C; lra). assert (T2 : tight r1 u2) by (rewrite tight_at; rewrite G2, at_go, at_dir_sym, C; lra).
  destruct (seg_on s2 r2 p2 q2 u1 H2 A1 T1) as (t & Et & Ht). destruct (seg_on s1 r1 p1 q1 u2 H1 A2 T2) as (t' & Et' & Ht').
  assert (X1 : go v (p1 - q1) (dir r1) = go v (t - q2) (dir r2)) by (rewrite <- G1, Et, F2, <- param_go; f_equal; ring).
  assert (X2 : go v (p2 - q2) (dir r2) = go v (t' - q1) (dir r1)) by (rewrite <- G2, Et', F1, <- param_go; f_equal; ring).
  assert (X11 := f_equal fst X1). assert (X12 := f_equal snd X1). assert (X21 := f_equal fst X2). assert (X22 := f_equal snd X2). unfold go in X11, X12, X21, X22. cbn [fst snd] in X11, X12, X21, X22. assert (D := norm_pos r2 N2).
  set (kp := (fst (dir r1) * fst (dir r2) + snd (dir r1) * snd (dir r2))).
  assert (DD : dot2 r2 r2 = fst (dir r2) * fst (dir r2) + snd (dir r2) * snd (dir r2)) by (unfold dot2, dir; simpl; ring).
  assert (Y1 : (p1 - q1) * kp = (t - q2) * dot2 r2 r2). { rewrite DD. unfold kp. replace ((p1 - q1) * (fst (dir r1) * fst (dir r2) + snd (dir r1) * snd (dir r2))) with ((p1 - q1) * fst (dir r1) * fst (dir r2) + (p1 - q1) * snd (dir r1) * snd (dir r2)) by ring. replace ((p1 - q1) * fst (dir r1)) with ((t - q2) * fst (dir r2)) by lra. replace ((p1 - q1) * snd (dir r1)) with ((t - q2) * snd (dir r2)) by lra. ring. }
  assert (Y2 : (t' - q1) * kp = (p2 - q2) * dot2 r2 r2). { rewrite DD. unfold kp. replace ((t' - q1) * (fst (dir r1) * fst (dir r2) + snd (dir r1) * snd (dir r2))) with ((t' - q1) * fst (dir r1) * fst (dir r2) + (t' - q1) * snd (dir r1) * snd (dir r2)) by ring. replace ((t' - q1) * fst (dir r1)) with ((p2 - q2) * fst (dir r2)) by lra. replace ((t' - q1) * snd (dir r1)) with ((p2 - q2) * snd (dir r2)) by lra. ring. }
  assert (0 <= kp) by nra. assert (t = p2) by nra. subst t. congruence.
Qed.
(** A closed walk along edges surrounds the set *)
Definition walk (l : list pt) : Prop := forall k u v, nth_error l k = Some u -> nth_error l (1 + k) = Some v -> nedge u v.
Lemma cycle_min (g : pt -> R) (l : list pt) b : exists v, In v (b :: l) /\ forall x, In x (b :: l) -> g v <= g x.
Proof.
  revert b. induction l as [|a l IH]; intro b.
  - exists b. split; [now left|]. intros x [<-|[]]. lra.
  - destruct (IH a) as (v & Hv & M). destruct (Rle_dec (g b) (g v)) as [L|L].
    + exists b. split; [now left|]. intros x [<-|Hx]; [lra|]. specialize (M x Hx). lra.
    + exists v. split; [now right|]. intros x [<-|Hx]; [lra|]. now apply M.
Qed.
Lemma cycle_hull b L (g : row) z : walk (b :: L ++ [b]) -> in_set rows z -> exists v, In v (b :: L) /\ at_pt g v <= at_pt g z.
Proof.
  intros W Iz. destruct (cycle_min (at_pt g) L b) as (v & Hv & M). exists v. split; [exact Hv|].
  destruct (Rle_dec (at_pt g v) (at_pt g z)) as [|Bad]; [assumption|exfalso].
  assert (HS : exists v', nedge v v' /\ In v' (b :: L)).
  { apply In_nth_error in Hv. destruct Hv as (k & Hk). assert (LK : (k < length (b :: L))%nat) by (apply nth_error_Some; congruence). simpl in LK.
    destruct (nth_error (b :: L ++ [b]) (1 + k)) as [v'|] eqn:E.
    - exists v'. split; [apply (W k); [|exact E]|]. { change (b :: L ++ [b]) with ((b :: L) ++ [b]). rewrite nth_error_app1; [exact Hk|simpl; lia]. }
      apply nth_error_In in E. change (b :: L ++ [b]) with ((b :: L) ++ [b]) in E. apply in_app_or in E. destruct E as [E|[<-|[]]]; [exact E|now left].
    - apply nth_error_None in E. simpl in E. rewrite app_length in E. simpl in E. lia. }
  assert (HP : exists u, nedge u v /\ In u (b :: L)).
  { assert (Hv' : In v (L ++ [b])) by (apply in_or_app; destruct Hv as [<-|Hv]; [right; now left|now left]). apply In_nth_error in Hv'. destruct Hv' as (k & Hk).
    assert (LK : (k < length (L ++ [b]))%nat) by (apply nth_error_Some; congruence). rewrite app_length in LK. simpl in LK.
    destruct (nth_error (b :: L) k) as [u|] eqn:E.
    - exists u. split; [apply (W k); [|exact Hk]|now apply nth_error_In in E]. change (b :: L ++ [b]) with ((b :: L) ++ [b]). rewrite nth_error_app1; [exact E|simpl; lia].
    - apply nth_error_None in E. simpl in E. lia. }
  destruct HS as (v' & (s2 & r2 & p2 & q2 & _ & H2 & L2 & E2 & F2) & Iv'). destruct HP as (u & (s1 & r1 & p1 & q1 & _ & H1 & L1 & E1 & F1) & Iu).
  assert (Mu := M u Iu). assert (Mv := M v' Iv').
  destruct (seg_row _ _ _ _ H1) as [I1 N1]. destruct (seg_row _ _ _ _ H2) as [I2 N2].
  assert (G1 : u = go v (p1 - q1) (dir r1)) by (rewrite F1, <- param_go, E1; f_equal; ring). assert (G2 : v' = go v (q2 - p2) (dir r2)) by (rewrite E2, <- param_go, F2; f_equal; ring).
  destruct (seg_in s1 r1 p1 q1 p1 H1 ltac:(lra)) as [A1 _]. destruct (seg_in s2 r2 p2 q2 q2 H2 ltac:(lra)) as [A2 _].
  destruct (seg_in s1 r1 p1 q1 q1 H1 ltac:(lra)) as [_ B1]. destruct (seg_in s2 r2 p2 q2 p2 H2 ltac:(lra)) as [_ B2]. rewrite <- E1 in A1. rewrite <- F2 in A2. rewrite <- F1 in B1. rewrite <- E2 in B2.
  rewrite tight_at in B1. rewrite tight_at in B2.
  rewrite G1, at_go in Mu. rewrite G2, at_go in Mv.
  assert (D1 : at_pt g (dir r1) <= 0) by nra. assert (D2 : 0 <= at_pt g (dir r2)) by nra.
  assert (K1 := Iz r1 I1). assert (K2 := Iz r2 I2). rewrite holds_at in K1. rewrite holds_at in K2.
  assert (CC := A2 r1 I1). rewrite holds_at in CC. rewrite G2, at_go in CC. set (c := at_pt r1 (dir r2)) in *. assert (0 <= c) as Hc by nra.
  assert (ID : c * (at_pt g z - at_pt g v) = - (at_pt r2 z - at_pt r2 v) * at_pt g (dir r1) + (at_pt r1 z - at_pt r1 v) * at_pt g (dir r2)) by (unfold c, at_pt, dir; simpl; ring).
  destruct (Req_dec c 0) as [C0|Cn].
  - assert (T1 : tight r1 v') by (rewrite tight_at, G2, at_go; fold c; rewrite C0; lra).
    destruct (seg_on s1 r1 p1 q1 v' H1 A2 T1) as (t & Et & Ht).
    assert (X1 : go v (q2 - p2) (dir r2) = go v (t - q1) (dir r1)) by (rewrite <- G2, Et, F1, <- param_go; f_equal; ring).
    assert (X11 := f_equal fst X1). assert (X12 := f_equal snd X1). unfold go in X11, X12. cbn [fst snd] in X11, X12.
    assert (TZ : tight r1 z).
    { rewrite tight_at. assert (Q : (q2 - p2) * at_pt r2 z - (q2 - p2) * at_pt r2 v = (t - q1) * at_pt r1 z - (t - q1) * at_pt r1 v).
      { unfold at_pt. unfold dir in X11, X12. cbn [fst snd] in X11, X12. assert (Y1 : (q2 - p2) * a1 r2 = (t - q1) * a1 r1) by lra. assert (Y0 : (q2 - p2) * a0 r2 = (t - q1) * a0 r1) by lra.
        transitivity (((q2 - p2) * a0 r2) * (fst z - fst v) + ((q2 - p2) * a1 r2) * (snd z - snd v)); [ring|]. rewrite Y0, Y1. ring. }
      assert (0 <= (q2 - p2) * (at_pt r2 z - at_pt r2 v)) by nra. assert (t <> q1). { intros ->. assert (Y : (q2 - p2) * fst (dir r2) = 0 /\ (q2 - p2) * snd (dir r2) = 0) by lra. destruct Y as [Y1 Y2]. apply Rmult_integral in Y1. apply Rmult_integral in Y2. unfold dir in Y1, Y2; simpl in Y1, Y2. unfold nonzero in N2. lra. }
      assert (t < q1) by lra. nra. }
    destruct (seg_on s1 r1 p1 q1 z H1 Iz TZ) as (tz & Ez & Htz). assert (GZ : z = go v (tz - q1) (dir r1)) by (rewrite Ez, F1, <- param_go; f_equal; ring). rewrite GZ, at_go in Bad. nra.
  - assert (0 < c) by lra. assert (0 <= c * (at_pt g z - at_pt g v)) by (rewrite ID; nra). nra.
Qed.
Lemma cycle_vertices b L w : walk (b :: L ++ [b]) -> vertex rows w -> In w (b :: L).
Proof.
  intros W [Iw (r & s & Hr & Hs & Tr & Ts & Np)].
  set (g := mkrow (a0 r + a0 s) (a1 r + a1 s) 0). destruct (cycle_hull b L g w W Iw) as (v & Hv & Lv).
  assert (Iv : in_set rows v).
  { assert (Hv' : In v (L ++ [b])) by (apply in_or_app; destruct Hv as [<-|Hv]; [right; now left|now left]). apply In_nth_error in Hv'. destruct Hv' as (k & Hk).
    assert (LK : (k < length (L ++ [b]))%nat) by (apply nth_error_Some; congruence). rewrite app_length in LK. simpl in LK.
    destruct (nth_error (b :: L) k) as [u|] eqn:E; [|apply nth_error_None in E; simpl in E; lia].
    assert (nedge u v) as X. { apply (W k); [|exact Hk]. change (b :: L ++ [b]) with ((b :: L) ++ [b]). rewrite nth_error_app1; [exact E|simpl; lia]. }
    apply nedge_vertices in X. apply X. }
  assert (Q1 := Iv r Hr). assert (Q2 := Iv s Hs). rewrite holds_at in Q1. rewrite holds_at in Q2. rewrite tight_at in Tr. rewrite tight_at in Ts.
  assert (EG : forall x, at_pt g x = at_pt r x + at_pt s x) by (intro; unfold at_pt, g; simpl; ring). rewrite !EG in Lv.
  replace w with v; [exact Hv|]. apply (meet_unique r s); [exact Np|lra|lra].
Qed.
(** ** The loop *)
Lemma next_seg v q : vertex rows v -> in_set rows q -> q <> v -> (forall s, In s S -> exists r t0 t1, seg_at s r t0 t1) ->
  exists s r t0 t1, In s S /\ seg_at s r t0 t1 /\ t0 < t1 /\ v = param r t0.
Proof.
  intros Vv Iq Ne Fn. destruct (vertex_next v q Vv Iq Ne) as (r & Hr & Tr & (e & He & Ge) & Bk).
  apply In_nth_error in Hr. destruct Hr as (i & Hi). assert (Nr : nonzero r) by (apply Nz; now apply nth_error_In with i).
  destruct (bi_spec 0 rows Nz) as (_ & H2 & _). destruct (H2 i v) as (s & Hs & Es); [split; [apply Vv|]; eauto|].
  destruct (Fn s Hs) as (r' & t0 & t1 & H). assert (r' = r) by (destruct H as (H & _); congruence). subst r'. exists s, r, t0, t1. split; [exact Hs|]. split; [exact H|].
  destruct (seg_on s r t0 t1 v H (proj1 Vv) Tr) as (t & Et & Ht).
  assert (t0 = t). { destruct (Req_dec t0 t) as [|Ne']; [assumption|]. exfalso. apply (Bk (t - t0)); [lra|]. rewrite Et, <- param_go. replace (t + - (t - t0)) with t0 by ring. apply (seg_in s r t0 t1); [exact H|lra]. }
  subst t. split; [|exact Et]. rewrite Et, <- param_go in Ge. apply (seg_max s r t0 t1) in Ge; [lra|exact H].
Qed.
Hypothesis Fn : forall s, In s S -> exists r t0 t1, seg_at s r t0 t1.
Hypothesis Sep : separated (/ 100000000) rows.
Definition near (x y : pt) : bool := ext_lt (ept_dist (fin x) (fin y)) tol8.
Definition far (x y : pt) : bool := ext_lt tol8 (ept_dist (fin x) (fin y)).
Lemma fin_dist x y : ept_dist (fin x) (fin y) = Fin (Rmax (Rabs (fst x - fst y)) (Rabs (snd x - snd y))).
Proof. unfold ept_dist, ext_max, ext_dist, fin; simpl. unfold Rmax. destruct Rle_dec; reflexivity. Qed.
Lemma near_far x y : vertex rows x -> vertex rows y -> (x = y /\ near x y = true /\ far x y = false) \/ (x <> y /\ near x y = false /\ far x y = true).
Proof.
  intros Vx Vy. unfold near, far. rewrite fin_dist. unfold ext_lt, ext_le, tol8. destruct (Sep x y Vx Vy) as [->|D].
  - left. rewrite !Rminus_eq_0, Rabs_R0. rewrite Rmax_left by lra. split; [reflexivity|]. destruct Rle_dec; [lra|]. split; [reflexivity|]. destruct Rle_dec; [reflexivity|lra].
  - right. split; [intros ->; rewrite !Rminus_eq_0, Rabs_R0 in D; lra|]. assert (M1 := Rmax_l (Rabs (fst x - fst y)) (Rabs (snd x - snd y))). assert (M2 := Rmax_r (Rabs (fst x - fst y)) (Rabs (snd x - snd y))).
    destruct Rle_dec; [|lra]. split; [reflexivity|]. destruct Rle_dec; [lra|reflexivity].
Qed.
Lemma find_spec c Rm : vertex rows c -> incl Rm S -> forall j, (exists s, In s Rm /\ s_from s = fin c) ->
  exists k s, find_start (fin c) j Rm = Some (j + k)%nat /\ nth_error Rm k = Some s /\ s_from s = fin c.
Proof.
  intros Vc. induction Rm as [|a Rm IH]; intros Inc j (s & Hs & Es); [destruct Hs|].
  destruct (Fn a (Inc a ltac:(now left))) as (r & t0 & t1 & Ha). destruct (seg_vertices _ _ _ _ Ha) as [Va _]. cbn [find_start].
  assert (Ea : s_from a = fin (param r t0)) by apply Ha. rewrite Ea. fold (near c (param r t0)). destruct (near_far c (param r t0) Vc Va) as [(E & -> & _)|(Ne & -> & _)].
  - exists 0%nat, a. rewrite Nat.add_0_r. split; [reflexivity|]. split; [reflexivity|]. now rewrite Ea, E.
  - destruct Hs as [->|Hs]; [exfalso; apply Ne; apply fin_inj; congruence|].
    destruct (IH ltac:(intros x Hx; apply Inc; now right) (Datatypes.S j) ltac:(eauto)) as (k & s' & E1 & E2 & E3). exists (Datatypes.S k), s'. split; [rewrite E1; f_equal; lia|]. auto.
Qed.
Lemma find_none c Rm : incl Rm S -> (forall s, In s Rm -> s_from s <> fin c) -> vertex rows c -> forall j, find_start (fin c) j Rm = None.
Proof.
  intros Inc N Vc. induction Rm as [|a Rm IH]; intro j; [reflexivity|]. cbn [find_start].
  destruct (Fn a (Inc a ltac:(now left))) as (r & t0 & t1 & Ha). destruct (seg_vertices _ _ _ _ Ha) as [Va _]. assert (Ea : s_from a = fin (param r t0)) by apply Ha.
  rewrite Ea. fold (near c (param r t0)). destruct (near_far c (param r t0) Vc Va) as [(E & _ & _)|(Ne & -> & _)]; [exfalso; apply (N a ltac:(now left)); congruence|].
  apply IH; [intros x Hx; apply Inc; now right | intros x Hx; apply N; now right].
Qed.
Lemma drop_length {T} k (l : list T) a : nth_error l k = Some a -> length l = Datatypes.S (length (drop_nth k l)).
Proof. revert k. induction l as [|b l IH]; intros [|k]; simpl; try discriminate; [reflexivity|]. intro H. f_equal. now apply IH. Qed.
Lemma drop_keeps {T} k (l : list T) x : In x l -> In x (drop_nth k l) \/ nth_error l k = Some x.
Proof. revert k. induction l as [|b l IH]; intros [|k]; simpl; auto; intros [->|H]; auto. destruct (IH k H); auto. Qed.
Lemma walk_snoc W c e : walk (W ++ [c]) -> nedge c e -> walk ((W ++ [c]) ++ [e]).
Proof.
  intros H E k u v Hu Hv. assert (LK : (1 + k < length ((W ++ [c]) ++ [e]))%nat) by (apply nth_error_Some; congruence). rewrite app_length in LK. simpl in LK.
  rewrite nth_error_app1 in Hu by lia. destruct (Nat.eq_dec (1 + k) (length (W ++ [c]))) as [El|Nl].
  - rewrite nth_error_app2 in Hv by lia. rewrite El, Nat.sub_diag in Hv. injection Hv as <-. rewrite app_length in El. simpl in El. rewrite nth_error_app2 in Hu by lia. replace (k - length W)%nat with 0%nat in Hu by lia. injection Hu as <-. exact E.
  - rewrite nth_error_app1 in Hv by lia. now apply (H k).
Qed.
Lemma path_closes q0 q1 : in_set rows q0 -> in_set rows q1 -> q0 <> q1 -> forall fuel Rm ix b W c, length Rm = fuel -> incl Rm S -> vertex rows c ->
  hd c W = b -> NoDup (W ++ [c]) -> walk (W ++ [c]) -> (forall s r t0 t1, In s S -> seg_at s r t0 t1 -> t0 < t1 -> ~ In (param r t0) W -> In s Rm) ->
  exists L, path_loop fuel (fin b) (fin c) ix Rm = Some (map fin (L ++ [b])) /\ walk (W ++ [c] ++ L ++ [b]) /\ NoDup (W ++ [c] ++ L).
Proof.
  intros I0 I1 Nq. induction fuel as [|f IH]; intros Rm ix b W c Len Inc Vc Hb Nd Wk Keep.
  - exfalso. destruct Rm; [|discriminate]. assert (exists q, in_set rows q /\ q <> c) as (q & Iq & Ne).
    { destruct (Req_EM_T (fst q0) (fst c)) as [E1|E1]; [|exists q0; split; [exact I0|congruence]]. destruct (Req_EM_T (snd q0) (snd c)) as [E2|E2]; [|exists q0; split; [exact I0|congruence]].
      exists q1. split; [exact I1|]. intros ->. apply Nq. destruct q0, c; simpl in *; congruence. }
    destruct (next_seg c q Vc Iq Ne Fn) as (s & r & t0 & t1 & Hs & H & L & E). apply (Keep s r t0 t1 Hs H L). rewrite <- E. intro Hc. apply NoDup_remove_2 in Nd. apply Nd. rewrite app_nil_r. exact Hc.
  - assert (exists q, in_set rows q /\ q <> c) as (q & Iq & Ne).
    { destruct (Req_EM_T (fst q0) (fst c)) as [E1|E1]; [|exists q0; split; [exact I0|congruence]]. destruct (Req_EM_T (snd q0) (snd c)) as [E2|E2]; [|exists q0; split; [exact I0|congruence]].
      exists q1. split; [exact I1|]. intros ->. apply Nq. destruct q0, c; simpl in *; congruence. }
    assert (NcW : ~ In c W) by (intro Hc; apply NoDup_remove_2 in Nd; apply Nd; rewrite app_nil_r; exact Hc).
    destruct (next_seg c q Vc Iq Ne Fn) as (s & r & t0 & t1 & Hs & H & L & E). assert (HsR : In s Rm) by (apply (Keep s r t0 t1 Hs H L); now rewrite <- E).
    destruct (find_spec c Rm Vc Inc 0) as (k & s' & Fk & Nk & Es'). { exists s. split; [exact HsR|]. rewrite E. apply H. }
    destruct Rm as [|a Rm']; [destruct HsR|]. remember (a :: Rm') as Rm eqn:ERm. cbn [path_loop]. rewrite ERm. rewrite <- ERm. rewrite Fk. cbn [Nat.add]. rewrite Nk.
    assert (Hs' : In s' S) by (apply Inc; now apply nth_error_In with k). destruct (Fn s' Hs') as (r' & p0 & p1 & H').
    assert (Ef : s_from s' = fin (param r' p0)) by apply H'. assert (Et : s_to s' = fin (param r' p1)) by apply H'. assert (Ec : c = param r' p0) by (apply fin_inj; congruence).
    destruct (seg_vertices _ _ _ _ H') as [V0 V1]. rewrite Et. fold (far c (param r' p1)). set (es := param r' p1) in *.
    assert (Ld := drop_length k Rm s' Nk). assert (Inc' : incl (drop_nth k Rm) S) by (intros x Hx; apply Inc; now apply drop_nth_in in Hx).
    destruct (near_far c es Vc V1) as [(Eq & _ & ->)|(Neq & _ & ->)].
    + apply IH; auto; [lia|]. intros s2 r2 u0 u1 Hs2 H2 L2 N2. destruct (drop_keeps k Rm s2 (Keep s2 r2 u0 u1 Hs2 H2 L2 N2)) as [|E2]; [assumption|]. exfalso.
      assert (s2 = s') by congruence. subst s2. assert (F1 : s_from s' = fin (param r2 u0)) by apply H2. assert (F2 : s_to s' = fin (param r2 u1)) by apply H2.
      assert (X : param r2 u0 = param r2 u1) by (apply fin_inj; rewrite <- F1, <- F2, Es', Et, Eq; reflexivity). apply param_inj in X; [lra|]. eapply seg_row; eauto.
    + assert (Ned : nedge c es). { exists s', r', p0, p1. split; [exact Hs'|]. split; [exact H'|]. split; [|auto]. assert (p0 <= p1) by apply H'. destruct (Req_dec p0 p1) as [Ep|]; [|lra]. exfalso. apply Neq. unfold es. rewrite <- Ep. exact Ec. }
      assert (Vb : vertex rows b). { destruct W as [|w W]; simpl in Hb; [subst; exact Vc|]. subst w. destruct W as [|w W]. - assert (X : nedge b c) by (apply (Wk 0%nat); reflexivity). apply nedge_vertices in X. apply X. - assert (X : nedge b w) by (apply (Wk 0%nat); reflexivity). apply nedge_vertices in X. apply X. }
      fold (near b es). destruct (near_far b es Vb V1) as [(Eb & -> & _)|(Neb & -> & _)].
      * exists []. split; [rewrite Eb; reflexivity|]. cbn [app]. split; [|exact Nd]. replace (W ++ [c; b]) with ((W ++ [c]) ++ [b]) by (rewrite <- app_assoc; reflexivity). apply walk_snoc; [exact Wk|]. rewrite Eb. exact Ned.
      * assert (NesW : ~ In es (W ++ [c])).
        { intro Hes. apply In_nth_error in Hes. destruct Hes as ([|i] & Hi).
          - apply Neb. destruct W as [|w W]; simpl in Hi, Hb; injection Hi as Hi; congruence.
          - assert (Li : (Datatypes.S i < length (W ++ [c]))%nat) by (apply nth_error_Some; congruence).
            destruct (nth_error (W ++ [c]) i) as [u|] eqn:Eu; [|apply nth_error_None in Eu; lia].
            assert (X : u = c) by (apply (prev_unique u c es); [apply (Wk i); [exact Eu|exact Hi]|exact Ned]). subst u.
            rewrite app_length in Li. simpl in Li. assert (Y : nth_error (W ++ [c]) (length W) = Some c) by (rewrite nth_error_app2, Nat.sub_diag by lia; reflexivity).
            assert (Z : i = length W). { apply (proj1 (NoDup_nth_error (W ++ [c])) Nd); [rewrite app_length; simpl; lia|congruence]. } lia. }
        destruct (IH (drop_nth k Rm) (Some k) b (W ++ [c]) es) as (L' & P1 & P2 & P3); auto.
        -- lia.
        -- destruct W; simpl in *; [exact Hb|exact Hb].
        -- apply NoDup_Add with (a := es) (l := W ++ [c]); [rewrite <- (app_nil_r (W ++ [c])) at 1; apply Add_app|]. split; [exact Nd|exact NesW].
        -- now apply walk_snoc.
        -- intros s2 r2 u0 u1 Hs2 H2 L2 N2. destruct (drop_keeps k Rm s2) as [|E2]; [|assumption|].
           { apply (Keep s2 r2 u0 u1 Hs2 H2 L2). intro X. apply N2. apply in_or_app. now left. }
           exfalso. assert (s2 = s') by congruence. subst s2. assert (F1 : s_from s' = fin (param r2 u0)) by apply H2. apply N2. apply in_or_app. right. left. apply fin_inj. congruence.
        -- exists (es :: L'). rewrite P1. split; [cbn [map app]; reflexivity|]. split.
           ++ replace (W ++ [c] ++ (es :: L') ++ [b]) with ((W ++ [c]) ++ [es] ++ L' ++ [b]) by (rewrite <- app_assoc; reflexivity). exact P2.
           ++ replace (W ++ [c] ++ es :: L') with ((W ++ [c]) ++ [es] ++ L') by (rewrite <- app_assoc; reflexivity). exact P3.
Qed.
Lemma path_point c : vertex rows c -> (forall q, in_set rows q -> q = c) -> forall fuel Rm ix, length Rm = fuel -> incl Rm S -> path_loop fuel (fin c) (fin c) ix Rm = Some [].
Proof.
  intros Vc One. induction fuel as [|f IH]; intros Rm ix Len Inc.
  - destruct Rm; [reflexivity|discriminate].
  - destruct Rm as [|a Rm']; [reflexivity|]. remember (a :: Rm') as Rm eqn:ERm.
    assert (All : forall s, In s Rm -> s_from s = fin c /\ s_to s = fin c).
    { intros s Hs. destruct (Fn s (Inc s Hs)) as (r & t0 & t1 & H). destruct (seg_vertices _ _ _ _ H) as [[V0 _] [V1 _]]. destruct H as (_ & -> & -> & _). rewrite (One _ V0), (One _ V1). auto. }
    destruct (find_spec c Rm Vc Inc 0) as (k & s' & Fk & Nk & Es'). { exists a. split; [rewrite ERm; now left|]. apply All. rewrite ERm. now left. }
    cbn [path_loop]. rewrite ERm. rewrite <- ERm. rewrite Fk. cbn [Nat.add]. rewrite Nk. destruct (All s' (nth_error_In _ _ Nk)) as [_ ->]. fold (far c c). destruct (near_far c c Vc Vc) as [(_ & _ & ->)|(Ne & _)]; [|congruence].
    apply IH; [assert (Ld := drop_length k Rm s' Nk); lia | intros x Hx; apply Inc; now apply drop_nth_in in Hx].
Qed.
Lemma nedge_edge u v : nedge u v -> edge rows u v.
Proof.
  intros (s & r & t0 & t1 & Hs & H & L & -> & ->). split.
  - exists (s_idx s). apply (boundary_segment_exact rows s); [exact Nz|exact Hs|apply H|apply H].
  - intros x Hx. destruct (seg_row _ _ _ _ H) as [Ir Nr]. assert (Q := Hx r Ir). rewrite holds_at in Q. assert (T := param_tight r t0 Nr). rewrite tight_at in T.
    replace ((fst (param r t1) - fst (param r t0)) * (snd x - snd (param r t0)) - (snd (param r t1) - snd (param r t0)) * (fst x - fst (param r t0))) with (- (t1 - t0) * (at_pt r x - at_pt r (param r t0))) by (unfold at_pt, param, dir; simpl; ring). nra.
Qed.
Lemma point_edge s r t0 : In s S -> seg_at s r t0 t0 -> (forall q, in_set rows q -> q = param r t0) -> edge rows (param r t0) (param r t0).
Proof.
  intros Hs H One. split.
  - exists (s_idx s). apply (boundary_segment_exact rows s); [exact Nz|exact Hs|apply H|apply H].
  - intros x Hx. rewrite (One x Hx). lra.
Qed.
Theorem path_polygon x0 : S <> [] -> in_set rows x0 -> exists V C, intervals2path S = Some (map fin (V ++ C)) /\ polygon rows V /\ (C = [] \/ exists b, C = [b] /\ In b V).
Proof.
  intros NS I0. assert (exists s0 S0, S = s0 :: S0) as (s0 & S0 & ES). { clear - NS. destruct S as [|s0 S0]; [congruence|eauto]. } unfold intervals2path. rewrite ES. cbv iota. rewrite <- ES. assert (Hs0 : In s0 S) by (rewrite ES; now left).
  destruct (Fn s0 Hs0) as (r0 & p0 & p1 & H0). assert (E0 : s_from s0 = fin (param r0 p0)) by apply H0. set (b := param r0 p0) in *. destruct (seg_vertices _ _ _ _ H0) as [Vb Vb']. fold b in Vb.
  destruct (Exists_dec (fun s => s_from s <> fin b \/ s_to s <> fin b) S) as [E|N].
  { intro s. destruct (ept_eq_dec (s_from s) (fin b)); destruct (ept_eq_dec (s_to s) (fin b)); [right; tauto|left; auto|left; auto|left; auto]. }
  - assert (exists q, in_set rows q /\ b <> q) as (q & Iq & Nq).
    { apply Exists_exists in E. destruct E as (s & Hs & Es). destruct (Fn s Hs) as (r & t0 & t1 & H). destruct (seg_vertices _ _ _ _ H) as [[V0 _] [V1 _]]. destruct H as (_ & F & T & _).
      destruct Es as [Es|Es]; [exists (param r t0) | exists (param r t1)]; (split; [assumption|]); intro X; apply Es; congruence. }
    rewrite E0. destruct (path_closes b q (proj1 Vb) Iq Nq (length S) S None b [] b) as (L & P1 & P2 & P3); auto.
    { apply incl_refl. }
    { constructor; [intros []|constructor]. }
    { intros [|k] u v Hu Hv; simpl in Hv; [discriminate|destruct k; discriminate]. }
    
    rewrite P1. exists (b :: L), [b]. split; [reflexivity|]. split; [|right; exists b; split; [reflexivity|now left]]. cbn [app] in P2, P3. split; [exact P3|]. split.
    + intro x. split; [|apply cycle_vertices; exact P2].
      intro Hx. assert (Hv' : In x (L ++ [b])) by (apply in_or_app; destruct Hx as [<-|Hx]; [right; now left|now left]). apply In_nth_error in Hv'. destruct Hv' as (k & Hk).
      assert (LK : (k < length (L ++ [b]))%nat) by (apply nth_error_Some; congruence). rewrite app_length in LK. simpl in LK.
      destruct (nth_error (b :: L) k) as [u|] eqn:Eu; [|apply nth_error_None in Eu; simpl in Eu; lia].
      assert (nedge u x) as X. { apply (P2 k); [|exact Hk]. change (b :: L ++ [b]) with ((b :: L) ++ [b]). rewrite nth_error_app1; [exact Eu|simpl; lia]. } apply nedge_vertices in X. apply X.
    + intros k u v Hu Hv. apply nedge_edge. assert (LK : (k < length (b :: L))%nat) by (apply nth_error_Some; congruence). apply (P2 k).
      * change (b :: L ++ [b]) with ((b :: L) ++ [b]). rewrite nth_error_app1; [exact Hu|exact LK].
      * change (b :: L ++ [b]) with ((b :: L) ++ [b]). simpl in LK. destruct (Nat.eq_dec k (length L)) as [->|Nk].
        -- replace (Datatypes.S (length L) mod length (b :: L))%nat with 0%nat in Hv by (simpl length; rewrite Nat.mod_same; lia). rewrite nth_error_app2 by (simpl; lia). simpl length. replace (1 + length L - Datatypes.S (length L))%nat with 0%nat by lia. exact Hv.
        -- rewrite Nat.mod_small in Hv by (simpl; lia). rewrite nth_error_app1 by (simpl; lia). exact Hv.
  - assert (All : forall s, In s S -> s_from s = fin b /\ s_to s = fin b).
    { intros s Hs. split; [destruct (ept_eq_dec (s_from s) (fin b)) as [|X]; [assumption|] | destruct (ept_eq_dec (s_to s) (fin b)) as [|X]; [assumption|]]; exfalso; apply N, Exists_exists; exists s; auto. }
    assert (One : forall q, in_set rows q -> q = b).
    { intros q Iq. destruct (Req_EM_T (fst q) (fst b)) as [X1|X1]; [destruct (Req_EM_T (snd q) (snd b)) as [X2|X2]; [destruct q, b; simpl in *; congruence|]|].
      all: exfalso; destruct (next_seg b q Vb Iq) as (s & r & t0 & t1 & Hs & H & L & Eb); [congruence|exact Fn|].
      all: destruct (All s Hs) as [A1 A2]; assert (F1 : s_from s = fin (param r t0)) by apply H; assert (F2 : s_to s = fin (param r t1)) by apply H.
      all: assert (X : param r t0 = param r t1) by (apply fin_inj; congruence); apply param_inj in X; [lra|]; eapply seg_row; eauto. }
    rewrite E0. rewrite (path_point b Vb One); [|reflexivity|apply incl_refl]. exists [b], []. split; [reflexivity|]. split; [|now left].
    split; [constructor; [intros []|constructor]|]. split.
    + intro x. split; [intros [<-|[]]; exact Vb|]. intros [Ix _]. left. symmetry. now apply One.
    + intros k u v Hu Hv. assert (k = 0%nat) as -> by (destruct k as [|[|k]]; [reflexivity|discriminate|discriminate]). simpl in Hu, Hv. injection Hu as <-. injection Hv as <-.
      apply (point_edge s0 r0 p0); [exact Hs0| |exact One]. replace p0 with p1 at 2; [exact H0|]. assert (X : b = param r0 p1) by (symmetry; apply One; apply Vb'). apply param_inj in X; [now symmetry|]. eapply seg_row; eauto.
Qed.
End Rows.

Lemma bounded_segs rows : (forall r, In r rows -> nonzero r) -> bounded rows -> forall s, In s (boundary_intervals 0 rows) -> exists r t0 t1, seg_at rows s r t0 t1.
Proof.
  intros Nz (B & HB) s Hs. destruct (bi_spec 0 rows Nz) as (H1 & _ & _). destruct (H1 s Hs) as (r & _ & _ & Hr & _).
  destruct (boundary_ends 0 rows s r Nz Hs Hr) as [E1 E2].
  assert (A : forall x, face rows (s_idx s) x -> Rabs (along r x) <= (Rabs (a1 r) + Rabs (a0 r)) * B).
  { intros x [Ix _]. destruct (HB x Ix) as [X1 X2]. unfold along. eapply Rle_trans; [apply Rabs_triang|]. rewrite !Rabs_mult, Rabs_Ropp. assert (P1 := Rabs_pos (a1 r)). assert (P2 := Rabs_pos (a0 r)). nra. }
  destruct (proj2 E1) as (u & Hu). { exists (- ((Rabs (a1 r) + Rabs (a0 r)) * B)). intros x Fx. specialize (A x Fx). unfold Rabs at 1 in A. destruct Rcase_abs; lra. }
  destruct (proj2 E2) as (v & Hv). { exists ((Rabs (a1 r) + Rabs (a0 r)) * B). intros x Fx. specialize (A x Fx). assert (L := Rle_abs (along r x)). lra. }
  exact (seg_fin rows Nz s u v Hs Hu Hv).
Qed.
Lemma bounded_nonempty rows : bounded rows -> rows <> [].
Proof. intros (B & HB) ->. destruct (HB (Rabs B + 1, 0)) as [X _]; [intros r []|]. simpl in X. assert (Q := Rle_abs B). assert (Q2 := Rabs_pos B). rewrite Rabs_pos_eq in X by lra. lra. Qed.
Theorem boundary_path_polygon rows x0 : (forall r, In r rows -> nonzero r) -> bounded rows -> separated (/ 100000000) rows -> in_set rows x0 ->
  exists V C, intervals2path (boundary_intervals 0 rows) = Some (map fin (V ++ C)) /\ polygon rows V /\ (C = [] \/ exists b, C = [b] /\ In b V).
Proof.
  intros Nz Bd Sp I0. apply path_polygon with x0; auto.
  - now apply bounded_segs.
  - intro E. apply (boundary_empty 0 rows Nz (bounded_nonempty rows Bd) E x0 I0).
Qed.
Lemma firsts_id l m : forall seen, NoDup l -> (forall x, In x l -> ~ In x seen) -> (forall x, In x m -> In x l \/ In x seen) -> firsts seen (l ++ m) = l.
Proof.
  induction l as [|a l IH]; intros seen Nd Ds Hm.
  - cbn [app]. revert Hm. induction m as [|c m IHm]; intro Hm; [reflexivity|]. cbn [firsts]. destruct in_dec as [|N]; [apply IHm; intros x Hx; apply Hm; now right|]. destruct (Hm c ltac:(now left)); [contradiction|contradiction].
  - cbn [app firsts]. inversion Nd as [|? ? Na Nd']; subst. destruct in_dec as [I|N]; [exfalso; apply (Ds a); [now left|exact I]|]. f_equal. apply IH; [exact Nd'| |].
    + intros x Hx [<-|Hs]; [contradiction|]. apply (Ds x); [now right|exact Hs].
    + intros x Hx. destruct (Hm x Hx) as [[<-|H]|H]; [right; now left|now left|right; now right].
Qed.
Section Lineqs.
Variable around : R -> R.
Hypothesis Har : forall x, Rabs (around x - x) <= / 1000000000000.
Lemma listed_nodup rs V : separated (/ 100000000) rs -> NoDup V -> (forall x, In x V -> vertex rs x) -> NoDup (map (listed around) V).
Proof.
  intros Sp. induction V as [|a V IH]; intros Nd Hv; [constructor|]. inversion Nd as [|? ? Na Nd']; subst. cbn [map]. constructor; [|apply IH; [exact Nd'|intros x Hx; apply Hv; now right]].
  intro H. apply in_map_iff in H. destruct H as (y & Ey & Hy). unfold listed in Ey. injection Ey as E1 E2.
  destruct (Sp a y (Hv a ltac:(now left)) (Hv y ltac:(now right))) as [->|D]; [contradiction|].
  assert (A1 := Har (fst a)). assert (A2 := Har (snd a)). assert (B1 := Har (fst y)). assert (B2 := Har (snd y)).
  destruct D as [D|D].
  - replace (fst a - fst y) with ((around (fst y) - fst y) + - (around (fst a) - fst a)) in D by (rewrite E1; ring). assert (Q := Rabs_triang (around (fst y) - fst y) (- (around (fst a) - fst a))). rewrite Rabs_Ropp in Q. lra.
  - replace (snd a - snd y) with ((around (snd y) - snd y) + - (around (snd a) - snd a)) in D by (rewrite E2; ring). assert (Q := Rabs_triang (around (snd y) - snd y) (- (around (snd a) - snd a))). rewrite Rabs_Ropp in Q. lra.
Qed.
Lemma unique_path rs V C : separated (/ 100000000) rs -> polygon rs V -> (C = [] \/ exists b, C = [b] /\ In b V) -> unique around (map fin (V ++ C)) = map (listed around) V.
Proof.
  intros Sp (Nd & Hv & _) HC. unfold unique. rewrite map_map. change (fun x => around_ept around (fin x)) with (listed around). rewrite map_app. apply firsts_id.
  - apply (listed_nodup rs); auto. intros x Hx. now apply Hv.
  - intros x _ [].
  - intros x Hx. left. apply in_map_iff in Hx. destruct Hx as (y & <- & Hy). destruct HC as [->|(b & -> & Hb)]; [destruct Hy|]. destruct Hy as [<-|[]]. now apply in_map.
Qed.
(** A bounded set: all its corners, in order, rounded to 12 digits. *)
Theorem lineqs_polygon rows bounds : let rs := fst (clear_zero_rows around rows) in bounded rs -> separated (/ 100000000) rs -> (exists x, in_set rs x) ->
  exists V, polygon rs V /\ lineqs 0 around rows bounds = Some (map (listed around) V).
Proof.
  intros rs Bd Sp (x0 & I0). assert (Nz : forall r, In r rs -> nonzero r) by apply cleared_nonzero.
  destruct (boundary_path_polygon rs x0 Nz Bd Sp I0) as (V & C & P & Pg & HC). exists V. split; [exact Pg|]. unfold lineqs. fold rs. cbv zeta.
  assert (Ub : unbounded (boundary_intervals 0 rs) = false).
  { unfold unbounded. destruct (existsb _ _) eqn:E; [|reflexivity]. apply existsb_exists in E. destruct E as (s & Hs & Es). destruct (bounded_segs rs Nz Bd s Hs) as (r & t0 & t1 & (_ & F & _)). rewrite F in Es. discriminate. }
  rewrite Ub. destruct (boundary_intervals 0 rs) as [|s S0] eqn:ES; [exfalso; apply (boundary_empty 0 rs Nz (bounded_nonempty rs Bd) ES x0 I0)|]. rewrite P. f_equal. now apply (unique_path rs).
Qed.
End Lineqs.
