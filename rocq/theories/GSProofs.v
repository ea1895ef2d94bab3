(** Proofs about Gauss_Seidel, and counterexamples for Gauss. *)
From Coq Require Import ZArith Reals List Bool Arith Lia Lra Psatz Floats.SpecFloat.
From Flocq Require Import Core IEEE754.BinarySingleNaN.
From Verif Require Import Base PyNum Kernel Spec Expr XReal XArith KernelProofs ExprProofs KernelAlg KernelMore Arrays Construct SpecArray ArrayProofs ArrayMore ArrayMat ConstructProofs ConstructMore ConstructUtil Solvers SolversProofs.
Import ListNotations.
Open Scope R_scope.

Lemma keeps_gs_bar n k A b x pre : keeps_mode (gs_bar n k A b x pre).
Proof. unfold gs_bar. keeps_ivt. Qed.
Lemma keeps_gs_sweep n c : forall k A b x pre, keeps_mode (gs_sweep n c k A b x pre).
Proof.
  induction c as [|c IH]; intros k A b x pre; cbn [gs_sweep]; [apply keeps_ret|]. apply keeps_bind; [apply keeps_gs_bar|]. intro.
  apply keeps_bind; [apply keeps_intersect|]. intro z. destruct (isnan_itv z); [apply keeps_raise | apply IH].
Qed.
Lemma keeps_mat_entry n c v : keeps_mode (mat_entry n c v).
Proof. unfold mat_entry. apply keeps_bind; [apply keeps_dot|]. intros [?|?]; [apply keeps_raise | apply keeps_ret]. Qed.

Lemma sumR_split n k (f : nat -> R) : (k < n)%nat ->
  sumR (map f (seq 0 n)) = sumR (map f (seq 0 k)) + f k + sumR (map f (seq (S k) (n - S k))).
Proof.
  intro H. replace n with (k + S (n - S k))%nat at 1 by lia. rewrite seq_app, map_app, sumR_app. simpl. unfold sumR. lra.
Qed.
Lemma gs_bar_enc n k A b X P m Z Mr v x : (k < n)%nat -> (forall l, (l < n)%nat -> enc (A k l) (Mr k l)) -> enc (b k) v ->
  sumR (map (fun l => Mr k l * x l) (seq 0 n)) = v ->
  (forall l, (l < k)%nat -> enc (X l) (x l)) -> (forall l, (k < l < n)%nat -> enc (P l) (x l)) ->
  returns (gs_bar n k A b X P) m Z -> enc Z (x k).
Proof.
  intros Hk HA Hb He HX HP H. unfold gs_bar in H.
  apply keeps_returns in H; [|keeps_ivt]. destruct H as (p1 & Hp1 & H).
  apply keeps_returns in H; [|keeps_ivt]. destruct H as (s1 & Hs1 & H).
  apply keeps_returns in H; [|keeps_ivt]. destruct H as (d1 & Hd1 & H).
  apply keeps_returns in H; [|keeps_ivt]. destruct H as (p2 & Hp2 & H).
  apply keeps_returns in H; [|keeps_ivt]. destruct H as (s2 & Hs2 & H).
  apply keeps_returns in H; [|keeps_ivt]. destruct H as (d2 & Hd2 & H).
  assert (E1 := prods_enc (A k) X (Mr k) x m (seq 0 k) p1 ltac:(intros l Hl; apply in_seq in Hl; apply HA; lia) ltac:(intros l Hl; apply in_seq in Hl; apply HX; lia) Hp1).
  assert (E2 := prods_enc (A k) P (Mr k) x m (seq (S k) (n - S k)) p2 ltac:(intros l Hl; apply in_seq in Hl; apply HA; lia) ltac:(intros l Hl; apply in_seq in Hl; apply HP; lia) Hp2).
  assert (D1 := enc_sub_op _ _ m d1 _ _ Hb (py_sum_enc _ _ m s1 E1 Hs1) Hd1).
  assert (D2 := enc_sub_op _ _ m d2 _ _ D1 (py_sum_enc _ _ m s2 E2 Hs2) Hd2).
  refine (enc_div d2 (A k k) m Z (x k) (Mr k k) _ (HA k Hk) H).
  rewrite <- He, (sumR_split n k _ Hk) in D2. cbv beta in D2.
  match type of D2 with enc _ ?t => replace (x k * Mr k k) with t by ring end. exact D2.
Qed.
Lemma isnan_false_nan Z : isnan_itv Z = false -> ~ nan_itv Z.
Proof. unfold isnan_itv. intros H [N1 N2]. rewrite N1 in H. discriminate. Qed.
Lemma nan_no_member W r : nan_itv W -> ~ member W r.
Proof. intros NW H. apply member_x in H. apply nan_itv_x in NW. destruct NW as [E _]. rewrite E in H. destruct H as [[] _]. Qed.
Lemma intersect_small X Y m Z : small_itv X -> small_itv Y -> returns (intersect X Y) m Z -> small_itv Z.
Proof.
  intros SX SY H. unfold intersect in H. fold (isup X Y) in H. fold (iinf X Y) in H.
  apply keeps_returns in H; [|apply keeps_prim]. destruct H as (d & _ & H).
  assert (S1 := isup_small _ _ SX SY). assert (S2 := iinf_small _ _ SX SY).
  destruct (num_le d c1em15).
  - destruct (single_sorted (isup X Y) (iinf X Y) m) as (Z' & HZ & _ & E & _). assert (Z' = Z) by (unfold returns in *; congruence). subst Z'.
    unfold small_itv. destruct E as [[-> ->]|[-> ->]]; auto.
  - destruct (single_sorted (PFlt fnan) (PFlt fnan) m) as (Z' & HZ & _ & E & _). assert (Z' = Z) by (unfold returns in *; congruence). subst Z'.
    unfold small_itv. destruct E as [[-> ->]|[-> ->]]; split; exact I.
Qed.
(** Intersecting a box side with an enclosure keeps the enclosed member. *)
Lemma intersect_keep X Y m Z x : good X -> member X x -> enc Y x -> returns (intersect X Y) m Z -> isnan_itv Z = false ->
  good Z /\ member Z x /\ forall r, member Z r -> member X r.
Proof.
  intros GX MX [GY HY] H N. destruct (intersect_spec X Y m GX GY) as (Z' & HZ & kZ & C & Ex & _ & F).
  assert (Z' = Z) by (unfold returns in *; congruence). subst Z'.
  assert (MY : member Y x).
  { destruct HY as [NY|MY]; [|exact MY]. exfalso. destruct (F (isnan_false_nan _ N)) as (_ & y & _ & My & _). exact (nan_no_member _ _ NY My). }
  assert (MZ : member Z x) by now apply C.
  split; [|split; [exact MZ|]; intros r Hr; apply (Ex (ex_intro _ x (conj MX MY)) r); exact Hr]. split; [exact kZ|]. split; [|right; eauto]. exact (intersect_small X Y m Z (proj1 (proj2 GX)) (proj1 (proj2 GY)) H).
Qed.
(** [Y] is a usable interval inside [B] that contains [x]. *)
Definition kept (B : itv) (x : R) (Y : itv) : Prop := good Y /\ member Y x /\ forall r, member Y r -> member B r.
Lemma gs_sweep_keep n A b B P m Mr v x : (forall i l, (i < n)%nat -> (l < n)%nat -> enc (A i l) (Mr i l)) -> (forall i, (i < n)%nat -> enc (b i) (v i)) ->
  (forall i, (i < n)%nat -> sumR (map (fun l => Mr i l * x l) (seq 0 n)) = v i) ->
  (forall i, (i < n)%nat -> kept (B i) (x i) (P i)) ->
  forall c k X Z, (c + k = n)%nat -> (forall i, (i < k)%nat -> kept (B i) (x i) (X i)) ->
  returns (gs_sweep n c k A b X P) m Z -> forall i, (i < n)%nat -> kept (B i) (x i) (Z i).
Proof.
  intros HA Hb He HP. induction c as [|c IH]; intros k X Z Hc HX H; cbn [gs_sweep] in H.
  - apply returns_ret in H. subst Z. intros i Hi. apply HX. lia.
  - apply keeps_returns in H; [|apply keeps_gs_bar]. destruct H as (bar & Hbar & H).
    apply keeps_returns in H; [|apply keeps_intersect]. destruct H as (z & Hz & H).
    destruct (isnan_itv z) eqn:N; [discriminate|].
    assert (EB : enc bar (x k)).
    { refine (gs_bar_enc n k A b X P m bar Mr (v k) x _ (fun l => HA k l _) (Hb k _) (He k _) _ _ Hbar); try lia.
      - intros l Hl. destruct (HX l Hl) as (? & ? & _). split; [assumption | now right].
      - intros l Hl. destruct (HP l ltac:(lia)) as (? & ? & _). split; [assumption | now right]. }
    destruct (HP k ltac:(lia)) as (GP & MP & SP).
    destruct (intersect_keep (P k) bar m z (x k) GP MP EB Hz N) as (Gz & Mz & Sz).
    refine (IH (S k) (upd X k z) Z _ _ H); [lia|]. intros i Hi. unfold upd. destruct (Nat.eqb_spec i k) as [->|Ne]; [|apply HX; lia].
    split; [exact Gz|]. split; [exact Mz|]. auto.
Qed.
Lemma keeps_gs_loop dist n tol A b : forall fuel d x pre, keeps_mode (gs_loop dist n fuel tol d A b x pre).
Proof.
  induction fuel as [|f IH]; intros d x pre; cbn [gs_loop]; destruct (num_le tol d); try apply keeps_ret.
  apply keeps_bind; [apply keeps_gs_sweep|]. intro. apply IH.
Qed.
Lemma gs_loop_keep dist n tol A b B m Mr v x : (forall i l, (i < n)%nat -> (l < n)%nat -> enc (A i l) (Mr i l)) -> (forall i, (i < n)%nat -> enc (b i) (v i)) ->
  (forall i, (i < n)%nat -> sumR (map (fun l => Mr i l * x l) (seq 0 n)) = v i) ->
  forall fuel d X P Z, (forall i, (i < n)%nat -> kept (B i) (x i) (P i)) ->
  ((forall i, (i < n)%nat -> kept (B i) (x i) (X i)) \/ (num_le tol d = true /\ fuel <> 0%nat)) ->
  returns (gs_loop dist n fuel tol d A b X P) m Z -> forall i, (i < n)%nat -> kept (B i) (x i) (Z i).
Proof.
  intros HA Hb He. induction fuel as [|f IH]; intros d X P Z HP HX H; cbn [gs_loop] in H; destruct (num_le tol d) eqn:T.
  1, 2: apply returns_ret in H; subst Z; intros i Hi; destruct HX as [HX|[Q1 Q2]]; [now apply HX | congruence].
  - apply keeps_returns in H; [|apply keeps_gs_sweep]. destruct H as (X' & HX' & H).
    assert (K := gs_sweep_keep n A b B P m Mr v x HA Hb He HP n 0 X X' ltac:(lia) ltac:(intros; lia) HX').
    refine (IH _ X' X' Z K (or_introl K) H).
  - apply returns_ret in H; subst Z; intros i Hi; destruct HX as [HX|[Q1 Q2]]; [now apply HX | congruence].
Qed.

Definition num_ok (c : pynum) : Prop := small_num c /\ finite_num c.
Lemma mat_entry_enc n c (V : nat -> itv) m Z : (0 < n)%nat -> (forall k, (k < n)%nat -> num_ok (c k)) -> (forall k, (k < n)%nat -> good (V k)) ->
  returns (mat_entry n c V) m Z -> forall v, (forall k, (k < n)%nat -> member (V k) (v k)) -> enc Z (Rsum n (fun k => num_val (c k) * v k)).
Proof.
  intros Hn Hc GV H v Mv. unfold mat_entry in H. apply keeps_returns in H; [|apply keeps_dot]. destruct H as (z & Hz & H).
  destruct (entry_sound n (fun k => ONum (c k)) (fun k => OItv (V k)) m) as (z' & Hz' & NN & E).
  - intros k Hk. right. exact I.
  - intros k Hk. exact (Hc k Hk).
  - intros k Hk. exact (GV k Hk).
  - assert (z' = z) by (unfold returns in *; congruence). subst z'. destruct (NN Hn) as (W & -> & GW). apply returns_ret in H. subst Z.
    split; [exact GW|]. exact (E (fun k => num_val (c k)) v (fun k Hk => eq_refl) Mv).
Qed.
Lemma Rsum_ext n f g : (forall k, (k < n)%nat -> f k = g k) -> Rsum n f = Rsum n g.
Proof. induction n as [|n IH]; intro H; [reflexivity|]. cbn [Rsum]. rewrite IH by (intros; apply H; lia). now rewrite H by lia. Qed.
Lemma Rsum_scal n c f : c * Rsum n f = Rsum n (fun k => c * f k).
Proof. induction n as [|n IH]; cbn [Rsum]; [ring|]. rewrite <- IH. ring. Qed.
Lemma Rsum_add n f g : Rsum n (fun k => f k + g k) = Rsum n f + Rsum n g.
Proof. induction n as [|n IH]; cbn [Rsum]; [ring|]. rewrite IH. ring. Qed.
Lemma Rsum_zero n : Rsum n (fun _ => 0) = 0.
Proof. induction n as [|n IH]; cbn [Rsum]; [ring|]. rewrite IH. ring. Qed.
Lemma Rsum_swap n p (f : nat -> nat -> R) : Rsum n (fun i => Rsum p (fun j => f i j)) = Rsum p (fun j => Rsum n (fun i => f i j)).
Proof.
  induction n as [|n IH]; cbn [Rsum]; [now rewrite Rsum_zero|]. rewrite IH, <- Rsum_add. apply Rsum_ext. reflexivity.
Qed.
Lemma Rsum_sumR n f : Rsum n f = sumR (map f (seq 0 n)).
Proof. induction n as [|n IH]; [reflexivity|]. rewrite seq_S, map_app, sumR_app. cbn [Rsum]. rewrite IH. simpl. lra. Qed.
(** Every solution in the starting box stays in the result. *)
Theorem gauss_seidel_keeps dist n A b x0 C hm tol maxiter m Z : (0 < n)%nat ->
  (forall i l, (i < n)%nat -> (l < n)%nat -> good (A i l)) -> (forall i, (i < n)%nat -> good (b i)) ->
  (forall i, (i < n)%nat -> good (x0 i)) -> (forall i l, (i < n)%nat -> (l < n)%nat -> num_ok (C i l)) ->
  is_nan_num tol = false -> (0 <= maxiter)%Z ->
  returns (gauss_seidel dist n A b (Some x0) C hm tol maxiter) m Z ->
  forall Mr v x, (forall i l, (i < n)%nat -> (l < n)%nat -> member (A i l) (Mr i l)) -> (forall i, (i < n)%nat -> member (b i) (v i)) ->
    (forall i, (i < n)%nat -> Rsum n (fun l => Mr i l * x l) = v i) -> (forall i, (i < n)%nat -> member (x0 i) (x i)) ->
    forall i, (i < n)%nat -> member (Z i) (x i) /\ forall r, member (Z i) r -> member (x0 i) r.
Proof.
  intros Hn GA Gb G0 HC Ht Hmx H Mr v x MA Mb He Mx.
  unfold gauss_seidel in H.
  apply keeps_returns in H; [|apply keeps_tab2; intros; apply keeps_mat_entry]. destruct H as (A' & HA' & H).
  apply keeps_returns in H; [|apply keeps_tab; intros; apply keeps_mat_entry]. destruct H as (b' & Hb' & H).
  destruct hm; [|discriminate]. cbv zeta in H.
  destruct (tab2_spec _ _ _ _ _ _ (fun i l => keeps_mat_entry _ _ _) HA') as [_ EA].
  destruct (tab_spec _ _ _ _ _ _ (fun i => keeps_mat_entry _ _ _) Hb') as [_ EB].
  intros i0 Hi0. refine (proj2 (gs_loop_keep dist n tol A' b' x0 m (fun i l => Rsum n (fun k => num_val (C i k) * Mr k l)) (fun i => Rsum n (fun k => num_val (C i k) * v k)) x _ _ _ _ _ _ _ Z _ _ H i0 Hi0)); clear i0 Hi0.
  - intros i l Hi Hl. refine (mat_entry_enc n (C i) (fun k => A k l) m _ Hn _ _ (EA i l ltac:(lia) ltac:(lia)) (fun k => Mr k l) _); intros k Hk; auto.
  - intros i Hi. refine (mat_entry_enc n (C i) b m _ Hn _ _ (EB i ltac:(lia)) v _); intros k Hk; auto.
  - intros i Hi. rewrite (Rsum_ext n (fun k => num_val (C i k) * v k) (fun k => Rsum n (fun l => num_val (C i k) * Mr k l * x l))).
    + rewrite Rsum_swap.
      rewrite <- (Rsum_sumR n (fun l => Rsum n (fun k => num_val (C i k) * Mr k l) * x l)).
      apply Rsum_ext. intros l Hl. rewrite Rmult_comm, Rsum_scal. apply Rsum_ext. intros. ring.
    + intros k Hk. rewrite <- (He k Hk), Rsum_scal. apply Rsum_ext. intros. ring.
  - intros i Hi. split; auto.
  - right. split.
    + rewrite num_le_x. apply Bool.not_true_iff_false in Ht. destruct (xval tol) eqn:Et; try reflexivity. exfalso. apply Ht. now apply is_nan_num_x.
    + lia.
Qed.
