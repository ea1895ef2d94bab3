(** Sums, minima, and the range of an interval matrix times a real vector. *)
From Coq Require Import Reals List Arith Lia Lra Psatz.
From Verif Require Import Exact SpecExact.
Import ListNotations.
Open Scope R_scope.

Lemma vsum_total n f : vsum n f = total n f.
Proof. induction n; simpl; congruence. Qed.
Lemma total_ext n f g : (forall j, (j < n)%nat -> f j = g j) -> total n f = total n g.
Proof. induction n; simpl; intros H; [reflexivity|]. rewrite IHn by (intros; apply H; lia). rewrite H by lia. reflexivity. Qed.
Lemma total_le n f g : (forall j, (j < n)%nat -> f j <= g j) -> total n f <= total n g.
Proof. induction n; simpl; intros H; [lra|]. specialize (H n ltac:(lia)) as H1. specialize (IHn ltac:(intros; apply H; lia)). lra. Qed.
Lemma total_plus n f g : total n (fun j => f j + g j) = total n f + total n g.
Proof. induction n; simpl; [lra|]. rewrite IHn. lra. Qed.
Lemma total_minus n f g : total n (fun j => f j - g j) = total n f - total n g.
Proof. induction n; simpl; [lra|]. rewrite IHn. lra. Qed.
Lemma total_scal n c f : total n (fun j => c * f j) = c * total n f.
Proof. induction n; simpl; [lra|]. rewrite IHn. lra. Qed.
Lemma total_opp n f : total n (fun j => - f j) = - total n f.
Proof. induction n; simpl; [lra|]. rewrite IHn. lra. Qed.
Lemma total_0 n f : (forall j, (j < n)%nat -> f j = 0) -> total n f = 0.
Proof. induction n; simpl; intros H; [reflexivity|]. rewrite IHn, H by (intros; try apply H; lia). lra. Qed.
Lemma total_nn n f : (forall j, (j < n)%nat -> 0 <= f j) -> 0 <= total n f.
Proof. intros H. rewrite <- (total_0 n (fun _ => 0)) by reflexivity. now apply total_le. Qed.
Lemma total_abs n f : Rabs (total n f) <= total n (fun j => Rabs (f j)).
Proof. induction n; simpl; [rewrite Rabs_R0; lra|]. eapply Rle_trans; [apply Rabs_triang|]. lra. Qed.
Lemma total_term n f k : (k < n)%nat -> (forall j, (j < n)%nat -> 0 <= f j) -> f k <= total n f.
Proof.
  induction n; intros Hk H; [lia|]. simpl. destruct (Nat.eq_dec k n) as [->|].
  - assert (0 <= total n f) by (apply total_nn; intros; apply H; lia). lra.
  - assert (f k <= total n f) by (apply IHn; [lia | intros; apply H; lia]). specialize (H n ltac:(lia)). lra.
Qed.
Lemma total_swap m n (f : nat -> nat -> R) : total m (fun i => total n (fun j => f i j)) = total n (fun j => total m (fun i => f i j)).
Proof.
  induction m; simpl; [symmetry; apply total_0; reflexivity|]. rewrite IHm, <- total_plus. reflexivity.
Qed.

(** [isum] sums the endpoints. *)
Lemma isum_lo n f : rl (isum n f) = total n (fun j => rl (f j)).
Proof. induction n; simpl; congruence. Qed.
Lemma isum_hi n f : rh (isum n f) = total n (fun j => rh (f j)).
Proof. induction n; simpl; congruence. Qed.

(** Minimum and maximum of a vector. *)
Lemma vmin_le k f i : (i <= k)%nat -> vmin k f <= f i.
Proof.
  induction k; simpl; intro H; [replace i with 0%nat by lia; lra|].
  destruct (Nat.eq_dec i (S k)) as [->|]; [apply Rmin_r|]. eapply Rle_trans; [apply Rmin_l | apply IHk; lia].
Qed.
Lemma vmin_in k f : exists i, (i <= k)%nat /\ vmin k f = f i.
Proof.
  induction k; simpl; [exists 0%nat; auto|]. destruct IHk as (i & Hi & E).
  unfold Rmin. destruct Rle_dec; [exists i | exists (S k)]; auto.
Qed.
Lemma le_vmin k f t : t <= vmin k f <-> forall i, (i < S k)%nat -> t <= f i.
Proof.
  split.
  - intros H i Hi. eapply Rle_trans; [exact H | apply vmin_le; lia].
  - intro H. destruct (vmin_in k f) as (i & Hi & ->). apply H. lia.
Qed.
Lemma le_vmax k f i : (i <= k)%nat -> f i <= vmax k f.
Proof.
  induction k; simpl; intro H; [replace i with 0%nat by lia; lra|].
  destruct (Nat.eq_dec i (S k)) as [->|]; [apply Rmax_r|]. eapply Rle_trans; [apply IHk; lia | apply Rmax_l].
Qed.
Lemma vmax_in k f : exists i, (i <= k)%nat /\ vmax k f = f i.
Proof.
  induction k; simpl; [exists 0%nat; auto|]. destruct IHk as (i & Hi & E).
  unfold Rmax. destruct Rle_dec; [exists (S k) | exists i]; auto.
Qed.
Lemma vmax_le k f t : vmax k f <= t <-> forall i, (i < S k)%nat -> f i <= t.
Proof.
  split.
  - intros H i Hi. eapply Rle_trans; [apply (le_vmax k f i); lia | exact H].
  - intro H. destruct (vmax_in k f) as (i & Hi & ->). apply H. lia.
Qed.
Lemma argmin_spec k f : (argmin k f <= k)%nat /\ vmin k f = f (argmin k f) /\ forall i, (i <= k)%nat -> f (argmin k f) <= f i.
Proof.
  assert (P : (argmin k f <= k)%nat /\ vmin k f = f (argmin k f)).
  { induction k; simpl; [auto|]. destruct IHk as [H1 H2]. rewrite H2. unfold Rmin.
    destruct Rlt_dec as [L|L]; destruct Rle_dec as [K|K]; try (exfalso; lra); split; auto. }
  destruct P as [H1 H2]. split; [assumption|]. split; [assumption|]. intros i Hi. rewrite <- H2. now apply vmin_le.
Qed.
Lemma vmin_ext k f g : (forall i, (i <= k)%nat -> f i = g i) -> vmin k f = vmin k g.
Proof. induction k; simpl; intro H; [apply H; lia|]. rewrite IHk, H by (intros; try apply H; lia). reflexivity. Qed.
Lemma vmax_ext k f g : (forall i, (i <= k)%nat -> f i = g i) -> vmax k f = vmax k g.
Proof. induction k; simpl; intro H; [apply H; lia|]. rewrite IHk, H by (intros; try apply H; lia). reflexivity. Qed.

(** ** Number times interval *)
Lemma scale_in c X x : inI X x -> inI (r_scale c X) (c * x).
Proof.
  unfold inI, r_scale; simpl. intros [H1 H2]. split.
  - destruct (Rle_dec 0 c); [eapply Rle_trans; [apply Rmin_l|] | eapply Rle_trans; [apply Rmin_r|]]; nra.
  - destruct (Rle_dec 0 c); [eapply Rle_trans; [|apply Rmax_r] | eapply Rle_trans; [|apply Rmax_l]]; nra.
Qed.
Lemma scale_pos c X : proper X -> 0 <= c -> r_scale c X = mkr (c * rl X) (c * rh X).
Proof. unfold proper, r_scale. intros P H. rewrite Rmin_left, Rmax_right by nra. reflexivity. Qed.
Lemma scale_neg c X : proper X -> c <= 0 -> r_scale c X = mkr (c * rh X) (c * rl X).
Proof. unfold proper, r_scale. intros P H. rewrite Rmin_right, Rmax_left by nra. reflexivity. Qed.
Lemma scale_proper c X : proper (r_scale c X).
Proof. unfold proper, r_scale; simpl. eapply Rle_trans; [apply Rmin_l | apply Rmax_l]. Qed.
Lemma scale_cases c X : proper X ->
  rl (r_scale c X) = c * (if Rle_dec 0 c then rl X else rh X) /\ rh (r_scale c X) = c * (if Rle_dec 0 c then rh X else rl X).
Proof. intro P. destruct Rle_dec; [rewrite scale_pos | rewrite scale_neg]; auto; lra. Qed.

(** Two points [u <= v] of the range: [A x] ranges over a whole interval. *)
Lemma imv_encl m n A x M i : in_imat m n A M -> (i < m)%nat -> inI (imv n A x i) (times n M x i).
Proof.
  intros H Hi. unfold inI, imv, times. rewrite isum_lo, isum_hi.
  split; apply total_le; intros j Hj; destruct (scale_in (x j) (A i j) (M i j) (H i j Hi Hj)); lra.
Qed.
Definition at_lo (A : imat) (x : vec) : mat := fun i j => if Rle_dec 0 (x j) then rl (A i j) else rh (A i j).
Definition at_hi (A : imat) (x : vec) : mat := fun i j => if Rle_dec 0 (x j) then rh (A i j) else rl (A i j).
Lemma at_lo_in m n A x : proper_mat m n A -> in_imat m n A (at_lo A x).
Proof. intros P i j Hi Hj. specialize (P i j Hi Hj). unfold at_lo, inI, proper in *. destruct Rle_dec; lra. Qed.
Lemma at_hi_in m n A x : proper_mat m n A -> in_imat m n A (at_hi A x).
Proof. intros P i j Hi Hj. specialize (P i j Hi Hj). unfold at_hi, inI, proper in *. destruct Rle_dec; lra. Qed.
Lemma imv_lo m n A x i : proper_mat m n A -> (i < m)%nat -> rl (imv n A x i) = times n (at_lo A x) x i.
Proof.
  intros P Hi. unfold imv, times. rewrite isum_lo. apply total_ext. intros j Hj.
  destruct (scale_cases (x j) (A i j) (P i j Hi Hj)) as [-> _]. unfold at_lo. destruct Rle_dec; lra.
Qed.
Lemma imv_hi m n A x i : proper_mat m n A -> (i < m)%nat -> rh (imv n A x i) = times n (at_hi A x) x i.
Proof.
  intros P Hi. unfold imv, times. rewrite isum_hi. apply total_ext. intros j Hj.
  destruct (scale_cases (x j) (A i j) (P i j Hi Hj)) as [_ ->]. unfold at_hi. destruct Rle_dec; lra.
Qed.
(** Every point of the interval product is the image of some member matrix, row by row. *)
Lemma imv_attained m n A x v : proper_mat m n A -> (forall i, (i < m)%nat -> inI (imv n A x i) (v i)) ->
  exists M, in_imat m n A M /\ forall i, (i < m)%nat -> times n M x i = v i.
Proof.
  intros P H.
  set (th := fun i => let l := rl (imv n A x i) in let h := rh (imv n A x i) in if Req_EM_T l h then 0 else (v i - l) / (h - l)).
  exists (fun i j => at_lo A x i j + th i * (at_hi A x i j - at_lo A x i j)).
  assert (T : forall i, (i < m)%nat -> 0 <= th i <= 1 /\ rl (imv n A x i) + th i * (rh (imv n A x i) - rl (imv n A x i)) = v i).
  { intros i Hi. specialize (H i Hi). unfold inI in H. unfold th. cbv zeta. destruct Req_EM_T as [E|E]; [lra|].
    assert (rl (imv n A x i) < rh (imv n A x i)) by lra. split.
    - split; [apply Rmult_le_pos; [lra | left; apply Rinv_0_lt_compat; lra]|].
      apply Rmult_le_reg_r with (rh (imv n A x i) - rl (imv n A x i)); [lra|]. unfold Rdiv. rewrite Rmult_assoc, Rinv_l by lra. lra.
    - field. lra. }
  split.
  - intros i j Hi Hj. destruct (T i Hi) as [T1 _]. destruct (at_lo_in m n A x P i j Hi Hj), (at_hi_in m n A x P i j Hi Hj). unfold inI. nra.
  - intros i Hi. destruct (T i Hi) as [_ T2]. rewrite (imv_lo m n A x i P Hi), (imv_hi m n A x i P Hi) in T2. rewrite <- T2. unfold times.
    symmetry. rewrite <- total_minus, <- total_scal, <- total_plus. apply total_ext. intros; ring.
Qed.
Lemma imv_proper n A x i : proper (imv n A x i).
Proof. unfold proper, imv. rewrite isum_lo, isum_hi. apply total_le. intros. apply scale_proper. Qed.
(** midpoint-radius form *)
Lemma imv_midrad m n A x i : proper_mat m n A -> (i < m)%nat ->
  rl (imv n A x i) = mv n (mids A) x i - mv n (rads A) (vabs x) i /\ rh (imv n A x i) = mv n (mids A) x i + mv n (rads A) (vabs x) i.
Proof.
  intros P Hi. unfold imv, mv. rewrite isum_lo, isum_hi. change vsum with total. rewrite <- total_minus, <- total_plus.
  split; apply total_ext; intros j Hj; destruct (scale_cases (x j) (A i j) (P i j Hi Hj)) as [E1 E2]; rewrite ?E1, ?E2;
    unfold mids, rads, r_mid, r_rad, vabs, Rabs; destruct Rcase_abs; destruct Rle_dec; lra.
Qed.
