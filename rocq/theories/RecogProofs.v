(** Proofs about the recognizing functionals, dist and the linear penalty. *)
From Coq Require Import Reals List Arith Lia Lra Psatz Bool.
From Verif Require Import Exact Recog SpecExact ExactProofs.
Import ListNotations.
Open Scope R_scope.

Lemma Rabs_le_iff a s : Rabs a <= s <-> - s <= a <= s.
Proof. split; [intro H; unfold Rabs in H; destruct Rcase_abs; lra | intros; apply Rabs_le; lra]. Qed.
Lemma mag_csub_le c X s : r_mag (r_csub c X) <= s <-> c - s <= rl X <= c + s /\ c - s <= rh X <= c + s.
Proof.
  unfold r_mag, r_csub; simpl. split.
  - intro H. assert (H1 := Rle_trans _ _ _ (Rmax_l _ _) H). assert (H2 := Rle_trans _ _ _ (Rmax_r _ _) H).
    apply Rabs_le_iff in H1, H2. lra.
  - intros [H1 H2]. apply Rmax_lub; apply Rabs_le_iff; lra.
Qed.
Lemma has0_iff X : has0 X = true <-> rl X <= 0 <= rh X.
Proof. unfold has0. destruct Rle_dec; [destruct Rle_dec|]; split; intro; try discriminate; try reflexivity; lra. Qed.
(** the mignitude of [c - X] is the distance from [c] to [X] *)
Lemma mig_csub_le c X s : proper X -> (r_mig (r_csub c X) <= s <-> 0 <= s /\ rl X - s <= c <= rh X + s).
Proof.
  unfold proper. intro P. unfold r_mig. destruct (has0 (r_csub c X)) eqn:E.
  - apply has0_iff in E. simpl in E. lra.
  - assert (N : ~ (rl (r_csub c X) <= 0 <= rh (r_csub c X))) by (rewrite <- has0_iff, E; discriminate). simpl in N.
    simpl. destruct (Rlt_dec (rh X) c).
    + rewrite !Rabs_pos_eq by lra. rewrite Rmin_left by lra. lra.
    + rewrite !Rabs_left by lra. rewrite Rmin_right by lra. lra.
Qed.
Lemma midrad b : r_mid b - r_rad b = rl b /\ r_mid b + r_rad b = rh b.
Proof. unfold r_mid, r_rad. lra. Qed.

Lemma scaled_sign w a : 0 < w -> (0 <= w * a <-> 0 <= a).
Proof. intro. split; intro; nra. Qed.

(** ** C33 *)
Lemma tol_row m n A b x t i : proper_mat m n A -> (i < m)%nat ->
  (t <= r_rad (b i) - r_mag (r_csub (r_mid (b i)) (imv n A x i)) <->
   forall M, in_imat m n A M -> inI (shrink t b i) (times n M x i)).
Proof.
  intros P Hi. destruct (midrad (b i)) as [E1 E2].
  assert (Q : t <= r_rad (b i) - r_mag (r_csub (r_mid (b i)) (imv n A x i)) <-> r_mag (r_csub (r_mid (b i)) (imv n A x i)) <= r_rad (b i) - t) by lra.
  rewrite Q, mag_csub_le. split.
  - intros H M HM. destruct (imv_encl m n A x M i HM Hi). unfold inI, shrink; simpl. lra.
  - intro H. generalize (H _ (at_lo_in m n A x P)), (H _ (at_hi_in m n A x P)). unfold inI, shrink; simpl.
    rewrite <- (imv_lo m n A x i P Hi), <- (imv_hi m n A x i P Hi). lra.
Qed.
Lemma tol_slack k n A b x t : proper_mat (S k) n A ->
  (t <= tol_value k n A b x ones <-> tolerable (S k) n A (shrink t b) x).
Proof.
  intro P. unfold tol_value. rewrite le_vmin. unfold tolerable, in_ivec, tol_constituent, ones. split.
  - intros H M HM i Hi. specialize (H i Hi). rewrite Rmult_1_l in H. rewrite (tol_row (S k)) in H by assumption. auto.
  - intros H i Hi. rewrite Rmult_1_l. rewrite (tol_row (S k)) by assumption. auto.
Qed.
Lemma inI_ext X Y v : rl X = rl Y -> rh X = rh Y -> inI X v -> inI Y v.
Proof. unfold inI. intros -> ->. tauto. Qed.
Lemma shrink0 b i v : inI (shrink 0 b i) v <-> inI (b i) v.
Proof. unfold inI, shrink; simpl. lra. Qed.
Lemma tol_recognizes k n A b x w : proper_mat (S k) n A -> positive (S k) w ->
  (0 <= tol_value k n A b x w <-> tolerable (S k) n A b x).
Proof.
  intros P W. unfold tol_value. rewrite le_vmin. unfold tolerable, in_ivec, tol_constituent. split.
  - intros H M HM i Hi. specialize (H i Hi). rewrite scaled_sign in H by (apply W; lia). rewrite (tol_row (S k)) in H by assumption.
    apply shrink0. auto.
  - intros H i Hi. apply scaled_sign; [apply W; lia|]. rewrite (tol_row (S k)) by assumption. intros M HM. apply shrink0. auto.
Qed.

(** ** C34 *)
Lemma uni_row m n A b x t i : proper_mat m n A -> (i < m)%nat ->
  (t <= r_rad (b i) - r_mig (r_csub (r_mid (b i)) (imv n A x i)) <->
   exists v, inI (shrink t b i) v /\ inI (imv n A x i) v).
Proof.
  intros P Hi. destruct (midrad (b i)) as [E1 E2]. assert (PP := imv_proper n A x i).
  assert (Q : t <= r_rad (b i) - r_mig (r_csub (r_mid (b i)) (imv n A x i)) <-> r_mig (r_csub (r_mid (b i)) (imv n A x i)) <= r_rad (b i) - t) by lra.
  rewrite Q, mig_csub_le by assumption. unfold inI, shrink, proper in *; simpl. split.
  - intros [H1 H2]. exists (Rmax (rl (imv n A x i)) (rl (b i) + t)). unfold Rmax. destruct Rle_dec; lra.
  - intros (v & H1 & H2). lra.
Qed.
Lemma finite_choice m (Q : nat -> R -> Prop) : (forall i, (i < m)%nat -> exists v, Q i v) -> exists f, forall i, (i < m)%nat -> Q i (f i).
Proof.
  induction m; intro H; [exists (fun _ => 0); intros; lia|].
  destruct IHm as (f & Hf); [intros; apply H; lia|]. destruct (H m ltac:(lia)) as (v & Hv).
  exists (fun i => if Nat.eq_dec i m then v else f i). intros i Hi. destruct Nat.eq_dec as [->|]; [assumption | apply Hf; lia].
Qed.
Lemma united_rows m n A b x : proper_mat m n A ->
  (united m n A b x <-> forall i, (i < m)%nat -> exists v, inI (b i) v /\ inI (imv n A x i) v).
Proof.
  intro P. split.
  - intros (M & v & HM & Hv & S) i Hi. exists (v i). split; [now apply Hv|]. rewrite <- S by assumption. now apply imv_encl with m.
  - intro H. apply finite_choice in H. destruct H as (v & Hv).
    destruct (imv_attained m n A x v P) as (M & HM & E); [intros; apply Hv; assumption|].
    exists M, v. split; [assumption|]. split; [intros i Hi; apply Hv; assumption | exact E].
Qed.
Lemma uni_slack k n A b x t : proper_mat (S k) n A ->
  (t <= uni_value k n A b x ones <-> united (S k) n A (shrink t b) x).
Proof.
  intro P. unfold uni_value. rewrite le_vmin, united_rows by assumption. unfold uni_constituent, ones.
  split; intros H i Hi; specialize (H i Hi).
  - rewrite Rmult_1_l in H. apply (uni_row (S k)) in H; assumption.
  - rewrite Rmult_1_l. apply (uni_row (S k)); assumption.
Qed.
Lemma uni_recognizes k n A b x w : proper_mat (S k) n A -> positive (S k) w ->
  (0 <= uni_value k n A b x w <-> united (S k) n A b x).
Proof.
  intros P W. unfold uni_value. rewrite le_vmin, united_rows by assumption. unfold uni_constituent.
  split; intros H i Hi; specialize (H i Hi).
  - rewrite scaled_sign in H by (apply W; lia). apply (uni_row (S k)) in H; try assumption. destruct H as (v & H1 & H2). exists v. split; [now apply shrink0 | assumption].
  - rewrite scaled_sign by (apply W; lia). apply (uni_row (S k)); try assumption. destruct H as (v & H1 & H2). exists v. split; [now apply shrink0 | assumption].
Qed.
Lemma uss_recognizes k n A b x w : proper_mat (S k) n A -> proper_vec (S k) b -> positive (S k) w ->
  (0 <= uss_value k n A b x w <-> united (S k) n A b x).
Proof.
  intros P Pb W. unfold uss_value. rewrite le_vmin, united_rows by assumption. unfold uss_constituent.
  split; intros H i Hi; specialize (H i Hi); destruct (imv_midrad (S k) n A x i P Hi) as [E1 E2]; destruct (midrad (b i)) as [E3 E4];
    assert (PP := imv_proper n A x i); unfold proper in PP; specialize (Pb i Hi); unfold proper in Pb.
  - rewrite scaled_sign in H by (apply W; lia).
    assert (H' : Rabs (r_mid (b i) - mv n (mids A) x i) <= r_rad (b i) + mv n (rads A) (vabs x) i) by lra. apply Rabs_le_iff in H'.
    exists (Rmax (rl (imv n A x i)) (rl (b i))). unfold inI, Rmax. destruct Rle_dec; lra.
  - rewrite scaled_sign by (apply W; lia). destruct H as (v & H1 & H2). unfold inI in *.
    assert (Rabs (r_mid (b i) - mv n (mids A) x i) <= r_rad (b i) + mv n (rads A) (vabs x) i) by (apply Rabs_le_iff; lra). lra.
Qed.

(** ** C35 *)
Lemma cf_ends k n A (b : ivec) x i : proper_mat (S k) n A -> (i < S k)%nat ->
  cf_infs n (mids A) (rads A) (fun i => r_mid (b i)) x i = rl (r_csub (r_mid (b i)) (imv n A x i)) /\
  cf_sups n (mids A) (rads A) (fun i => r_mid (b i)) x i = rh (r_csub (r_mid (b i)) (imv n A x i)).
Proof.
  intros P Hi. destruct (imv_midrad (S k) n A x i P Hi) as [E1 E2]. unfold cf_infs, cf_sups; simpl. rewrite E1, E2. split; reflexivity.
Qed.
Lemma argmin_ext k f g : (forall i, (i <= k)%nat -> f i = g i) -> argmin k f = argmin k g.
Proof.
  induction k; simpl; intro H; [reflexivity|]. rewrite <- IHk by (intros; apply H; lia).
  destruct (argmin_spec k f) as (L & _ & _). rewrite <- H, <- (H (argmin k f)) by lia. reflexivity.
Qed.
Lemma tol_fg_value k n A b w x : proper_mat (S k) n A -> fst (tol_fg k n A b w x) = - tol_value k n A b x w.
Proof.
  intro P. unfold tol_fg, tol_calcfg, tol_value. cbv zeta. cbn [fst].
  destruct (argmin_spec k (tol_constituent n A b x w)) as (L & E & _). rewrite E.
  assert (F : forall i, (i <= k)%nat -> w i * (r_rad (b i) - Rmax (Rabs (cf_infs n (mids A) (rads A) (fun i => r_mid (b i)) x i)) (Rabs (cf_sups n (mids A) (rads A) (fun i => r_mid (b i)) x i))) = tol_constituent n A b x w i).
  { intros i Hi. destruct (cf_ends k n A b x i P) as [-> ->]; [lia|]. reflexivity. }
  rewrite (argmin_ext k _ _ F). rewrite F by assumption. reflexivity.
Qed.
Lemma cf_mig_eq X : proper X -> cf_mig (rl X) (rh X) = r_mig X.
Proof.
  unfold proper, cf_mig, r_mig. intro P. destruct (has0 X) eqn:E; destruct Rle_dec as [H|H]; try reflexivity.
  - apply has0_iff in E. exfalso. apply H. nra.
  - assert (N : ~ (rl X <= 0 <= rh X)) by (rewrite <- has0_iff, E; discriminate).
    destruct (Rlt_dec 0 (rl X)); [nra|]. assert (rh X < 0) by lra. nra.
Qed.
Lemma csub_proper c X : proper X -> proper (r_csub c X).
Proof. unfold proper; simpl. lra. Qed.
Lemma uni_fg_value k n A b w x : proper_mat (S k) n A -> fst (uni_fg k n A b w x) = - uni_value k n A b x w.
Proof.
  intro P. unfold uni_fg, uni_calcfg, uni_value. cbv zeta. cbn [fst].
  destruct (argmin_spec k (uni_constituent n A b x w)) as (L & E & _). rewrite E.
  assert (F : forall i, (i <= k)%nat -> w i * (r_rad (b i) - cf_mig (cf_infs n (mids A) (rads A) (fun i => r_mid (b i)) x i) (cf_sups n (mids A) (rads A) (fun i => r_mid (b i)) x i)) = uni_constituent n A b x w i).
  { intros i Hi. destruct (cf_ends k n A b x i P) as [-> ->]; [lia|]. unfold uni_constituent. rewrite cf_mig_eq; [reflexivity | apply csub_proper, imv_proper]. }
  rewrite (argmin_ext k _ _ F). rewrite F by assumption. reflexivity.
Qed.
Lemma uss_fg_value k n A b w x : fst (uss_fg k n A b w x) = - uss_value k n A b x w.
Proof.
  unfold uss_fg, uss_calcfg, uss_value. cbv zeta. cbn [fst].
  destruct (argmin_spec k (uss_constituent n A b x w)) as (L & E & _). rewrite E. reflexivity.
Qed.

(** the lower end of [A y] lies below any fixed selection, in particular the one made at [x] *)
Lemma imv_lo_le m n A x y i : proper_mat m n A -> (i < m)%nat -> rl (imv n A y i) <= times n (at_lo A x) y i.
Proof. intros P Hi. apply (imv_encl m n A y (at_lo A x) i); auto using at_lo_in. Qed.
Lemma imv_hi_ge m n A x y i : proper_mat m n A -> (i < m)%nat -> times n (at_hi A x) y i <= rh (imv n A y i).
Proof. intros P Hi. apply (imv_encl m n A y (at_hi A x) i); auto using at_hi_in. Qed.
Lemma dot_minus n g y x : dot n g (minus y x) = dot n g y - dot n g x.
Proof. unfold dot, minus. rewrite <- total_minus. apply total_ext. intros; ring. Qed.
Lemma dot_opp n g y : dot n (fun j => - g j) y = - dot n g y.
Proof. unfold dot. rewrite <- total_opp. apply total_ext. intros; ring. Qed.
Lemma dot_scal n c g y : dot n (fun j => c * g j) y = c * dot n g y.
Proof. unfold dot. rewrite <- total_scal. apply total_ext. intros; ring. Qed.
Lemma times_dot n M x i : times n M x i = dot n (M i) x.
Proof. reflexivity. Qed.

Lemma tol_subgradient k n A b w x : proper_mat (S k) n A -> non_negative (S k) w ->
  subgradient n (fun y => - tol_value k n A b y w) x (snd (tol_fg k n A b w x)).
Proof.
  intros P W y. unfold tol_fg, tol_calcfg. cbv zeta. cbn [snd].
  set (t := fun i => _ * _). set (mc := argmin k t).
  assert (F : forall i, (i <= k)%nat -> t i = tol_constituent n A b x w i).
  { intros i Hi. unfold t. destruct (cf_ends k n A b x i P) as [-> ->]; [lia|]. reflexivity. }
  destruct (argmin_spec k t) as (L & E & _). fold mc in L, E.
  destruct (cf_ends k n A b x mc P) as [EI ES]; [lia|].
  assert (V : tol_value k n A b x w = w mc * (r_rad (b mc) - r_mag (r_csub (r_mid (b mc)) (imv n A x mc)))).
  { unfold tol_value. rewrite <- (vmin_ext k t _ F), E. apply F. exact L. }
  assert (U : tol_value k n A b y w <= w mc * (r_rad (b mc) - r_mag (r_csub (r_mid (b mc)) (imv n A y mc)))) by (apply (vmin_le k (tol_constituent n A b y w)); exact L).
  assert (Wm : 0 <= w mc) by (apply W; lia).
  rewrite V. assert (PX := imv_proper n A x mc). unfold proper in PX.
  assert (M1 := Rmax_l (Rabs (r_mid (b mc) - rh (imv n A y mc))) (Rabs (r_mid (b mc) - rl (imv n A y mc)))).
  assert (M2 := Rmax_r (Rabs (r_mid (b mc) - rh (imv n A y mc))) (Rabs (r_mid (b mc) - rl (imv n A y mc)))).
  rewrite EI, ES. cbn [rl rh r_csub].
  destruct Rle_dec as [H|H].
  - (* sups attain the magnitude *)
    assert (MX : r_mag (r_csub (r_mid (b mc)) (imv n A x mc)) = r_mid (b mc) - rl (imv n A x mc)).
    { unfold r_mag; simpl. rewrite Rmax_right; [apply Rabs_pos_eq; lra|]. rewrite (Rabs_pos_eq (_ - rl _)) by lra. apply Rabs_le_iff. lra. }
    assert (MY : r_mid (b mc) - rl (imv n A y mc) <= r_mag (r_csub (r_mid (b mc)) (imv n A y mc))).
    { unfold r_mag; simpl. eapply Rle_trans; [apply Rle_abs | exact M2]. }
    assert (D := imv_lo_le (S k) n A x y mc P ltac:(lia)).
    rewrite MX. rewrite dot_opp, dot_scal.
    replace (dot n (fun j => pick (x j) (infs_of A mc j) (sups_of A mc j)) (minus y x)) with (times n (at_lo A x) y mc - times n (at_lo A x) x mc) by (rewrite !times_dot, <- dot_minus; reflexivity).
    rewrite <- (imv_lo (S k) n A x mc P ltac:(lia)). nra.
  - assert (MX : r_mag (r_csub (r_mid (b mc)) (imv n A x mc)) = rh (imv n A x mc) - r_mid (b mc)).
    { unfold r_mag; simpl. rewrite Rmax_left; [rewrite Rabs_left1 by lra; lra|]. rewrite (Rabs_left1 (_ - rh _)) by lra. apply Rabs_le_iff. lra. }
    assert (MY : rh (imv n A y mc) - r_mid (b mc) <= r_mag (r_csub (r_mid (b mc)) (imv n A y mc))).
    { unfold r_mag; simpl. eapply Rle_trans; [|exact M1]. rewrite <- Rabs_Ropp. eapply Rle_trans; [|apply Rle_abs]. lra. }
    assert (D := imv_hi_ge (S k) n A x y mc P ltac:(lia)).
    rewrite MX. rewrite dot_opp, dot_scal.
    replace (dot n (fun j => pick (x j) (sups_of A mc j) (infs_of A mc j)) (minus y x)) with (times n (at_hi A x) y mc - times n (at_hi A x) x mc) by (rewrite !times_dot, <- dot_minus; reflexivity).
    rewrite <- (imv_hi (S k) n A x mc P ltac:(lia)). nra.
Qed.
