(** Proofs about the Rohn, HBR, Neumaier and ChebNorm models. *)
From Coq Require Import Reals ZArith List Bool Arith Lia Lra Psatz.
From Verif Require Import Exact Recog SpecExact ExactProofs RecogProofs Estim SpecEstim.
Import ListNotations.
Open Scope R_scope.

(** ** Sums *)
Lemma total_app a b f : total (a + b) f = total a f + total b (fun j => f (a + j)%nat).
Proof.
  induction b; simpl; [rewrite Nat.add_0_r; lra|]. rewrite Nat.add_succ_r. simpl. rewrite IHb. lra.
Qed.
Lemma total_pick n k f : (k < n)%nat -> (forall j, (j < n)%nat -> j <> k -> f j = 0) -> total n f = f k.
Proof.
  induction n; intros Hk H; [lia|]. simpl. destruct (Nat.eq_dec k n) as [->|].
  - rewrite (total_0 n f) by (intros; apply H; lia). lra.
  - rewrite IHn by (try lia; intros; apply H; lia). rewrite (H n) by lia. lra.
Qed.
Lemma total_scal_r n f c : total n (fun j => f j * c) = total n f * c.
Proof. induction n; simpl; [lra|]. rewrite IHn. lra. Qed.
Lemma vsum_eq n f : vsum n f = total n f. Proof. apply vsum_total. Qed.
Lemma mv_times n M x i : mv n M x i = times n M x i.
Proof. unfold mv, times. apply vsum_eq. Qed.
Lemma times_mm m n C M x i : times n (fun i j => total m (fun l => C i l * M l j)) x i = total m (fun l => C i l * times n M x l).
Proof.
  unfold times. rewrite (total_ext n _ (fun j => total m (fun l => C i l * M l j * x j))) by (intros; now rewrite total_scal_r).
  rewrite total_swap. apply total_ext. intros l _. rewrite <- total_scal. apply total_ext. intros. ring.
Qed.
Lemma rimm_encl m n A M C i j : in_imat m n A M -> (j < n)%nat -> inI (rimm m C A i j) (total m (fun l => C i l * M l j)).
Proof.
  intros H Hj. unfold inI, rimm. rewrite isum_lo, isum_hi.
  split; apply total_le; intros l Hl; destruct (scale_in (C i l) (A l j) (M l j) (H l j Hl Hj)); lra.
Qed.
Lemma rimv_encl m b v C i : in_ivec m b v -> inI (rimv m C b i) (total m (fun l => C i l * v l)).
Proof.
  intros H. unfold inI, rimv. rewrite isum_lo, isum_hi.
  split; apply total_le; intros l Hl; destruct (scale_in (C i l) (b l) (v l) (H l Hl)); lra.
Qed.
Lemma precond_solves m n A b M v x C : in_imat m n A M -> in_ivec m b v -> solves m n M v x ->
  united n n (rimm m C A) (rimv m C b) x.
Proof.
  intros HM Hv S. exists (fun i j => total m (fun l => C i l * M l j)), (fun i => total m (fun l => C i l * v l)).
  split; [intros i j Hi Hj; now apply (rimm_encl m n)|]. split; [intros i Hi; now apply rimv_encl|].
  intros i Hi. rewrite times_mm. apply total_ext. intros l Hl. now rewrite (S l Hl).
Qed.
(** The largest ratio e_i / d_i. *)
Lemma max_ratio k e d : positive (S k) d -> exists i, (i < S k)%nat /\ forall j, (j < S k)%nat -> e j * d i <= e i * d j.
Proof.
  intro P. destruct (vmax_in k (fun j => e j / d j)) as (i & Hi & E). exists i. split; [lia|]. intros j Hj.
  assert (T := le_vmax k (fun j => e j / d j) j ltac:(lia)). cbv beta in T. rewrite E in T.
  assert (Pi := P i ltac:(lia)). assert (Pj := P j Hj).
  apply (Rmult_le_compat_r (d i * d j)) in T; [|nra]. field_simplify in T; lra.
Qed.

(** ** Rohn, tolerable solution set *)
Lemma split_range n f : total (2 * n) f = total n f + total n (fun j => f (n + j)%nat).
Proof. replace (2 * n)%nat with (n + n)%nat by lia. apply total_app. Qed.
Lemma rt_row1 m n A y i : (i < m)%nat -> times (2 * n) (rt_A m n A) y i = total n (fun j => rh (A i j) * y j - rl (A i j) * y (n + j)%nat).
Proof.
  intro Hi. unfold times. rewrite split_range, total_minus. unfold Rminus. f_equal; [|rewrite <- total_opp]; apply total_ext; intros j Hj; unfold rt_A;
    destruct (Nat.ltb_spec i m); try lia.
  - destruct (Nat.ltb_spec j n); [reflexivity | lia].
  - destruct (Nat.ltb_spec (n + j) n); [lia|]. replace (n + j - n)%nat with j by lia. ring.
Qed.
Lemma rt_row2 m n A y i : (i < m)%nat -> times (2 * n) (rt_A m n A) y (m + i)%nat = total n (fun j => rh (A i j) * y (n + j)%nat - rl (A i j) * y j).
Proof.
  intro Hi. unfold times. rewrite split_range, total_minus. unfold Rminus. rewrite Rplus_comm. f_equal; [|rewrite <- total_opp]; apply total_ext; intros j Hj; unfold rt_A;
    destruct (Nat.ltb_spec (m + i) m); try lia; destruct (Nat.ltb_spec (m + i) (2 * m)); try lia; replace (m + i - m)%nat with i by lia.
  - destruct (Nat.ltb_spec (n + j) n); [lia|]. now replace (n + j - n)%nat with j by lia.
  - destruct (Nat.ltb_spec j n); [ring | lia].
Qed.
Lemma rt_row3 m n A y j : (j < 2 * n)%nat -> times (2 * n) (rt_A m n A) y (2 * m + j)%nat = - y j.
Proof.
  intro Hj. unfold times. rewrite (total_pick _ j); [|exact Hj|].
  2: { intros l Hl Ne; unfold rt_A.
    destruct (Nat.ltb_spec (2 * m + j) m); try lia; destruct (Nat.ltb_spec (2 * m + j) (2 * m)); try lia.
    unfold eye. replace (2 * m + j - 2 * m)%nat with j by lia. destruct (Nat.eqb_spec j l); [lia | ring]. }
  unfold rt_A. destruct (Nat.ltb_spec (2 * m + j) m); try lia; destruct (Nat.ltb_spec (2 * m + j) (2 * m)); try lia.
  unfold eye. replace (2 * m + j - 2 * m)%nat with j by lia. rewrite Nat.eqb_refl. ring.
Qed.
Lemma rt_feasible m n A b y : feasible (2 * (m + n)) (2 * n) (rt_A m n A) (rt_b m b) y <->
  (forall i, (i < m)%nat -> total n (fun j => rh (A i j) * y j - rl (A i j) * y (n + j)%nat) <= rh (b i)) /\
  (forall i, (i < m)%nat -> total n (fun j => rh (A i j) * y (n + j)%nat - rl (A i j) * y j) <= - rl (b i)) /\
  (forall j, (j < 2 * n)%nat -> 0 <= y j).
Proof.
  assert (B1 : forall i, (i < m)%nat -> rt_b m b i = rh (b i)) by (intros i Hi; unfold rt_b; destruct (Nat.ltb_spec i m); [reflexivity|lia]).
  assert (B2 : forall i, (i < m)%nat -> rt_b m b (m + i)%nat = - rl (b i)).
  { intros i Hi; unfold rt_b. destruct (Nat.ltb_spec (m + i) m); [lia|]. destruct (Nat.ltb_spec (m + i) (2 * m)); [|lia]. now replace (m + i - m)%nat with i by lia. }
  assert (B3 : forall j, rt_b m b (2 * m + j)%nat = 0).
  { intros j; unfold rt_b. destruct (Nat.ltb_spec (2 * m + j) m); [lia|]. destruct (Nat.ltb_spec (2 * m + j) (2 * m)); [lia|reflexivity]. }
  split.
  - intro F. split; [|split].
    + intros i Hi. assert (T := F i ltac:(lia)). now rewrite rt_row1, B1 in T.
    + intros i Hi. assert (T := F (m + i)%nat ltac:(lia)). now rewrite rt_row2, B2 in T.
    + intros j Hj. assert (T := F (2 * m + j)%nat ltac:(lia)). rewrite rt_row3, B3 in T by exact Hj. lra.
  - intros (F1 & F2 & F3) i Hi. destruct (Nat.lt_ge_cases i m) as [L|L]; [rewrite rt_row1, B1 by exact L; auto|].
    destruct (Nat.lt_ge_cases i (2 * m)) as [L2|L2].
    + replace i with (m + (i - m))%nat by lia. rewrite rt_row2, B2 by lia. apply F2. lia.
    + replace i with (2 * m + (i - 2 * m))%nat by lia. rewrite rt_row3, B3 by lia. assert (T := F3 (i - 2 * m)%nat ltac:(lia)). lra.
Qed.
Definition fold_pos (n : nat) (y : vec) : vec := fun j => y j - y (n + j)%nat.
Definition unfold_pos (n : nat) (x : vec) : vec := fun j => if (j <? n)%nat then Rmax (x j) 0 else Rmax (- x (j - n)%nat) 0.
Lemma rt_sound m n A b y : proper_mat m n A -> feasible (2 * (m + n)) (2 * n) (rt_A m n A) (rt_b m b) y -> tolerable m n A b (fold_pos n y).
Proof.
  intros P F. apply rt_feasible in F. destruct F as (F1 & F2 & F3). intros M HM i Hi. unfold times, fold_pos. split.
    assert (T := F2 i Hi). rewrite <- (Ropp_involutive (rl (b i))). apply Ropp_le_cancel. rewrite Ropp_involutive, <- total_opp.
    eapply Rle_trans; [|exact T]. apply total_le. intros j Hj. specialize (HM i j Hi Hj). unfold inI in HM.
    assert (0 <= y j) by (apply F3; lia). assert (0 <= y (n + j)%nat) by (apply F3; lia). nra.
  - eapply Rle_trans; [|apply F1; exact Hi]. apply total_le. intros j Hj. specialize (HM i j Hi Hj). unfold inI in HM.
    assert (0 <= y j) by (apply F3; lia). assert (0 <= y (n + j)%nat) by (apply F3; lia). nra.
Qed.
Lemma unfold_lo n x j : (j < n)%nat -> unfold_pos n x j = Rmax (x j) 0.
Proof. intro. unfold unfold_pos. destruct (Nat.ltb_spec j n); [reflexivity | lia]. Qed.
Lemma unfold_hi n x j : (j < n)%nat -> unfold_pos n x (n + j)%nat = Rmax (- x j) 0.
Proof. intro. unfold unfold_pos. destruct (Nat.ltb_spec (n + j) n); [lia|]. now replace (n + j - n)%nat with j by lia. Qed.
Lemma fold_unfold n x j : (j < n)%nat -> fold_pos n (unfold_pos n x) j = x j.
Proof. intro. unfold fold_pos. rewrite (unfold_lo n x j), (unfold_hi n x j) by assumption. unfold Rmax. repeat destruct Rle_dec; lra. Qed.
Lemma rt_complete m n A b x : proper_mat m n A -> tolerable m n A b x -> feasible (2 * (m + n)) (2 * n) (rt_A m n A) (rt_b m b) (unfold_pos n x).
Proof.
  intros P T. apply rt_feasible. split; [|split].
  - intros i Hi. destruct (T (at_hi A x) (at_hi_in m n A x P) i Hi) as [_ U]. eapply Rle_trans; [|exact U]. unfold times.
    apply total_le. intros j Hj. rewrite (unfold_lo n x j), (unfold_hi n x j) by assumption. unfold at_hi. destruct Rle_dec.
    + rewrite (Rmax_left (x j) 0), (Rmax_right (- x j) 0) by lra. lra.
    + rewrite (Rmax_right (x j) 0), (Rmax_left (- x j) 0) by lra. lra.
  - intros i Hi. destruct (T (at_lo A x) (at_lo_in m n A x P) i Hi) as [U _]. apply Ropp_le_contravar in U. eapply Rle_trans; [|exact U]. unfold times. rewrite <- total_opp.
    apply total_le. intros j Hj. rewrite (unfold_lo n x j), (unfold_hi n x j) by assumption. unfold at_lo. destruct Rle_dec.
    + rewrite (Rmax_left (x j) 0), (Rmax_right (- x j) 0) by lra. lra.
    + rewrite (Rmax_right (x j) 0), (Rmax_left (- x j) 0) by lra. lra.
  - intros j Hj. unfold unfold_pos. destruct (j <? n)%nat; apply Rmax_r.
Qed.
Lemma rt_dot n nu y : (nu < n)%nat -> dot (2 * n) (rt_c n nu) y = fold_pos n y nu.
Proof.
  intro H. unfold dot. rewrite split_range. rewrite (total_pick n nu), (total_pick n nu); try assumption.
  - unfold rt_c, fold_pos. rewrite Nat.eqb_refl. destruct (Nat.eqb_spec (n + nu) nu); [lia|]. rewrite (Nat.add_comm n nu), Nat.eqb_refl. lra.
  - intros j Hj Ne. unfold rt_c. destruct (Nat.eqb_spec (n + j) nu); [lia|]. destruct (Nat.eqb_spec (n + j) (nu + n)); [lia|]. ring.
  - intros j Hj Ne. unfold rt_c. destruct (Nat.eqb_spec j nu); [lia|]. destruct (Nat.eqb_spec j (nu + n)); [lia|]. ring.
Qed.
Lemma dot_opp n c y : dot n (fun j => - c j) y = - dot n c y.
Proof. unfold dot. rewrite <- total_opp. apply total_ext. intros. ring. Qed.
Lemma dot_comm n c y : total n (fun j => y j * c j) = dot n c y.
Proof. unfold dot. apply total_ext. intros. ring. Qed.
(** The solver is right on the problems it is given: columns nu = 0..n-1, both signs. *)
Definition lp_calls_ok (lp : lp_solver) m n A b := forall nu, (nu < n)%nat ->
  lp_truthful (2 * (m + n)) (2 * n) (rt_c n nu) (rt_A m n A) (rt_b m b) (lp (2 * (m + n))%nat (2 * n)%nat (rt_c n nu) (rt_A m n A) (rt_b m b)) /\
  lp_truthful (2 * (m + n)) (2 * n) (fun j => - rt_c n nu j) (rt_A m n A) (rt_b m b) (lp (2 * (m + n))%nat (2 * n)%nat (fun j => - rt_c n nu j) (rt_A m n A) (rt_b m b)).
Lemma rt_algo_range lp m n A b nu X : proper_mat m n A -> lp_calls_ok lp m n A b -> (nu < n)%nat -> rt_algo lp m n A b nu = Some X ->
  coordinate_range (tolerable m n A b) nu X.
Proof.
  intros P L Hn H. destruct (L nu Hn) as [L1 L2]. unfold rt_algo in H.
  destruct (lp _ _ (rt_c n nu) _ _) as [y|]; [|discriminate]. destruct (lp _ _ (fun j => - rt_c n nu j) _ _) as [z|]; [|discriminate].
  injection H as <-. rewrite !vsum_eq, !dot_comm, dot_opp. destruct L1 as [Fy Oy]. destruct L2 as [Fz Oz].
  assert (RW : forall q, dot (2 * n) (fun j => - rt_c n nu j) q = - fold_pos n q nu) by (intro; rewrite dot_opp, rt_dot; auto).
  change (n + (n + 0))%nat with (2 * n)%nat. rewrite !rt_dot by exact Hn. split; [|split].
  - intros x Hx. apply (rt_complete m n A b x P) in Hx. assert (O1 := Oy _ Hx). assert (O2 := Oz _ Hx).
    rewrite !rt_dot in O1 by exact Hn. rewrite !RW in O2. rewrite fold_unfold in * by exact Hn. unfold inI; simpl. lra.
  - exists (fold_pos n y). split; [now apply rt_sound | reflexivity].
  - exists (fold_pos n z). split; [now apply rt_sound | simpl; ring].
Qed.
Lemma all_some_spec {A} (l : list (option A)) r : all_some l = Some r -> l = map Some r.
Proof.
  revert r. induction l as [|[a|] l IH]; intros r H; simpl in H; [injection H as <-; reflexivity| |discriminate].
  destruct (all_some l) as [q|]; [|discriminate]. injection H as <-. simpl. f_equal. now apply IH.
Qed.
Lemma all_some_none {A} (l : list (option A)) : (forall o, In o l -> o <> None) -> exists r, all_some l = Some r.
Proof.
  induction l as [|[a|] l IH]; intro H; simpl; [eauto| |exfalso; apply (H None); [now left|reflexivity]].
  destruct IH as (r & ->); [intros; apply H; now right|]. eauto.
Qed.
Lemma all_some_nth {A} (f : nat -> option A) n r d : all_some (map f (seq 0 n)) = Some r -> length r = n /\ forall j, (j < n)%nat -> f j = Some (nth j r d).
Proof.
  intro H. apply all_some_spec in H. assert (Len : length r = n) by (rewrite <- (map_length Some r), <- H, map_length, seq_length; reflexivity).
  split; [exact Len|]. intros j Hj. assert (E : nth j (map f (seq 0 n)) None = nth j (map Some r) None) by now rewrite H.
  rewrite (nth_indep _ None (f 0%nat)) in E by (rewrite map_length, seq_length; exact Hj). rewrite map_nth, seq_nth in E by exact Hj.
  rewrite (nth_indep _ None (Some d)) in E by (rewrite map_length; lia). now rewrite map_nth in E.
Qed.
Theorem rohn_tol_hull lp m n A b tolval r : proper_mat m n A -> lp_calls_ok lp m n A b -> rohn_tol lp m n A b tolval = Some r ->
  length r = n /\ forall j, (j < n)%nat -> coordinate_range (tolerable m n A b) j (nth j r (mkr 0 0)).
Proof.
  intros P L H. unfold rohn_tol in H. destruct Rlt_dec; [discriminate|]. destruct (all_some_nth _ _ _ (mkr 0 0) H) as [Len E].
  split; [exact Len|]. intros j Hj. exact (rt_algo_range lp m n A b j _ P L Hj (E j Hj)).
Qed.
(** It does return when the set is non-empty and bounded and Tol.maximize
    reported a non-negative value; and it raises when the set is empty. *)
Theorem rohn_tol_returns lp m n A b tolval : proper_mat m n A -> lp_calls_ok lp m n A b -> 0 <= tolval ->
  (exists x, tolerable m n A b x) -> (exists t, forall x j, tolerable m n A b x -> (j < n)%nat -> Rabs (x j) <= t) ->
  exists r, rohn_tol lp m n A b tolval = Some r.
Proof.
  intros P L Ht (x & Hx) (t & Bt). unfold rohn_tol. destruct Rlt_dec; [lra|]. apply all_some_none. intros o Ho. apply in_map_iff in Ho.
  destruct Ho as (nu & <- & Hn). apply in_seq in Hn. destruct (L nu ltac:(lia)) as [L1 L2]. assert (Fx := rt_complete m n A b x P Hx).
  assert (RW : forall q, dot (2 * n) (fun j => - rt_c n nu j) q = - fold_pos n q nu) by (intro; rewrite dot_opp, rt_dot; auto; lia).
  unfold rt_algo. destruct (lp _ _ (rt_c n nu) _ _) as [y|].
  - destruct (lp _ _ (fun j => - rt_c n nu j) _ _) as [z|]; [discriminate|]. destruct L2 as [L2|L2]; [exfalso; exact (L2 _ Fx)|].
    destruct (L2 (- t)) as (y' & Fy & Ly). rewrite RW in Ly. assert (T := Bt _ nu (rt_sound _ _ _ _ _ P Fy) ltac:(lia)). apply Rabs_le_iff in T. lra.
  - destruct L1 as [L1|L1]; [exfalso; exact (L1 _ Fx)|].
    destruct (L1 (- t)) as (y' & Fy & Ly). rewrite rt_dot in Ly by lia. assert (T := Bt _ nu (rt_sound _ _ _ _ _ P Fy) ltac:(lia)). apply Rabs_le_iff in T. lra.
Qed.
Theorem rohn_tol_empty lp m n A b tolval : (0 < n)%nat -> proper_mat m n A -> lp_calls_ok lp m n A b -> (forall x, ~ tolerable m n A b x) ->
  rohn_tol lp m n A b tolval = None.
Proof.
  intros Hn P L E. destruct (rohn_tol lp m n A b tolval) as [r|] eqn:H; [|reflexivity]. exfalso.
  destruct (rohn_tol_hull lp m n A b tolval r P L H) as [_ R]. destruct (R 0%nat Hn) as (_ & (x & Hx & _) & _). exact (E x Hx).
Qed.
