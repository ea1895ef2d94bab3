(** ISPAE with columns of order one is WILS. *)
From Coq Require Import Reals List Arith Bool Lia Lra.
From Verif Require Import Ralgb5 Exact Recog SpecExact ExactProofs RecogProofs Models SpecModels EstimProofs WilsProofs RecogRefute.
Import ListNotations.
Open Scope R_scope.

Lemma fold_min_stays (l : list R) v : (forall y, In y l -> v <= y) -> fold_left Rmin l v = v.
Proof. induction l as [|a l IH]; intro H; [reflexivity|]. cbn [fold_left]. rewrite Rmin_left by (apply H; now left). apply IH. intros y Hy. apply H. now right. Qed.
Lemma fold_max_stays (l : list R) v : (forall y, In y l -> y <= v) -> fold_left Rmax l v = v.
Proof. induction l as [|a l IH]; intro H; [reflexivity|]. cbn [fold_left]. rewrite Rmax_left by (apply H; now left). apply IH. intros y Hy. apply H. now right. Qed.
Lemma r_eta X Y : rl X = rl Y -> rh X = rh Y -> X = Y.
Proof. destruct X as [a b], Y as [c d]. cbn [rl rh]. congruence. Qed.
Lemma basis_one bk x : basis bk 1 x = match bk with Monom | Chebyshev | Legendre => x | Hermite => 2 * x | Laguerre => 1 - x end.
Proof. destruct bk; reflexivity. Qed.
Lemma column_one bk roots c X : proper X -> value_of_one_col bk roots [c] [1%nat] X = Some (r_scale c (first_range bk X)).
Proof.
  intro P. unfold proper in P. unfold value_of_one_col. cbn [filter].
  destruct (Rle_dec (rl X) (rl X)) as [_|N]; [|lra]. destruct (Rle_dec (rl X) (rh X)) as [_|N]; [|lra]. destruct (Rle_dec (rh X) (rh X)) as [_|N]; [|lra]. cbn [map fold_left].
  set (f := poly bk [c] [1%nat]). set (ins := filter _ (roots [c] [1%nat])).
  assert (F : forall d, f d = c * basis bk 1 d) by (intro d; unfold f; cbn [poly]; ring).
  assert (B : forall y, In y (map f ins) -> Rmin (f (rl X)) (f (rh X)) <= y <= Rmax (f (rl X)) (f (rh X))).
  { intros y Hy. apply in_map_iff in Hy. destruct Hy as (d & <- & Hd). apply filter_In in Hd. destruct Hd as [_ Hd].
    destruct (Rle_dec (rl X) d) as [H1|]; [|discriminate]. destruct (Rle_dec d (rh X)) as [H2|]; [|discriminate]. rewrite !F, !basis_one.
    assert (D : 0 <= c \/ c <= 0) by lra. unfold Rmin, Rmax.
    destruct bk, D; repeat destruct Rle_dec; split; nra. }
  rewrite fold_min_stays by (intros y Hy; apply B; exact Hy). rewrite fold_max_stays by (intros y Hy; apply B; exact Hy).
  f_equal. rewrite !F, !basis_one. apply r_eta; unfold r_scale, first_range; destruct bk; cbn [rl rh]; try reflexivity; try (rewrite Rmin_comm; reflexivity); rewrite Rmax_comm; reflexivity.
Qed.
Lemma scale_one X : proper X -> r_scale 1 X = X.
Proof. intro P. unfold proper in P. apply r_eta; unfold r_scale; cbn [rl rh]; [rewrite Rmin_left|rewrite Rmax_right]; lra. Qed.
Lemma first_proper bk X : proper X -> proper (first_range bk X).
Proof. unfold proper. destruct bk; cbn [first_range rl rh]; lra. Qed.
Lemma value_one bk roots cols : forall beta, length beta = length cols -> Forall (fun c => fst c = 1%nat /\ proper (snd c)) cols ->
  ispae_value bk roots beta cols = Some (row_at (map (fun c => first_range bk (snd c)) cols) beta).
Proof.
  induction cols as [|[o X] cols IH]; intros beta L F; [destruct beta; reflexivity|]. destruct beta as [|c beta]; [discriminate|]. inversion F as [|? ? [Ho PX] F']; subst. cbn [fst snd] in *. subst o.
  cbn [ispae_value firstn skipn seq map row_at]. rewrite column_one by exact PX. rewrite IH; [reflexivity|simpl in L; lia|exact F'].
Qed.
Lemma expand_one bk roots cols : Forall (fun c => fst c = 1%nat /\ proper (snd c)) cols -> expand_row bk roots cols = Some (map (fun c => first_range bk (snd c)) cols).
Proof.
  unfold expand_row. induction cols as [|[o X] cols IH]; intro F; [reflexivity|]. inversion F as [|? ? [Ho PX] F']; subst. cbn [fst snd] in *. subst o.
  cbn [flat_map fst snd seq map app opt_all]. rewrite column_one by exact PX. rewrite (IH F'). cbn [map snd]. rewrite scale_one by (apply first_proper; exact PX). reflexivity.
Qed.
Lemma list_of_nth {T} (l : list T) d : l = map (fun j => nth j l d) (seq 0 (length l)).
Proof.
  induction l as [|a l IH]; [reflexivity|]. cbn [length seq map nth]. f_equal. rewrite <- seq_shift, map_map. exact IH.
Qed.
Lemma columns_map bk rows i : map (fun c => first_range bk (snd c)) (rows i) = map (column_matrix bk rows i) (seq 0 (length (rows i))).
Proof. rewrite (list_of_nth (rows i) (1%nat, r_point 0)) at 1. rewrite map_map. reflexivity. Qed.
Lemma vsum_front n f : vsum (S n) f = f O + vsum n (fun j => f (S j)).
Proof. induction n as [|n IH]; [simpl; ring|]. cbn [vsum] in *. rewrite IH. ring. Qed.
Lemma row_at_sums (B : nat -> rit) (x : vec) N : forall s, let Z := row_at (map B (seq s N)) (map x (seq s N)) in
  rl Z = vsum N (fun j => rl (r_scale (x (s + j)%nat) (B (s + j)%nat))) /\ rh Z = vsum N (fun j => rh (r_scale (x (s + j)%nat) (B (s + j)%nat))).
Proof.
  induction N as [|N IH]; intro s; [split; reflexivity|]. cbn [seq map row_at]. destruct (IH (S s)) as [IL IR]. cbv zeta. unfold r_add. cbn [rl rh]. rewrite IL, IR, !vsum_front, Nat.add_0_r.
  split; f_equal; rewrite !vsum_eq; apply total_ext; intros j _; replace (s + S j)%nat with (S s + j)%nat by lia; reflexivity.
Qed.
Lemma scale_ends c X : proper X -> rh (r_scale c X) = r_mid X * c + r_rad X * Rabs c /\ rl (r_scale c X) = r_mid X * c - r_rad X * Rabs c.
Proof.
  unfold proper, r_scale, r_mid, r_rad. intro P. cbn [rl rh]. unfold Rabs. destruct (Rcase_abs c); split; first [rewrite Rmax_left by nra|rewrite Rmax_right by nra|rewrite Rmin_left by nra|rewrite Rmin_right by nra]; lra.
Qed.
Section Row.
Variables (bk : basis_kind) (roots : list R -> list nat -> list R) (k N : nat) (rows : nat -> list (nat * rit)) (y : ivec) (w x : vec).
Hypothesis FO : first_order k N rows.
Let A := column_matrix bk rows.
Let beta := map x (seq 0 N).
Lemma col_proper : proper_mat (S k) N A.
Proof.
  intros i j Hi Hj. destruct (FO i Hi) as [L F]. apply first_proper. apply (proj1 (Forall_forall _ _) F). apply nth_In. rewrite L. exact Hj.
Qed.
Lemma value_at i : (i < S k)%nat -> ispae_value bk roots beta (rows i) = Some (row_at (map (A i) (seq 0 N)) beta).
Proof.
  intro Hi. destruct (FO i Hi) as [L F]. rewrite value_one; [|unfold beta; rewrite map_length, seq_length; congruence|exact F]. rewrite columns_map, L. reflexivity.
Qed.
Lemma value_ends i : (i < S k)%nat -> let V := row_at (map (A i) (seq 0 N)) beta in
  r_mid (y i) - rh V = cf_infs N (mids A) (rads A) (fun i => r_mid (y i)) x i /\ r_mid (y i) - rl V = cf_sups N (mids A) (rads A) (fun i => r_mid (y i)) x i.
Proof.
  intros Hi V. destruct (row_at_sums (A i) x N 0) as [E1 E2]. fold beta in E1, E2. fold V in E1, E2. unfold cf_infs, cf_sups, mv. cbn [Nat.add] in E1, E2. rewrite E1, E2, !vsum_eq.
  split; f_equal; [rewrite <- total_plus|rewrite <- total_minus]; apply total_ext; intros j Hj; destruct (scale_ends (x j) (A i j) (col_proper i j Hi Hj)) as [H1 H2]; unfold mids, rads, vabs; assumption.
Qed.
Let obj (uni : bool) := if uni then OUni else OTol.
Lemma residual_at uni i : (i < S k)%nat -> ispae_residual uni (w i) (y i) (the (r_point 0) (ispae_value bk roots beta (rows i)))
  = w_residual (obj uni) N (mids A) (rads A) (fun i => r_mid (y i)) (fun i => r_rad (y i)) w x i.
Proof.
  intro Hi. rewrite (value_at i Hi). destruct (value_ends i Hi) as [E1 E2]. unfold ispae_residual, the, r_csub. cbn [rl rh]. rewrite E1, E2. destruct uni; reflexivity.
Qed.
Lemma combine_maps (f : nat -> R) (g : nat -> rit) l : combine (map f l) (map g l) = map (fun j => (f j, g j)) l.
Proof. induction l as [|a l IH]; [reflexivity|]. cbn [map combine]. now rewrite IH. Qed.
Lemma nth_seq_map (f : nat -> R) n j d : (j < n)%nat -> nth j (map f (seq 0 n)) d = f j.
Proof. intro H. rewrite (nth_indep _ d (f O)) by (rewrite map_length, seq_length; exact H). rewrite (map_nth f). rewrite seq_nth by exact H. reflexivity. Qed.
Lemma diff_at uni i j : (i < S k)%nat -> (j < N)%nat ->
  nth j (ispae_diff uni (w i) (y i) (the (r_point 0) (ispae_value bk roots beta (rows i))) (match expand_row bk roots (rows i) with Some Xs => Xs | None => [] end) beta) 0
  = w_diff (obj uni) N (infs_of A) (sups_of A) (mids A) (rads A) (fun i => r_mid (y i)) w x i j.
Proof.
  intros Hi Hj. rewrite (value_at i Hi). destruct (value_ends i Hi) as [E1 E2]. destruct (FO i Hi) as [L F]. rewrite (expand_one bk roots (rows i) F), columns_map, L.
  unfold ispae_diff, the, r_csub. cbn [rl rh]. rewrite E1, E2. unfold sel_row, beta. rewrite combine_maps, !map_map.
  unfold w_diff. destruct uni; cbn [obj]; destruct (Rle_dec _ _); rewrite !map_map; rewrite nth_seq_map by exact Hj; reflexivity.
Qed.
Lemma calcfg_one uni nm : fst (ispae_calcfg uni nm bk roots k N rows y w x) = fst (wils_calcfg (obj uni) nm k N A y w x) /\
  forall j, (j < N)%nat -> snd (ispae_calcfg uni nm bk roots k N rows y w x) j = snd (wils_calcfg (obj uni) nm k N A y w x) j.
Proof.
  unfold ispae_calcfg, wils_calcfg. fold beta. destruct nm; cbn [wrap_norm fst snd fold_left].
  - set (r := fun i => ispae_residual uni (w i) (y i) (the (r_point 0) (ispae_value bk roots beta (rows i)))).
    rewrite (argmin_ext k r (w_residual (obj uni) N (mids A) (rads A) (fun i => r_mid (y i)) (fun i => r_rad (y i)) w x)) by (intros i Hi; apply residual_at; lia).
    set (mc := argmin k _). assert (Hm : (mc < S k)%nat) by (destruct (argmin_spec k (w_residual (obj uni) N (mids A) (rads A) (fun i => r_mid (y i)) (fun i => r_rad (y i)) w x)) as [H _]; fold mc in H; lia).
    split; [f_equal; apply residual_at; exact Hm|]. intros j Hj. f_equal. f_equal. apply diff_at; assumption.
  - split.
    + rewrite !vsum_eq. f_equal. apply total_ext. intros i Hi. apply residual_at. exact Hi.
    + intros j Hj. f_equal. assert (G : forall l a, (forall i, In i l -> (i < S k)%nat) ->
        fold_left (fun s mc => s + nth j (ispae_diff uni (w mc) (y mc) (the (r_point 0) (ispae_value bk roots beta (rows mc))) (match expand_row bk roots (rows mc) with Some Xs => Xs | None => [] end) beta) 0) l a
        = fold_left (fun s mc => s + w_diff (obj uni) N (infs_of A) (sups_of A) (mids A) (rads A) (fun i => r_mid (y i)) w x mc j) l a).
      { induction l as [|i l IH]; intros a Hl; [reflexivity|]. cbn [fold_left]. rewrite diff_at by (try exact Hj; apply Hl; now left). apply IH. intros i' Hi'. apply Hl. now right. }
      apply G. intros i Hi. apply in_seq in Hi. lia.
Qed.
End Row.
Lemma ispae_first_order uni nm bk roots k N rows y w x : first_order k N rows ->
  fst (ispae_calcfg uni nm bk roots k N rows y w x) = fst (wils_calcfg (if uni then OUni else OTol) nm k N (column_matrix bk rows) y w x) /\
  forall j, (j < N)%nat -> snd (ispae_calcfg uni nm bk roots k N rows y w x) j = snd (wils_calcfg (if uni then OUni else OTol) nm k N (column_matrix bk rows) y w x) j.
Proof. intro FO. exact (calcfg_one bk roots k N rows y w x FO uni nm). Qed.
Lemma ispae_first_order_subgradient nm bk roots k N rows y w x : first_order k N rows -> non_negative (S k) w ->
  subgradient N (fun z => fst (ispae_calcfg false nm bk roots k N rows y w z)) x (snd (ispae_calcfg false nm bk roots k N rows y w x)).
Proof.
  intros FO W z. assert (H := wils_tol_subgradient nm k N (column_matrix bk rows) y w x (col_proper bk k N rows FO) W z). cbv beta in *.
  rewrite (proj1 (ispae_first_order false nm bk roots k N rows y w x FO)), (proj1 (ispae_first_order false nm bk roots k N rows y w z FO)).
  rewrite (dot_ext N _ (snd (wils_calcfg OTol nm k N (column_matrix bk rows) y w x))); [exact H|]. exact (proj2 (ispae_first_order false nm bk roots k N rows y w x FO)).
Qed.

(** ** Uni of WILS is no subgradient where the midpoint is inside the range *)
Lemma wils_uni_grad_x : forall nm, exists k n A b x y, proper_mat (S k) n A /\ proper_vec (S k) b /\ same_orthant n x y /\
  fst (wils_calcfg OUni nm k n A b ones y) < fst (wils_calcfg OUni nm k n A b ones x) + dot n (snd (wils_calcfg OUni nm k n A b ones x)) (minus y x).
Proof.
  intro nm. exists 0%nat, 1%nat, RecogRefute.cA, RecogRefute.cb, RecogRefute.cx, (fun _ => 1/2).
  assert (P : proper_mat 1 1 RecogRefute.cA) by (intros i j _ _; unfold proper; simpl; lra).
  split; [exact P|]. split; [intros i _; unfold proper; simpl; lra|]. split; [intros j _; unfold RecogRefute.cx; split; lra|].
  rewrite !wils_value by exact P.
  assert (V : forall y, w_value OUni nm 0 1 RecogRefute.cA RecogRefute.cb ones y = uni_value 0 1 RecogRefute.cA RecogRefute.cb y ones).
  { intro y. destruct nm; cbn [w_value total w_con]; [reflexivity|]. unfold uni_value, vmin. ring. }
  rewrite !V. unfold dot, total, minus.
  assert (G : snd (wils_calcfg OUni nm 0 1 RecogRefute.cA RecogRefute.cb ones RecogRefute.cx) 0%nat = -10).
  { rewrite <- RecogRefute.c_grad. destruct nm; [rewrite wils_inf | rewrite wils_l1]; cbn [snd seq fold_left]; rewrite Rplus_0_l; reflexivity. }
  rewrite G. unfold RecogRefute.cx at 1. rewrite !RecogRefute.c_uni by lra. unfold RecogRefute.cx. lra.
Qed.
