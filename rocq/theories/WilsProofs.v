(** Weights and functionals of WILS. *)
From Coq Require Import Reals List Arith Bool Lia Lra Psatz FunctionalExtensionality.
From Verif Require Import Exact Recog SpecExact ExactProofs RecogProofs RecogMore RecogFinal Ralgb5 RalgbProofs RalgbMore EstimProofs Models SpecModels.
Import ListNotations.
Open Scope R_scope.

(** ** Weights *)
Lemma smooth_closed alpha beta w k :
  smooth (fun x => x) alpha beta w k = (1 - alpha) * total (S k) (fun i => beta ^ (k - i + 1) * alpha ^ (k - i) * w i).
Proof.
  induction k as [|k IH]; [simpl; ring|]. cbn [smooth]. rewrite IH. change (total (S (S k)) ?f) with (total (S k) f + f (S k)).
  cbv beta. rewrite Nat.sub_diag. rewrite (total_ext (S k) (fun i => beta ^ (S k - i + 1) * alpha ^ (S k - i) * w i) (fun i => (beta * alpha) * (beta ^ (k - i + 1) * alpha ^ (k - i) * w i))).
  - rewrite total_scal. cbn [Nat.add pow]. ring.
  - intros i Hi. replace (S k - i)%nat with (S (k - i)) by lia. cbn [Nat.add pow]. ring.
Qed.
Lemma smooth_keep store w k : (forall i, (i <= k)%nat -> store (w i) = w i) -> smooth store 0 1 w k = w k.
Proof.
  intro H. destruct k as [|k]; cbn [smooth].
  - replace (1 * w 0%nat * (1 - 0)) with (w 0%nat) by ring. apply H. lia.
  - replace (1 * (w (S k) * (1 - 0) + 0 * smooth store 0 1 w k)) with (w (S k)) by ring. apply H. lia.
Qed.
Lemma smooth_pos alpha beta w k : 0 <= alpha < 1 -> 0 < beta -> (forall i, (i <= k)%nat -> 0 < w i) -> 0 < smooth (fun x => x) alpha beta w k.
Proof.
  intros Ha Hb. induction k as [|k IH]; intro H; cbn [smooth].
  - repeat apply Rmult_lt_0_compat; try lra. apply H. lia.
  - assert (P := IH ltac:(intros; apply H; lia)). apply Rmult_lt_0_compat; [lra|].
    assert (0 < w (S k) * (1 - alpha)) by (apply Rmult_lt_0_compat; [apply H; lia | lra]). nra.
Qed.
Lemma smooth_le alpha w k c : 0 <= alpha < 1 -> (forall i, (i <= k)%nat -> w i <= c) -> 0 <= c -> smooth (fun x => x) alpha 1 w k <= c.
Proof.
  intros Ha. induction k as [|k IH]; intros H Hc; cbn [smooth].
  - assert (Q := H 0%nat ltac:(lia)). nra.
  - assert (P := IH ltac:(intros; apply H; lia) Hc). assert (Q := H (S k) ltac:(lia)). nra.
Qed.
Lemma fits_default store alpha beta h : fits store alpha beta h None = repeat (smooth (fun x => x) alpha beta ones) h.
Proof. induction h as [|h IH]; [reflexivity|]. cbn [fits fit_weights repeat]. f_equal. exact IH. Qed.
Lemma fits_given store alpha beta h w i : (i < h)%nat ->
  nth_error (fits store alpha beta h (Some w)) i = Some (Nat.iter (S i) (smooth store alpha beta) w).
Proof.
  revert i w. induction h as [|h IH]; [lia|]. intros i w Hi. cbn [fits fit_weights]. destruct i as [|i]; [reflexivity|]. cbn [nth_error].
  rewrite IH by lia. f_equal. change (Nat.iter (S (S i)) (smooth store alpha beta) w) with (smooth store alpha beta (Nat.iter (S i) (smooth store alpha beta) w)).
  clear. induction i as [|i IH]; [reflexivity|]. change (Nat.iter (S (S i)) ?f ?y) with (f (Nat.iter (S i) f y)). f_equal. exact IH.
Qed.
Lemma fits_keep store h w : (forall k, store (w k) = w k) -> fits store 0 1 h (Some w) = repeat w h.
Proof.
  intro H. assert (E : smooth store 0 1 w = w) by (apply functional_extensionality; intro; apply smooth_keep; auto).
  induction h as [|h IH]; [reflexivity|]. cbn [fits fit_weights repeat]. rewrite E. f_equal. exact IH.
Qed.
Lemma fits_given_refuted : exists alpha beta w u v, 0 <= alpha < 1 /\ 0 < beta /\ fits (fun x => x) alpha beta 2 (Some w) = [u; v] /\
  fst (fit_weights (fun x => x) alpha beta (Some w)) = u /\ u 0%nat <> v 0%nat /\ snd (fit_weights (fun x => x) alpha beta (Some w)) <> Some w.
Proof.
  exists (1 / 2), 1, ones. do 2 eexists. split; [lra|]. split; [lra|]. split; [reflexivity|]. split; [reflexivity|]. split.
  - simpl. unfold ones. lra.
  - cbn. intro H. injection H as H. assert (E := f_equal (fun f => f 0%nat) H). simpl in E. unfold ones in E. lra.
Qed.
Lemma to_int_half : to_int (1 / 2) = 0.
Proof.
  unfold to_int. destruct Rle_dec; [|lra]. destruct (base_Int_part (1 / 2)) as [H1 H2]. apply IZR_eq.
  assert (IZR (Int_part (1 / 2)) < IZR 1) as L1 by lra. assert (IZR (-1) < IZR (Int_part (1 / 2))) as L2 by lra. apply lt_IZR in L1, L2. lia.
Qed.
Lemma to_int_Z z : to_int (IZR z) = IZR z.
Proof.
  assert (P : forall y, Int_part (IZR y) = y).
  { intro y. destruct (base_Int_part (IZR y)) as [H1 H2]. apply le_IZR in H1. assert (L : IZR y - 1 < IZR (Int_part (IZR y))) by lra. rewrite <- minus_IZR in L. apply lt_IZR in L. lia. }
  unfold to_int. destruct Rle_dec; [now rewrite P|]. rewrite <- (opp_IZR z), P, opp_IZR. ring.
Qed.
(** An array of integer ones is turned into zeros. *)
Lemma smooth_int_zero k : smooth to_int (1 / 2) 1 ones k = 0.
Proof.
  assert (E : to_int (1 * 1 * (1 - 1 / 2)) = 0) by (replace (1 * 1 * (1 - 1 / 2)) with (1 / 2) by lra; apply to_int_half).
  induction k as [|k IH]; cbn [smooth]; unfold ones in *; [exact E|]. rewrite IH. replace (1 * (1 * (1 - 1 / 2) + 1 / 2 * 0)) with (1 / 2) by lra. apply to_int_half.
Qed.

(** ** Functionals *)
Definition w_con (o : objective) (n : nat) (A : imat) (b : ivec) (x w : vec) : vec :=
  match o with OTol => tol_constituent n A b x w | OUni => uni_constituent n A b x w | OUss => uss_constituent n A b x w end.
Definition row_A (A : imat) (i : nat) : imat := fun _ => A i.
Definition row_b (b : ivec) (i : nat) : ivec := fun _ => b i.
(** Rows are handled one by one: the functionals of a system of one row *)
Definition fg1 (o : objective) (n : nat) (A : imat) (b : ivec) (w x : vec) (i : nat) : R * vec :=
  match o with
  | OTol => tol_fg 0 n (row_A A i) (row_b b i) (fun _ => w i) x
  | OUni => uni_fg 0 n (row_A A i) (row_b b i) (fun _ => w i) x
  | OUss => uss_fg 0 n (row_A A i) (row_b b i) (fun _ => w i) x
  end.
Definition wres (o : objective) (n : nat) (A : imat) (b : ivec) (w x : vec) : vec :=
  w_residual o n (mids A) (rads A) (fun i => r_mid (b i)) (fun i => r_rad (b i)) w x.
Definition wdiff (o : objective) (n : nat) (A : imat) (b : ivec) (w x : vec) (mc : nat) : vec :=
  w_diff o n (infs_of A) (sups_of A) (mids A) (rads A) (fun i => r_mid (b i)) w x mc.
Lemma fg1_res o n A b w x i : fst (fg1 o n A b w x i) = - wres o n A b w x i.
Proof. destruct o; reflexivity. Qed.
Lemma fg1_diff o n A b w x i j : snd (fg1 o n A b w x i) j = - wdiff o n A b w x i j.
Proof. destruct o; reflexivity. Qed.
Lemma row_proper m n A i : proper_mat m n A -> (i < m)%nat -> proper_mat 1 n (row_A A i).
Proof. intros H Hi i' j _ Hj. now apply H. Qed.
Lemma vmin1 f : vmin 0 f = f 0%nat. Proof. reflexivity. Qed.
Lemma wres_con o k n A b w x i : proper_mat (S k) n A -> (i < S k)%nat -> wres o n A b w x i = w_con o n A b x w i.
Proof.
  intros P Hi. assert (E := fg1_res o n A b w x i). assert (P1 := row_proper (S k) n A i P Hi).
  destruct o; cbn [fg1 w_con] in *.
  - rewrite tol_fg_value in E by exact P1. assert (E2 : tol_value 0 n (row_A A i) (row_b b i) x (fun _ => w i) = tol_constituent n A b x w i) by reflexivity. lra.
  - rewrite uni_fg_value in E by exact P1. assert (E2 : uni_value 0 n (row_A A i) (row_b b i) x (fun _ => w i) = uni_constituent n A b x w i) by reflexivity. lra.
  - reflexivity.
Qed.
Definition w_value (o : objective) (nm : norm) (k n : nat) (A : imat) (b : ivec) (w x : vec) : R :=
  match nm with NInf => vmin k (w_con o n A b x w) | NL1 => total (S k) (w_con o n A b x w) end.
Lemma fold_seq_total (f : nat -> R) m : forall s a, fold_left (fun acc i => acc + f i) (seq s m) a = a + total m (fun i => f (s + i)%nat).
Proof.
  induction m as [|m IH]; intros s a; [simpl; ring|]. rewrite seq_S, fold_left_app, IH. cbn [fold_left total]. ring.
Qed.
Lemma wils_l1 o k n A b w x : wils_calcfg o NL1 k n A b w x = (- vsum (S k) (wres o n A b w x), fun j => - fold_left (fun s mc => s + wdiff o n A b w x mc j) (seq 0 (S k)) 0).
Proof. reflexivity. Qed.
Lemma wils_inf o k n A b w x : wils_calcfg o NInf k n A b w x = (- wres o n A b w x (argmin k (wres o n A b w x)), fun j => - (0 + wdiff o n A b w x (argmin k (wres o n A b w x)) j)).
Proof. reflexivity. Qed.
Lemma wils_value o nm k n A b w x : proper_mat (S k) n A -> fst (wils_calcfg o nm k n A b w x) = - w_value o nm k n A b w x.
Proof.
  intro P. destruct nm.
  - rewrite wils_inf. cbn [fst w_value]. destruct o; cbn [w_con].
    + change (- wres OTol n A b w x (argmin k (wres OTol n A b w x))) with (fst (tol_fg k n A b w x)). now apply tol_fg_value.
    + change (- wres OUni n A b w x (argmin k (wres OUni n A b w x))) with (fst (uni_fg k n A b w x)). now apply uni_fg_value.
    + change (- wres OUss n A b w x (argmin k (wres OUss n A b w x))) with (fst (uss_fg k n A b w x)). apply uss_fg_value.
  - rewrite wils_l1. cbn [fst w_value]. rewrite vsum_eq. f_equal. apply total_ext. intros i Hi. now apply (wres_con o k).
Qed.
(** Subgradients: valid at [y] when they are for every row *)
Definition grad_at (n : nat) (f : vec -> R) (x g y : vec) : Prop := f x + dot n g (minus y x) <= f y.
Lemma dot_total n m (g : nat -> vec) d : dot n (fun j => total m (fun i => g i j)) d = total m (fun i => dot n (g i) d).
Proof. unfold dot. rewrite total_swap. apply total_ext. intros j _. rewrite total_scal_r. reflexivity. Qed.
Lemma dot_ext n g h d : (forall j, (j < n)%nat -> g j = h j) -> dot n g d = dot n h d.
Proof. intro H. apply total_ext. intros j Hj. now rewrite H. Qed.
Lemma wils_l1_grad o k n A b w x y : proper_mat (S k) n A ->
  (forall i, (i < S k)%nat -> - w_con o n A b x w i + dot n (snd (fg1 o n A b w x i)) (minus y x) <= - w_con o n A b y w i) ->
  - w_value o NL1 k n A b w x + dot n (snd (wils_calcfg o NL1 k n A b w x)) (minus y x) <= - w_value o NL1 k n A b w y.
Proof.
  intros P H. rewrite wils_l1. cbn [snd w_value].
  rewrite (dot_ext n _ (fun j => total (S k) (fun i => snd (fg1 o n A b w x i) j))).
  - rewrite dot_total. rewrite <- !total_opp, <- total_plus. apply total_le. exact H.
  - intros j _. rewrite fold_seq_total. rewrite Rplus_0_l, <- total_opp. apply total_ext. intros i _. rewrite fg1_diff. reflexivity.
Qed.
Lemma row_nn m w i : non_negative m w -> (i < m)%nat -> non_negative 1 (fun _ => w i).
Proof. intros H Hi j _. now apply H. Qed.
Lemma wils_tol_subgradient nm k n A b w x : proper_mat (S k) n A -> non_negative (S k) w ->
  subgradient n (fun y => fst (wils_calcfg OTol nm k n A b w y)) x (snd (wils_calcfg OTol nm k n A b w x)).
Proof.
  intros P W y. cbv beta. rewrite !wils_value by exact P. destruct nm.
  - assert (H := tol_subgradient k n A b w x P W y). cbv beta in H. cbn [w_value w_con]. 
    rewrite (dot_ext n _ (snd (tol_fg k n A b w x))); [exact H|]. intros j _. rewrite wils_inf. cbn [snd]. rewrite Rplus_0_l. reflexivity.
  - apply wils_l1_grad; [exact P|]. intros i Hi.
    exact (tol_subgradient 0 n (row_A A i) (row_b b i) (fun _ => w i) x (row_proper _ n A i P Hi) (row_nn _ w i W Hi) y).
Qed.
Lemma wils_uss_subgradient nm k n A b w x y : proper_mat (S k) n A -> non_negative (S k) w -> same_orthant n x y ->
  fst (wils_calcfg OUss nm k n A b w x) + dot n (snd (wils_calcfg OUss nm k n A b w x)) (minus y x) <= fst (wils_calcfg OUss nm k n A b w y).
Proof.
  intros P W Q. rewrite !wils_value by exact P. destruct nm.
  - assert (H := uss_subgradient k n A b w x W y Q). cbn [w_value w_con].
    rewrite (dot_ext n _ (snd (uss_fg k n A b w x))); [exact H|]. intros j _. rewrite wils_inf. cbn [snd]. rewrite Rplus_0_l. reflexivity.
  - apply wils_l1_grad; [exact P|]. intros i Hi. exact (uss_subgradient 0 n (row_A A i) (row_b b i) (fun _ => w i) x (row_nn _ w i W Hi) y Q).
Qed.
Lemma wils_uni_subgradient_inf k n A b w x : proper_mat (S k) n A -> non_negative (S k) w ->
  (forall i, (i < S k)%nat -> uni_constituent n A b x w i = uni_value k n A b x w -> ~ (rl (imv n A x i) < r_mid (b i) < rh (imv n A x i))) ->
  forall y, same_orthant n x y ->
  fst (wils_calcfg OUni NInf k n A b w x) + dot n (snd (wils_calcfg OUni NInf k n A b w x)) (minus y x) <= fst (wils_calcfg OUni NInf k n A b w y).
Proof.
  intros P W N y Q. rewrite !wils_value by exact P. assert (G := uni_subgradient k n A b w x P W N y Q). cbn [w_value w_con].
  rewrite (dot_ext n _ (snd (uni_fg k n A b w x))); [exact G|]. intros j _. rewrite wils_inf. cbn [snd]. rewrite Rplus_0_l. reflexivity.
Qed.
Lemma wils_uni_subgradient_l1 k n A b w x : proper_mat (S k) n A -> non_negative (S k) w ->
  (forall i, (i < S k)%nat -> ~ (rl (imv n A x i) < r_mid (b i) < rh (imv n A x i))) ->
  forall y, same_orthant n x y ->
  fst (wils_calcfg OUni NL1 k n A b w x) + dot n (snd (wils_calcfg OUni NL1 k n A b w x)) (minus y x) <= fst (wils_calcfg OUni NL1 k n A b w y).
Proof.
  intros P W N y Q. rewrite !wils_value by exact P. apply wils_l1_grad; [exact P|]. intros i Hi.
  refine (uni_subgradient 0 n (row_A A i) (row_b b i) (fun _ => w i) x (row_proper _ n A i P Hi) (row_nn _ w i W Hi) _ y Q).
  intros i' _ _. exact (N i Hi).
Qed.
(** The values in terms of the data *)
Lemma tol_con_slack k n A b x w i : proper_mat (S k) n A -> (i < S k)%nat ->
  exists s, tol_slack_of n A b x i s /\ tol_constituent n A b x w i = w i * s.
Proof.
  intros P Hi. exists (tol_value 0 n (row_A A i) (row_b b i) x ones). split; [intro t; apply tol_slack; now apply (row_proper (S k))|].
  unfold tol_value. rewrite vmin1. unfold tol_constituent, ones. change (imv n (row_A A i) x 0%nat) with (imv n A x i). unfold row_b. ring.
Qed.
Lemma uni_con_slack k n A b x w i : proper_mat (S k) n A -> (i < S k)%nat ->
  exists s, uni_slack_of n A b x i s /\ uni_constituent n A b x w i = w i * s.
Proof.
  intros P Hi. exists (uni_value 0 n (row_A A i) (row_b b i) x ones). split; [intro t; apply uni_slack; now apply (row_proper (S k))|].
  unfold uni_value. rewrite vmin1. unfold uni_constituent, ones. change (imv n (row_A A i) x 0%nat) with (imv n A x i). unfold row_b. ring.
Qed.
Lemma wils_uni_subgradient_slack k n A b w x : proper_mat (S k) n A -> non_negative (S k) w ->
  (forall i s, (i < S k)%nat -> uni_slack_of n A b x i s -> w i * s = - fst (wils_calcfg OUni NInf k n A b w x) -> ~ (rl (imv n A x i) < r_mid (b i) < rh (imv n A x i))) ->
  forall y, same_orthant n x y ->
  fst (wils_calcfg OUni NInf k n A b w x) + dot n (snd (wils_calcfg OUni NInf k n A b w x)) (minus y x) <= fst (wils_calcfg OUni NInf k n A b w y).
Proof.
  intros P W N. apply wils_uni_subgradient_inf; [exact P | exact W|]. intros i Hi E.
  destruct (uni_con_slack k n A b x w i P Hi) as (s & H1 & H2). apply (N i s Hi H1). rewrite wils_value by exact P. cbn [w_value w_con]. unfold uni_value in E. lra.
Qed.
Lemma vmin_least k f : least (S k) f (vmin k f).
Proof. split; [intros; apply vmin_le; lia|]. destruct (vmin_in k f) as (i & Hi & E). exists i. split; [lia|auto]. Qed.
Lemma choose m (Q : nat -> R -> Prop) : (forall i, (i < m)%nat -> exists s, Q i s) -> exists s : vec, forall i, (i < m)%nat -> Q i (s i).
Proof.
  induction m as [|m IH]; intro H; [exists (fun _ => 0); lia|]. destruct IH as [s Hs]; [intros; apply H; lia|]. destruct (H m ltac:(lia)) as [t Ht].
  exists (fun i => if Nat.eqb i m then t else s i). intros i Hi. destruct (Nat.eqb_spec i m) as [->|N]; [exact Ht|]. apply Hs. lia.
Qed.
Lemma least_ext m f g v : (forall i, (i < m)%nat -> f i = g i) -> least m f v -> least m g v.
Proof. intros H [L (i & Hi & E)]. split; [intros j Hj; rewrite <- H by exact Hj; auto|]. exists i. rewrite <- H by exact Hi. auto. Qed.
Lemma wils_tol_value k n A b w x : proper_mat (S k) n A -> exists s : vec, (forall i, (i < S k)%nat -> tol_slack_of n A b x i (s i)) /\
  least (S k) (fun i => w i * s i) (- fst (wils_calcfg OTol NInf k n A b w x)) /\ - fst (wils_calcfg OTol NL1 k n A b w x) = total (S k) (fun i => w i * s i).
Proof.
  intro P. destruct (choose (S k) (fun i s => tol_slack_of n A b x i s /\ tol_constituent n A b x w i = w i * s)) as [s Hs]; [intros; now apply (tol_con_slack k)|].
  exists s. rewrite !wils_value, !Ropp_involutive by exact P. cbn [w_value w_con]. split; [intros; now apply Hs|]. split.
  - apply (least_ext _ (tol_constituent n A b x w)); [intros; now apply Hs | apply vmin_least].
  - apply total_ext. intros i Hi. now apply Hs.
Qed.
Lemma wils_uni_value k n A b w x : proper_mat (S k) n A -> exists s : vec, (forall i, (i < S k)%nat -> uni_slack_of n A b x i (s i)) /\
  least (S k) (fun i => w i * s i) (- fst (wils_calcfg OUni NInf k n A b w x)) /\ - fst (wils_calcfg OUni NL1 k n A b w x) = total (S k) (fun i => w i * s i).
Proof.
  intro P. destruct (choose (S k) (fun i s => uni_slack_of n A b x i s /\ uni_constituent n A b x w i = w i * s)) as [s Hs]; [intros; now apply (uni_con_slack k)|].
  exists s. rewrite !wils_value, !Ropp_involutive by exact P. cbn [w_value w_con]. split; [intros; now apply Hs|]. split.
  - apply (least_ext _ (uni_constituent n A b x w)); [intros; now apply Hs | apply vmin_least].
  - apply total_ext. intros i Hi. now apply Hs.
Qed.
(** ** fit and predict *)
Lemma wils_fit_spec o nm alpha beta con k n big P A b weight x0 x v w' : wils_fit o nm alpha beta con k n big P A b weight x0 = (x, v, w') ->
  let w := fst (fit_weights (fun t => t) alpha beta weight) in
  v = fit_value o nm con k n A b w x /\ fit_value o nm con k n A b w x0 <= v.
Proof.
  intro E. cbv zeta. unfold wils_fit in E. destruct (fit_weights (fun t => t) alpha beta weight) as [w wt]. cbn [fst].
  set (fg := match con with None => wils_calcfg o nm k n A b w | Some (mu, rows) => with_penalty n mu rows (wils_calcfg o nm k n A b w) end) in *.
  assert (V : forall y, - fst (fg y) = fit_value o nm con k n A b w y).
  { intro y. unfold fg, fit_value. destruct con as [[mu rows]|]; [rewrite with_penalty_val; ring | ring]. }
  destruct (ralgb5 (real_ops n big) P fg n x0) as [r t] eqn:R. cbn [fst] in E.
  assert (Ex : x = r_x _ r) by congruence. assert (Ev : v = - r_f _ r) by congruence. clear E.
  destruct (ralgb5_best _ _ _ _ _ _ _ R) as (_ & F & I & _). destruct (real_order n big) as [O1 O2].
  assert (B := ralgb5_no_better _ _ _ _ _ _ _ O1 O2 R x0 I). cbn [n_lt real_ops real_ops_with] in B.
  rewrite Ev, Ex. split; [rewrite F; apply V|]. rewrite <- V. destruct Rlt_dec as [|N]; [discriminate|]. apply Ropp_le_contravar, Rnot_lt_le. exact N.
Qed.
(** A non-negative value says something about the predictions on the training data. *)
Lemma wils_tol_predict alpha beta k n big P A b weight x0 x v w' i : proper_mat (S k) n A ->
  positive (S k) (fst (fit_weights (fun t => t) alpha beta weight)) -> wils_fit OTol NInf alpha beta None k n big P A b weight x0 = (x, v, w') ->
  0 <= v -> (i < S k)%nat -> rl (b i) <= rl (wils_predict n A x i) /\ rh (wils_predict n A x i) <= rh (b i).
Proof.
  intros PM W E V Hi. destruct (wils_fit_spec _ _ _ _ _ _ _ _ _ _ _ _ _ _ _ _ E) as [F _]. unfold fit_value in F. rewrite wils_value in F by exact PM.
  cbn [w_value w_con] in F. assert (T : 0 <= tol_value k n A b x (fst (fit_weights (fun t => t) alpha beta weight))) by (unfold tol_value; lra).
  apply tol_recognizes in T; [|assumption|assumption]. unfold wils_predict. 
  rewrite (imv_lo (S k)), (imv_hi (S k)) by assumption.
  assert (Q1 := T _ (at_lo_in (S k) n A x PM) i Hi). assert (Q2 := T _ (at_hi_in (S k) n A x PM) i Hi). unfold inI in *. lra.
Qed.
Lemma wils_uni_predict alpha beta k n big P A b weight x0 x v w' i : proper_mat (S k) n A ->
  positive (S k) (fst (fit_weights (fun t => t) alpha beta weight)) -> wils_fit OUni NInf alpha beta None k n big P A b weight x0 = (x, v, w') ->
  0 <= v -> (i < S k)%nat -> exists r, inI (b i) r /\ inI (wils_predict n A x i) r.
Proof.
  intros PM W E V Hi. destruct (wils_fit_spec _ _ _ _ _ _ _ _ _ _ _ _ _ _ _ _ E) as [F _]. unfold fit_value in F. rewrite wils_value in F by exact PM.
  cbn [w_value w_con] in F. assert (T : 0 <= uni_value k n A b x (fst (fit_weights (fun t => t) alpha beta weight))) by (unfold uni_value; lra).
  apply uni_recognizes in T; [|assumption|assumption]. destruct T as (M & u & HM & Hu & S). exists (u i). split; [now apply Hu|].
  rewrite <- (S i Hi). unfold wils_predict. now apply (imv_encl (Datatypes.S k)).
Qed.
(** Starting from a point that fits the data, the fit does too. *)
Lemma wils_tol_from alpha beta k n big P A b weight x0 x v w' : proper_mat (S k) n A ->
  positive (S k) (fst (fit_weights (fun t => t) alpha beta weight)) -> wils_fit OTol NInf alpha beta None k n big P A b weight x0 = (x, v, w') ->
  (0 <= v <-> tolerable (S k) n A b x) /\ (tolerable (S k) n A b x0 -> tolerable (S k) n A b x).
Proof.
  intros PM W E. destruct (wils_fit_spec _ _ _ _ _ _ _ _ _ _ _ _ _ _ _ _ E) as [F L]. unfold fit_value in F, L. rewrite wils_value in F, L by exact PM. cbn [w_value w_con] in F, L.
  set (w := fst (fit_weights (fun t => t) alpha beta weight)) in *.
  assert (R1 := tol_recognizes k n A b x w PM W). assert (R0 := tol_recognizes k n A b x0 w PM W). unfold tol_value in R0, R1. split.
  - rewrite <- R1. replace v with (vmin k (tol_constituent n A b x w)) by lra. reflexivity.
  - intro T. apply R1. apply R0 in T. lra.
Qed.
(** The sum of the residuals can be positive although an observation is missed. *)
Lemma wils_l1_refuted : exists k n A b w x, proper_mat (S k) n A /\ positive (S k) w /\ 0 <= - fst (wils_calcfg OTol NL1 k n A b w x) /\ ~ tolerable (S k) n A b x.
Proof.
  exists 1%nat, 1%nat, (fun _ _ => mkr 1 1), (fun i => match i with O => mkr 2 3 | _ => mkr (-9) 11 end), ones, (fun _ => 1).
  assert (P : proper_mat 2 1 (fun _ _ => mkr 1 1)) by (intros i j _ _; unfold proper; simpl; lra).
  split; [exact P|]. split; [intros i _; unfold ones; lra|]. split.
  - rewrite wils_value by exact P. rewrite Ropp_involutive. cbn [w_value w_con total]. unfold tol_constituent, imv, r_csub, r_mag, r_rad, r_mid, r_scale, ones. cbn.
    repeat (unfold Rmin, Rmax, Rabs; repeat (destruct Rle_dec || destruct Rcase_abs)); lra.
  - intro T. assert (Q := T (fun _ _ => 1) ltac:(intros i j _ _; unfold inI; simpl; lra) 0%nat ltac:(lia)). unfold inI, times in Q. simpl in Q. lra.
Qed.
(** Points that fit all observations have a non-negative sum. *)
Lemma wils_l1_necessary k n A b w x : proper_mat (S k) n A -> positive (S k) w -> tolerable (S k) n A b x -> 0 <= - fst (wils_calcfg OTol NL1 k n A b w x).
Proof.
  intros P W T. rewrite wils_value, Ropp_involutive by exact P. cbn [w_value w_con]. apply (tol_recognizes k n A b x w P W) in T. unfold tol_value in T.
  apply total_nn. intros i Hi. assert (Q := vmin_le k (tol_constituent n A b x w) i ltac:(lia)). lra.
Qed.
