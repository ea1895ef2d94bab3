(** The automatic coefficient is large enough when every row has a variable of its own. *)
From Coq Require Import List Bool Arith Lia Reals Lra Psatz.
From Verif Require Import Exact Recog SpecExact ExactProofs RecogProofs RecogMore SysProps Constrained SpecConstrained ConstrainedProofs.
Import ListNotations.
Open Scope R_scope.

(** One coordinate moved. *)
Definition moved (x : vec) (j : nat) (d : R) : vec := fun i => if Nat.eq_dec i j then x i + d else x i.
Lemma total_moved n f g j : (j < n)%nat -> (forall i, i <> j -> f i = g i) -> total n f - total n g = f j - g j.
Proof.
  induction n; intros Hj E; [lia|]. simpl. destruct (Nat.eq_dec j n) as [->|N].
  - assert (total n f = total n g) as ->; [|ring]. clear IHn Hj. assert (K : forall m, (m <= n)%nat -> total m f = total m g).
    { induction m; intro; [reflexivity|]. simpl. rewrite IHm, E by lia. reflexivity. } apply K. lia.
  - rewrite (E n) by lia. assert (J : (j < n)%nat) by lia. specialize (IHn J E). lra.
Qed.
Lemma moved_other x j d i : i <> j -> moved x j d i = x i. Proof. unfold moved. destruct Nat.eq_dec; [contradiction|reflexivity]. Qed.
Lemma moved_same x j d : moved x j d j = x j + d. Proof. unfold moved. destruct Nat.eq_dec; [reflexivity|contradiction]. Qed.
Lemma dot_moved n g x j d : (j < n)%nat -> dot n g (moved x j d) = dot n g x + g j * d.
Proof.
  intro Hj. unfold dot. assert (T := total_moved n (fun i => g i * moved x j d i) (fun i => g i * x i) j Hj).
  cbv beta in T. rewrite moved_same in T. rewrite <- (Rplus_0_r (total n (fun i => g i * x i))). assert (T' := T ltac:(intros i Hi; now rewrite moved_other)). lra.
Qed.

Lemma abs2 a b : Rabs (a - b) = Rmax (a - b) (b - a).
Proof. unfold Rabs, Rmax. destruct Rcase_abs, Rle_dec; lra. Qed.
Lemma scale_ends c c' X : proper X ->
  Rabs (rl (r_scale c X) - rl (r_scale c' X)) <= Rabs (c - c') * r_mag X /\ Rabs (rh (r_scale c X) - rh (r_scale c' X)) <= Rabs (c - c') * r_mag X.
Proof.
  intro P. assert (M1 : Rabs (rl X) <= r_mag X) by apply Rmax_l. assert (M2 : Rabs (rh X) <= r_mag X) by apply Rmax_r.
  assert (H1 : Rabs (c * rl X - c' * rl X) <= Rabs (c - c') * r_mag X).
  { rewrite <- Rmult_minus_distr_r, Rabs_mult. apply Rmult_le_compat_l; [apply Rabs_pos | assumption]. }
  assert (H2 : Rabs (c * rh X - c' * rh X) <= Rabs (c - c') * r_mag X).
  { rewrite <- Rmult_minus_distr_r, Rabs_mult. apply Rmult_le_compat_l; [apply Rabs_pos | assumption]. }
  set (s := Rabs (c - c') * r_mag X) in *. clearbody s. apply Rabs_le_iff in H1, H2. unfold r_scale; simpl.
  split; apply Rabs_le_iff; unfold Rmin, Rmax; repeat destruct Rle_dec; lra.
Qed.
Lemma imv_moved m n A x i j d : proper_mat m n A -> (i < m)%nat -> (j < n)%nat ->
  Rabs (rl (imv n A (moved x j d) i) - rl (imv n A x i)) <= Rabs d * r_mag (A i j) /\
  Rabs (rh (imv n A (moved x j d) i) - rh (imv n A x i)) <= Rabs d * r_mag (A i j).
Proof.
  intros P Hi Hj. unfold imv. rewrite !isum_lo, !isum_hi.
  destruct (scale_ends (moved x j d j) (x j) (A i j) (P i j Hi Hj)) as [S1 S2]. rewrite moved_same in S1, S2.
  replace (x j + d - x j) with d in S1, S2 by ring.
  rewrite (total_moved n (fun l => rl (r_scale (moved x j d l) (A i l))) (fun l => rl (r_scale (x l) (A i l))) j Hj) by (intros; now rewrite moved_other).
  rewrite (total_moved n (fun l => rh (r_scale (moved x j d l) (A i l))) (fun l => rh (r_scale (x l) (A i l))) j Hj) by (intros; now rewrite moved_other).
  rewrite moved_same. split; assumption.
Qed.
Lemma max_mag_ge k n A i j : (i < S k)%nat -> (j < n)%nat -> r_mag (A i j) <= max_mag k n A.
Proof.
  intros Hi Hj. unfold max_mag. refine (Rle_trans _ _ _ _ (le_vmax k _ i ltac:(lia))).
  assert (I : In j (seq 0 n)) by (apply in_seq; lia). induction (seq 0 n) as [|a l IH]; [destruct I|]. simpl.
  destruct I as [->|I]; [apply Rmax_l | refine (Rle_trans _ _ _ (IH I) (Rmax_r _ _))].
Qed.
Lemma mag_nn X : 0 <= r_mag X. Proof. unfold r_mag. refine (Rle_trans _ _ _ (Rabs_pos _) (Rmax_l _ _)). Qed.
Lemma max_mag_nn k n A : 0 <= max_mag k n A.
Proof.
  unfold max_mag. refine (Rle_trans _ _ _ _ (le_vmax k _ O ltac:(lia))). cbv beta.
  induction (seq 0 n); simpl; [lra | refine (Rle_trans _ _ _ IHl (Rmax_r _ _))].
Qed.
(** A function that loses at most [L] per unit along every coordinate. *)
Definition slow (n : nat) (L : R) (F : vec -> R) : Prop := forall x j d, (j < n)%nat -> F x - L * Rabs d <= F (moved x j d).
Lemma weighted w a b s : 0 <= w <= 1 -> 0 <= s -> a - s <= b -> w * a - s <= w * b.
Proof. intros. nra. Qed.
Section Slow.
Variables (k n : nat) (A : imat) (b : ivec) (w : vec).
Hypothesis PM : proper_mat (S k) n A.
Hypothesis W : at_most_one (S k) w.
Local Notation L := (max_mag k n A).
Lemma moved_ends x i j d : (i < S k)%nat -> (j < n)%nat ->
  Rabs (rl (imv n A (moved x j d) i) - rl (imv n A x i)) <= L * Rabs d /\ Rabs (rh (imv n A (moved x j d) i) - rh (imv n A x i)) <= L * Rabs d.
Proof.
  intros Hi Hj. destruct (imv_moved (S k) n A x i j d PM Hi Hj) as [H1 H2].
  assert (B : Rabs d * r_mag (A i j) <= L * Rabs d) by (rewrite Rmult_comm; apply Rmult_le_compat_r; [apply Rabs_pos | now apply max_mag_ge]). lra.
Qed.
Lemma step_nn d : 0 <= L * Rabs d. Proof. apply Rmult_le_pos; [apply max_mag_nn | apply Rabs_pos]. Qed.
Lemma tol_slow : slow n L (fun x => tol_value k n A b x w).
Proof.
  intros x j d Hj. unfold tol_value. apply le_vmin. intros i Hi. assert (V := vmin_le k (tol_constituent n A b x w) i ltac:(lia)).
  refine (Rle_trans _ (tol_constituent n A b x w i - L * Rabs d) _ _ _); [lra|]. unfold tol_constituent.
  apply weighted; [now apply W | apply step_nn|]. destruct (moved_ends x i j d Hi Hj) as [E1 E2]. apply Rabs_le_iff in E1, E2.
  assert (M : r_mag (r_csub (r_mid (b i)) (imv n A (moved x j d) i)) <= r_mag (r_csub (r_mid (b i)) (imv n A x i)) + L * Rabs d).
  { assert (Q := Rle_refl (r_mag (r_csub (r_mid (b i)) (imv n A x i)))). apply mag_csub_le in Q. apply mag_csub_le. lra. } lra.
Qed.
Lemma uni_slow : slow n L (fun x => uni_value k n A b x w).
Proof.
  intros x j d Hj. unfold uni_value. apply le_vmin. intros i Hi. assert (V := vmin_le k (uni_constituent n A b x w) i ltac:(lia)).
  refine (Rle_trans _ (uni_constituent n A b x w i - L * Rabs d) _ _ _); [lra|]. unfold uni_constituent.
  apply weighted; [now apply W | apply step_nn|]. destruct (moved_ends x i j d Hi Hj) as [E1 E2]. apply Rabs_le_iff in E1, E2.
  assert (M : r_mig (r_csub (r_mid (b i)) (imv n A (moved x j d) i)) <= r_mig (r_csub (r_mid (b i)) (imv n A x i)) + L * Rabs d).
  { assert (Q := Rle_refl (r_mig (r_csub (r_mid (b i)) (imv n A x i)))). apply mig_csub_le in Q; [|apply imv_proper]. apply mig_csub_le; [apply imv_proper|]. lra. } lra.
Qed.
Lemma uss_slow : slow n L (fun x => uss_value k n A b x w).
Proof.
  intros x j d Hj. unfold uss_value. apply le_vmin. intros i Hi. assert (V := vmin_le k (uss_constituent n A b x w) i ltac:(lia)).
  refine (Rle_trans _ (uss_constituent n A b x w i - L * Rabs d) _ _ _); [lra|]. unfold uss_constituent.
  apply weighted; [now apply W | apply step_nn|]. destruct (moved_ends x i j d Hi Hj) as [E1 E2]. apply Rabs_le_iff in E1, E2.
  destruct (imv_midrad (S k) n A x i PM Hi) as [F1 F2]. destruct (imv_midrad (S k) n A (moved x j d) i PM Hi) as [G1 G2].
  rewrite F1, G1 in E1. rewrite F2, G2 in E2. revert E1 E2. generalize (mv n (mids A) x i) (mv n (rads A) (vabs x) i) (mv n (mids A) (moved x j d) i) (mv n (rads A) (vabs (moved x j d)) i) (r_mid (b i)) (L * Rabs d).
  intros p q p' q' c s E1 E2. unfold Rabs. repeat destruct Rcase_abs; lra.
Qed.
End Slow.

(** ** Repairing a point *)
Lemma row_ok_excess n x row : row_ok n x row -> excess (dot n (fst row) x - snd row) = 0.
Proof. unfold row_ok, excess. intro. rewrite Rmax_left; lra. Qed.
Lemma excess_nn v : 0 <= excess v. Proof. apply Rmax_l. Qed.
Lemma sum_snoc l a : fold_right Rplus 0 (l ++ [a]) = fold_right Rplus 0 l + a.
Proof. induction l as [|c l IH]; simpl; [ring|]. rewrite IH. ring. Qed.
Lemma repair n L D F rows : slow n L F -> 0 <= L -> 0 < D ->
  (forall pre row post, rows = pre ++ row :: post -> exists j, (j < n)%nat /\ D <= Rabs (fst row j) /\ forall row', In row' (pre ++ post) -> fst row' j = 0) ->
  forall x post pre, rows = pre ++ post -> exists y,
  (forall row, In row pre -> row_ok n y row) /\ (forall row, In row post -> dot n (fst row) y = dot n (fst row) x) /\
  F x - L / D * violation n pre x <= F y.
Proof.
  intros SL L0 D0 OWN x post pre. revert post. induction pre as [|row pre IH] using rev_ind; intros post E.
  - exists x. split; [intros _ []|]. split; [reflexivity|]. unfold violation. simpl. lra.
  - rewrite <- app_assoc in E. simpl in E. destruct (IH _ E) as (y & Y1 & Y2 & Y3). destruct (OWN _ _ _ E) as (j & Hj & Hd & Z).
    set (e := excess (dot n (fst row) x - snd row)). assert (N : fst row j <> 0) by (intro Q; rewrite Q, Rabs_R0 in Hd; lra).
    exists (moved y j (- e / fst row j)). split; [|split].
    + intros r Hr. apply in_app_or in Hr. destruct Hr as [Hr|[<-|[]]].
      * unfold row_ok. rewrite dot_moved by assumption. assert (Zr : fst r j = 0) by (apply Z, in_or_app; now left). generalize (Y1 _ Hr). unfold row_ok, vec in *. rewrite Zr. lra.
      * unfold row_ok. rewrite dot_moved by assumption. assert (Yr := Y2 row (or_introl eq_refl)). unfold vec in *. rewrite Yr. unfold e, excess, Rmax in *.
        replace (fst row j * (- (if Rle_dec 0 (dot n (fst row) x - snd row) then dot n (fst row) x - snd row else 0) / fst row j)) with (- (if Rle_dec 0 (dot n (fst row) x - snd row) then dot n (fst row) x - snd row else 0)) by (field; assumption).
        destruct Rle_dec; lra.
    + intros r Hr. rewrite dot_moved by assumption. assert (Zr : fst r j = 0) by (apply Z, in_or_app; now right). assert (Yr := Y2 r (or_intror Hr)). unfold vec in *. rewrite Zr, Yr. ring.
    + assert (ST := SL y j (- e / fst row j) Hj). assert (E0 : 0 <= e) by apply excess_nn.
      assert (B : L * Rabs (- e / fst row j) <= L / D * e).
      { unfold Rdiv. rewrite Rabs_mult, Rabs_Ropp, Rabs_pos_eq, Rabs_inv by assumption.
        assert (I : / Rabs (fst row j) <= / D) by (apply Rinv_le_contravar; assumption).
        rewrite Rmult_assoc, (Rmult_comm (/ D)). apply Rmult_le_compat_l; [assumption|]. apply Rmult_le_compat_l; assumption. }
      assert (V : violation n (pre ++ [row]) x = violation n pre x + e).
      { unfold violation. rewrite map_app. apply sum_snoc. }
      rewrite V, Rmult_plus_distr_l. lra.
Qed.

(** The automatic coefficient *)
Lemma lmin_nn l a : (forall v, In v l -> 0 <= v) -> l <> [] -> 0 <= lmin a l.
Proof. intros H N. apply H. now apply lmin_in. Qed.
Lemma auto_mu_spec n rows num mu : auto_mu n rows num = Some (Num mu) ->
  exists D, 0 < D /\ mu = num / D /\ forall j d, (j < n)%nat -> col_min (column j rows) = Some d -> D <= d.
Proof.
  unfold auto_mu, column, vec. destruct (somes _) as [|a l] eqn:E; [discriminate|]. rewrite <- E. unfold f_div. set (D := lmin a _).
  destruct (Req_EM_T D 0); [destruct Req_EM_T; discriminate|]. intro Q. exists D. split.
  - assert (0 <= D); [|lra]. unfold D. apply lmin_nn; [|rewrite E; discriminate]. intros v Hv. apply in_somes in Hv. apply in_map_iff in Hv.
    destruct Hv as (j & Hj & _). apply col_min_spec in Hj. destruct Hj as [_ (sel & _ & _ & ->)]. apply Rabs_pos.
  - split; [congruence|]. intros j d Hj Hd. apply lmin_le. apply somes_in. apply in_map_iff. exists j. split; [exact Hd | apply in_seq; lia].
Qed.
Lemma nonzero_single pre post a : (forall v, In v (pre ++ post) -> v = 0) -> a <> 0 -> nonzero (pre ++ a :: post) = [a].
Proof.
  intros Z N. unfold nonzero. assert (K : forall l, (forall v, In v l -> v = 0) -> filter (fun a => if Req_EM_T a 0 then false else true) l = []).
  { induction l; intro H; [reflexivity|]. simpl. destruct Req_EM_T as [|Q]; [apply IHl; intros; apply H; now right|]. exfalso. apply Q. apply H. now left. }
  rewrite filter_app. rewrite K by (intros; apply Z, in_or_app; now left). simpl. destruct Req_EM_T; [contradiction|]. rewrite K by (intros; apply Z, in_or_app; now right). reflexivity.
Qed.
Lemma own_split n rows : own_variables n rows -> forall pre row post, rows = pre ++ row :: post ->
  exists j, (j < n)%nat /\ fst row j <> 0 /\ forall row', In row' (pre ++ post) -> fst row' j = 0.
Proof.
  intros O pre row post E. destruct (O (length pre) row) as (j & Hj & N & Z).
  { rewrite E, nth_error_app2, Nat.sub_diag by lia. reflexivity. }
  exists j. split; [assumption|]. split; [assumption|]. intros r Hr. apply in_app_or in Hr. destruct Hr as [Hr|Hr].
  - apply In_nth_error in Hr. destruct Hr as (i & Hi). assert (i < length pre)%nat by (apply nth_error_Some; congruence).
    apply (Z i); [|lia]. rewrite E, nth_error_app1 by assumption. assumption.
  - apply In_nth_error in Hr. destruct Hr as (i & Hi). apply (Z (length pre + S i)%nat); [|lia].
    rewrite E, nth_error_app2 by lia. replace (length pre + S i - length pre)%nat with (S i) by lia. exact Hi.
Qed.
Lemma exact_penalty n L F r C lb ub rows mu : slow n L F -> 0 <= L ->
  linear_constraint r n C lb ub = Some rows -> own_variables n rows -> auto_mu n rows L = Some (Num mu) ->
  forall x mu', mu <= mu' -> exists y, satisfies r n C lb ub y /\ F x - mu' * violation n rows x <= F y /\
    (mu < mu' -> ~ satisfies r n C lb ub x -> F x - mu' * violation n rows x < F y).
Proof.
  intros SL L0 LC O MU x mu' Hm. destruct (auto_mu_spec _ _ _ _ MU) as (D & D0 & -> & DM).
  destruct (repair n L D F rows SL L0 D0) with (x := x) (post := @nil (vec * R)) (pre := rows) as (y & Y1 & _ & Y3).
  - intros pre row post E. destruct (own_split n rows O pre row post E) as (j & Hj & N & Z). exists j. split; [assumption|]. split; [|assumption].
    assert (CE : column j rows = map (fun r : vec * R => fst r j) pre ++ fst row j :: map (fun r : vec * R => fst r j) post) by (rewrite E; unfold column; rewrite map_app; reflexivity).
    assert (NZ : nonzero (column j rows) = [fst row j]).
    { rewrite CE. apply nonzero_single; [|assumption]. intros v Hv. rewrite <- map_app in Hv. apply in_map_iff in Hv. destruct Hv as (r' & <- & Hr'). now apply Z. }
    destruct (col_min_some (column j rows)) as (d & Hd); [rewrite NZ; discriminate|].
    refine (Rle_trans _ _ _ (DM j d Hj Hd) _). apply col_min_spec in Hd. destruct Hd as [LB _]. specialize (LB [true]). rewrite NZ in LB.
    specialize (LB eq_refl (or_introl eq_refl)). simpl in LB. rewrite Rplus_0_r in LB. exact LB.
  - now rewrite app_nil_r.
  - exists y. assert (SY : satisfies r n C lb ub y) by (apply (rows_satisfied r n C lb ub rows y LC), Forall_forall; exact Y1).
    assert (V := violation_nn n rows x). split; [exact SY|]. split.
    + assert (L / D * violation n rows x <= mu' * violation n rows x) by (apply Rmult_le_compat_r; assumption). lra.
    + intros Hs NS. assert (V1 : 0 < violation n rows x).
      { destruct V as [|V]; [assumption|]. exfalso. apply NS. destruct (satisfies_zero r n C lb ub rows 1 x LC ltac:(lra)) as [_ S1]. apply S1. rewrite pen_violation, <- V. ring. }
      assert (L / D * violation n rows x < mu' * violation n rows x) by (apply Rmult_lt_compat_r; assumption). lra.
Qed.
Section Exact.
Variables (k n : nat) (A : imat) (b : ivec) (w : vec) (r : nat) (C : mat) (lb ub : option (nat -> bound)) (rows : list (vec * R)) (mu : R).
Hypothesis PM : proper_mat (S k) n A.
Hypothesis W : at_most_one (S k) w.
Hypothesis LC : linear_constraint r n C lb ub = Some rows.
Hypothesis OWN : own_variables n rows.
Hypothesis MU : auto_mu n rows (max_mag k n A) = Some (Num mu).
Definition better_inside (F : vec -> R) : Prop := forall x mu', mu <= mu' -> exists y, satisfies r n C lb ub y /\
  F x - mu' * violation n rows x <= F y /\ (mu < mu' -> ~ satisfies r n C lb ub x -> F x - mu' * violation n rows x < F y).
Lemma tol_exact_penalty : better_inside (fun x => tol_value k n A b x w).
Proof. intros x. apply (exact_penalty n (max_mag k n A) (fun x => tol_value k n A b x w)); try assumption; [now apply tol_slow | apply max_mag_nn]. Qed.
Lemma uni_exact_penalty : better_inside (fun x => uni_value k n A b x w).
Proof. intros x. apply (exact_penalty n (max_mag k n A) (fun x => uni_value k n A b x w)); try assumption; [now apply uni_slow | apply max_mag_nn]. Qed.
Lemma uss_exact_penalty : better_inside (fun x => uss_value k n A b x w).
Proof. intros x. apply (exact_penalty n (max_mag k n A) (fun x => uss_value k n A b x w)); try assumption; [now apply uss_slow | apply max_mag_nn]. Qed.
End Exact.
