(** Objectives and fits of ISPAE. *)
From Coq Require Import Reals List Arith Bool Lia Lra Psatz.
From Verif Require Import Exact Recog SpecExact ExactProofs RecogProofs Ralgb5 RalgbProofs RalgbMore EstimProofs Models SpecModels WilsProofs IspaeProofs IspaeMore.
Import ListNotations.
Open Scope R_scope.

(** ** Residuals *)
Lemma tol_residual w y V : 0 < w -> proper V -> (0 <= ispae_residual false w y V <-> rl y <= rl V /\ rh V <= rh y).
Proof.
  intros W P. unfold ispae_residual, r_csub, r_mid, r_rad, proper in *. cbn [rl rh]. set (a := Rabs (/ 2 * (rh y + rl y) - rh V)). set (c := Rabs (/ 2 * (rh y + rl y) - rl V)).
  assert (Q : 0 <= w * (/ 2 * (rh y - rl y) - Rmax a c) <-> a <= / 2 * (rh y - rl y) /\ c <= / 2 * (rh y - rl y)).
  { split.
    - intro H. assert (0 <= / 2 * (rh y - rl y) - Rmax a c) by (apply (Rmult_le_reg_l w); lra). assert (A := Rmax_l a c). assert (B := Rmax_r a c). lra.
    - intros [H1 H2]. apply Rmult_le_pos; [lra|]. assert (Rmax a c <= / 2 * (rh y - rl y)) by (apply Rmax_lub; assumption). lra. }
  rewrite Q. unfold a, c. split.
  - intros [H1 H2]. split; [assert (A := Rle_abs (/ 2 * (rh y + rl y) - rl V)) | assert (A := Rle_abs (- (/ 2 * (rh y + rl y) - rh V))); rewrite Rabs_Ropp in A]; lra.
  - intros [H1 H2]. split; apply Rabs_le; lra.
Qed.
Lemma uni_residual w y V : 0 < w -> proper V -> proper y -> (0 <= ispae_residual true w y V <-> exists r, inI V r /\ inI y r).
Proof.
  intros W P Py. unfold ispae_residual, r_csub, r_mid, r_rad, proper, inI in *. cbn [rl rh].
  assert (Q : 0 <= w * (/ 2 * (rh y - rl y) - cf_mig (/ 2 * (rh y + rl y) - rh V) (/ 2 * (rh y + rl y) - rl V)) <->
              cf_mig (/ 2 * (rh y + rl y) - rh V) (/ 2 * (rh y + rl y) - rl V) <= / 2 * (rh y - rl y)).
  { split; intro H; [apply (Rmult_le_reg_l w) with (r1 := 0) (r2 := / 2 * (rh y - rl y) - _) in H || idtac|]; [|apply Rmult_le_pos; lra].
    assert (0 <= / 2 * (rh y - rl y) - cf_mig (/ 2 * (rh y + rl y) - rh V) (/ 2 * (rh y + rl y) - rl V)) by (apply (Rmult_le_reg_l w); lra). lra. }
  rewrite Q. clear Q. unfold cf_mig. set (m := / 2 * (rh y + rl y)) in *. assert (Em : rl y = m - / 2 * (rh y - rl y)) by (unfold m; lra). assert (Eh : rh y = m + / 2 * (rh y - rl y)) by (unfold m; lra).
  destruct Rle_dec as [L|L].
  - split; [|intros _; lra]. intros _. exists m. split; [|lra]. destruct (Rle_dec (m - rh V) 0); destruct (Rle_dec 0 (m - rl V)); try lra; exfalso; nra.
  - assert (C : (0 < m - rh V /\ 0 < m - rl V) \/ (m - rh V < 0 /\ m - rl V < 0)) by (destruct (Rtotal_order (m - rh V) 0) as [|[|]]; destruct (Rtotal_order (m - rl V) 0) as [|[|]]; try lra; exfalso; nra).
    destruct C as [[C1 C2]|[C1 C2]].
    + rewrite !Rabs_right by lra. rewrite Rmin_left by lra. split; [intro H; exists (rh V); lra | intros (r & H1 & H2); lra].
    + rewrite !Rabs_left by lra. rewrite Rmin_right by lra. split; [intro H; exists (rl V); lra | intros (r & H1 & H2); lra].
Qed.
(** ** Every value between two values of the model is a value *)
Definition seg (t : R) (ys zs : list R) : list R := map (fun p => (1 - t) * fst p + t * snd p) (combine ys zs).
Lemma seg_in Xs ys zs t : 0 <= t <= 1 -> in_box Xs ys -> in_box Xs zs -> in_box Xs (seg t ys zs).
Proof.
  intro Ht. revert ys zs. induction Xs as [|X Xs IH]; intros ys zs Hy Hz; inversion Hy; inversion Hz; subst; [constructor|]. unfold seg. cbn [combine map fst snd]. constructor; [|now apply IH].
  unfold inI in *. split; nra.
Qed.
Lemma seg_0 ys zs : length ys = length zs -> seg 0 ys zs = ys.
Proof. revert zs. induction ys as [|y ys IH]; intros [|z zs] L; try discriminate; [reflexivity|]. unfold seg in *. cbn [combine map fst snd]. rewrite IH by (simpl in L; lia). f_equal. ring. Qed.
Lemma seg_1 ys zs : length ys = length zs -> seg 1 ys zs = zs.
Proof. revert zs. induction ys as [|y ys IH]; intros [|z zs] L; try discriminate; [reflexivity|]. unfold seg in *. cbn [combine map fst snd]. rewrite IH by (simpl in L; lia). f_equal. ring. Qed.
Lemma sm_comb bk cs : forall d x, smooth_at (combination (basis bk) d cs) x.
Proof.
  induction cs as [|c cs IH]; intros d x; [exact (sm_const 0 x)|]. apply (sm_plus (fun y => c * basis bk d y) (combination (basis bk) (S d) cs)); [|apply IH].
  apply (sm_mult (fun _ => c) (basis bk d)); [apply sm_const | apply sm_basis].
Qed.
Lemma sm_comp f g x : smooth_at g x -> smooth_at f (g x) -> smooth_at (fun y => f (g y)) x.
Proof. intros [a Ha] [b Hb]. exists (b * a). exact (derivable_pt_lim_comp g f x a b Ha Hb). Qed.
Lemma sm_seg bk : forall orders beta ys zs t, smooth_at (fun t => additive (basis bk) beta orders (seg t ys zs)) t.
Proof.
  induction orders as [|o orders IH]; intros beta ys zs t; [exact (sm_const 0 t)|]. destruct ys as [|y ys]; [exact (sm_const 0 t)|]. destruct zs as [|z zs]; [exact (sm_const 0 t)|].
  unfold seg in *. cbn [combine map fst snd additive].
  apply (sm_plus (fun t => combination (basis bk) 1 (firstn o beta) ((1 - t) * y + t * z))); [|apply IH].
  apply (sm_comp (combination (basis bk) 1 (firstn o beta)) (fun t => (1 - t) * y + t * z)); [|apply sm_comb].
  apply (sm_plus (fun t => (1 - t) * y) (fun t => t * z)); [apply (sm_mult (fun t => 1 - t) (fun _ => y)) | apply (sm_mult (fun t => t) (fun _ => z))];
    try exact (sm_const _ t); try exact (sm_id t). apply (sm_minus (fun _ => 1) (fun t => t)); [exact (sm_const 1 t) | exact (sm_id t)].
Qed.
Lemma box_length Xs ys : in_box Xs ys -> length ys = length Xs. Proof. intro H. induction H; simpl; [reflexivity | now f_equal]. Qed.
Lemma model_between bk beta orders Xs ys zs r : in_box Xs ys -> in_box Xs zs -> additive (basis bk) beta orders ys <= r <= additive (basis bk) beta orders zs ->
  exists xs, in_box Xs xs /\ additive (basis bk) beta orders xs = r.
Proof.
  intros Hy Hz Hr. set (g := fun t => additive (basis bk) beta orders (seg t ys zs) - r).
  assert (L : length ys = length zs) by (rewrite (box_length _ _ Hy), (box_length _ _ Hz); reflexivity).
  assert (G0 : g 0 <= 0) by (unfold g; rewrite seg_0 by exact L; lra). assert (G1 : 0 <= g 1) by (unfold g; rewrite seg_1 by exact L; lra).
  assert (C : continuity g).
  { intro t. apply sm_cont. apply (sm_minus (fun t => additive (basis bk) beta orders (seg t ys zs)) (fun _ => r)); [apply sm_seg | apply sm_const]. }
  destruct (IVT_cor g 0 1 C ltac:(lra) ltac:(nra)) as (t & Ht & Et). exists (seg t ys zs). split; [now apply seg_in | unfold g in Et; lra].
Qed.
(** ** The objectives *)
Lemma range_proper f Xs Z : exact_range_box f Xs Z -> proper Z.
Proof. intros (H & (y & Hy & E) & _). assert (Q := H y Hy). unfold inI, proper in *. lra. Qed.
Lemma ispae_obj uni nm bk roots k N rows y w x : fst (ispae_calcfg uni nm bk roots k N rows y w x) =
  - fst (wrap_norm nm k (fun i => ispae_residual uni (w i) (y i) (the (r_point 0) (ispae_value bk roots (map x (seq 0 N)) (rows i))))).
Proof. unfold ispae_calcfg. destruct (wrap_norm _ _ _). reflexivity. Qed.
Lemma wrap_inf k f : fst (wrap_norm NInf k f) = vmin k f.
Proof. cbn [wrap_norm fst]. symmetry. apply argmin_spec. Qed.
Lemma wrap_l1 k f : fst (wrap_norm NL1 k f) = total (S k) f.
Proof. cbn [wrap_norm fst]. apply vsum_eq. Qed.
Lemma vmin_nn k f : 0 <= vmin k f <-> forall i, (i < S k)%nat -> 0 <= f i.
Proof.
  split; [intros H i Hi; assert (Q := vmin_le k f i ltac:(lia)); lra|]. intro H. destruct (vmin_in k f) as (i & Hi & ->). apply H. lia.
Qed.
Theorem ispae_tol_recognizes bk roots k N rows y w x : data_ok bk roots k rows -> positive (S k) w ->
  (0 <= - fst (ispae_calcfg false NInf bk roots k N rows y w x) <-> forall i, (i < S k)%nat -> fits_all bk (map x (seq 0 N)) (rows i) (y i)).
Proof.
  intros D W. rewrite ispae_obj, wrap_inf, Ropp_involutive, vmin_nn. set (beta := map x (seq 0 N)).
  assert (Q : forall i, (i < S k)%nat -> 0 <= ispae_residual false (w i) (y i) (the (r_point 0) (ispae_value bk roots beta (rows i))) <-> fits_all bk beta (rows i) (y i)).
  { intros i Hi. destruct (D i Hi) as [DP DR]. destruct (row_range bk roots (rows i) beta DP DR) as (Z & -> & RG). cbn [the].
    rewrite (tol_residual (w i) (y i) Z (W i Hi) (range_proper _ _ _ RG)). destruct RG as (H & (ys & Hy & Ey) & (zs & Hz & Ez)). split.
    - intros [H1 H2] xs Hx. assert (Q := H xs Hx). unfold inI in *. lra.
    - intro F. assert (Q1 := F ys Hy). assert (Q2 := F zs Hz). unfold inI in *. lra. }
  split; intros H i Hi; now apply Q, H.
Qed.
Theorem ispae_uni_recognizes bk roots k N rows y w x : data_ok bk roots k rows -> positive (S k) w -> proper_vec (S k) y ->
  (0 <= - fst (ispae_calcfg true NInf bk roots k N rows y w x) <-> forall i, (i < S k)%nat -> fits_some bk (map x (seq 0 N)) (rows i) (y i)).
Proof.
  intros D W PY. rewrite ispae_obj, wrap_inf, Ropp_involutive, vmin_nn. set (beta := map x (seq 0 N)).
  assert (Q : forall i, (i < S k)%nat -> 0 <= ispae_residual true (w i) (y i) (the (r_point 0) (ispae_value bk roots beta (rows i))) <-> fits_some bk beta (rows i) (y i)).
  { intros i Hi. destruct (D i Hi) as [DP DR]. destruct (row_range bk roots (rows i) beta DP DR) as (Z & -> & RG). cbn [the].
    rewrite (uni_residual (w i) (y i) Z (W i Hi) (range_proper _ _ _ RG) (PY i Hi)). destruct RG as (H & (ys & Hy & Ey) & (zs & Hz & Ez)). split.
    - intros (r & H1 & H2). destruct (model_between bk beta (map fst (rows i)) (map snd (rows i)) ys zs r Hy Hz) as (xs & Hx & E); [unfold inI in *; lra|]. exists xs. rewrite E. auto.
    - intros (xs & Hx & F). eexists. split; [apply H; exact Hx | exact F]. }
  split; intros H i Hi; now apply Q, H.
Qed.
Theorem ispae_fit_spec uni nm bk roots alpha beta k N big P rows y weight x0 x v w' : ispae_fit uni nm bk roots alpha beta k N big P rows y weight x0 = (x, v, w') ->
  let w := fst (fit_weights (fun t => t) alpha beta weight) in
  v = - fst (ispae_calcfg uni nm bk roots k N rows y w x) /\ - fst (ispae_calcfg uni nm bk roots k N rows y w x0) <= v.
Proof.
  intro E. cbv zeta. unfold ispae_fit in E. destruct (fit_weights (fun t => t) alpha beta weight) as [w wt]. cbn [fst].
  set (fg := ispae_calcfg uni nm bk roots k N rows y w) in *.
  destruct (ralgb5 (real_ops N big) P fg N x0) as [r t] eqn:R. cbn [fst] in E.
  assert (Ex : x = r_x _ r) by congruence. assert (Ev : v = - r_f _ r) by congruence. clear E.
  destruct (ralgb5_best _ _ _ _ _ _ _ R) as (_ & F & I & _). destruct (real_order N big) as [O1 O2].
  assert (B := ralgb5_no_better _ _ _ _ _ _ _ O1 O2 R x0 I). cbn [n_lt real_ops real_ops_with] in B.
  rewrite Ev, Ex. split; [rewrite F; reflexivity|]. destruct Rlt_dec as [|N0]; [discriminate|]. apply Ropp_le_contravar, Rnot_lt_le. exact N0.
Qed.
Theorem ispae_tol_fit bk roots alpha beta k N big P rows y weight x0 x v w' : data_ok bk roots k rows -> positive (S k) (fst (fit_weights (fun t => t) alpha beta weight)) ->
  ispae_fit false NInf bk roots alpha beta k N big P rows y weight x0 = (x, v, w') ->
  (0 <= v <-> forall i, (i < S k)%nat -> fits_all bk (map x (seq 0 N)) (rows i) (y i)).
Proof. intros D W E. destruct (ispae_fit_spec _ _ _ _ _ _ _ _ _ _ _ _ _ _ _ _ _ E) as [V _]. rewrite V. now apply ispae_tol_recognizes. Qed.

(** ** A concrete oracle: monomials up to degree two *)
Definition qroots (beta : list R) (degs : list nat) : list R :=
  match degs with
  | [1%nat; 2%nat] => let b1 := nth 0 beta 0 in let b2 := nth 1 beta 0 in if Req_EM_T b2 0 then [] else [- b1 / (2 * b2)]
  | [2%nat] => [0]
  | _ => []
  end.
Lemma quad_deriv b1 b2 x : derivable_pt_lim (fun y => b1 * y + b2 * y ^ 2) x (b1 + 2 * b2 * x).
Proof.
  assert (D1 := derivable_pt_lim_scal (fun y => y) b1 x 1 (derivable_pt_lim_id x)). assert (D2 := derivable_pt_lim_scal (fun y => y ^ 2) b2 x _ (derivable_pt_lim_pow x 2)).
  assert (D := derivable_pt_lim_plus _ _ x _ _ D1 D2). cbn [Nat.pred] in D. replace (b1 * 1 + b2 * (INR 2 * x ^ 1)) with (b1 + 2 * b2 * x) in D by (simpl; ring). exact D.
Qed.
Lemma quad_poly beta x : poly Monom beta [1%nat; 2%nat] x = nth 0 beta 0 * x + nth 1 beta 0 * x ^ 2.
Proof. destruct beta as [|b1 [|b2 beta]]; cbn [poly nth]; rewrite ?monom_pow; [ring | simpl; ring|]. destruct beta; simpl; ring. Qed.
Lemma quad_lists b1 b2 : lists_roots (fun y => b1 * y + b2 * y ^ 2) (if Req_EM_T b2 0 then [] else [- b1 / (2 * b2)]).
Proof.
  destruct Req_EM_T as [->|N].
  - destruct (Req_dec b1 0) as [->|N1]; [right; intros; ring|]. left. intros x D. assert (E := uniqueness_limite _ _ _ _ (quad_deriv b1 0 x) D). exfalso. apply N1. lra.
  - left. intros x D. assert (E := uniqueness_limite _ _ _ _ (quad_deriv b1 b2 x) D). left. field_simplify_eq; [lra | lra].
Qed.
Lemma qroots_ok : roots_ok Monom [2%nat] qroots /\ basis_roots_ok Monom [2%nat] qroots.
Proof.
  split.
  - intros o beta [<-|[]]. cbn [seq qroots]. apply (lists_roots_ext (fun y => nth 0 beta 0 * y + nth 1 beta 0 * y ^ 2)); [intro; symmetry; apply quad_poly | apply quad_lists].
  - intros o d [<-|[]] Hd. assert (E : d = 1%nat \/ d = 2%nat) by lia. destruct E as [-> | ->]; cbn [qroots].
    + apply (lists_roots_ext (fun y => 1 * y + 0 * y ^ 2)); [intro; rewrite monom_pow; ring|]. assert (Q := quad_lists 1 0). destruct Req_EM_T; [exact Q | lra].
    + apply (lists_roots_ext (fun y => 0 * y + 1 * y ^ 2)); [intro; rewrite monom_pow; ring|]. assert (Q := quad_lists 0 1). destruct Req_EM_T; [lra|]. replace (- 0 / (2 * 1)) with 0 in Q by field. exact Q.
Qed.
(** x + x^2 over [-1,1] is [-1/4,2], but predict gives [-1,2] *)
Definition iq_rows : nat -> list (nat * rit) := fun _ => [(2%nat, mkr (-1) 1)].
Lemma iq_data : data_ok Monom qroots 0 iq_rows.
Proof. intros i _. split; [repeat constructor; unfold proper; simpl; lra | exact (proj1 qroots_ok)]. Qed.
Ltac rr := repeat (unfold Rmin, Rmax; match goal with |- context [Rle_dec ?a ?b] => destruct (Rle_dec a b); try lra | H : context [Rle_dec ?a ?b] |- _ => destruct (Rle_dec a b); try lra end); cbn [pow] in *; try lra.
Lemma iq_col d : d = 1%nat \/ d = 2%nat -> value_of_one_col Monom qroots [1] [d] (mkr (-1) 1) = Some (if Nat.eqb d 1 then mkr (-1) 1 else mkr 0 1).
Proof.
  intros [-> | ->]; unfold value_of_one_col; cbn [qroots rl rh filter Nat.eqb].
  - destruct (Rle_dec (-1) (-1)); [|lra]. destruct (Rle_dec (-1) 1); [|lra]. destruct (Rle_dec 1 1); [|lra]. cbn [map fold_left]. rewrite !poly_one, !monom_pow. f_equal. f_equal; rr; simpl; lra.
  - destruct (Rle_dec (-1) (-1)); [|lra]. destruct (Rle_dec (-1) 1); [|lra]. destruct (Rle_dec 1 1); [|lra]. destruct (Rle_dec (-1) 0); [|lra]. destruct (Rle_dec 0 1); [|lra].
    cbn [map fold_left]. rewrite !poly_one, !monom_pow. cbn [pow]. f_equal. f_equal; rr.
Qed.
Lemma iq_expand : expand_row Monom qroots (iq_rows 0) = Some [mkr (-1) 1; mkr 0 1].
Proof. unfold expand_row, iq_rows. cbn [flat_map fst snd seq map app]. rewrite !iq_col by auto. reflexivity. Qed.
Lemma iq_value b1 b2 : b2 <> 0 -> -1 <= - b1 / (2 * b2) <= 1 ->
  ispae_value Monom qroots [b1; b2] (iq_rows 0) = Some (mkr (Rmin (Rmin (b2 - b1) (b1 + b2)) (- b1 ^ 2 / (4 * b2))) (Rmax (Rmax (b2 - b1) (b1 + b2)) (- b1 ^ 2 / (4 * b2)))).
Proof.
  intros N H. unfold iq_rows. cbn [ispae_value firstn skipn seq]. unfold value_of_one_col. cbn [qroots nth rl rh]. destruct (Req_EM_T b2 0); [lra|]. cbn [filter].
  destruct (Rle_dec (-1) (-1)); [|lra]. destruct (Rle_dec (-1) 1); [|lra]. destruct (Rle_dec 1 1); [|lra]. destruct (Rle_dec (-1) (- b1 / (2 * b2))); [|lra]. destruct (Rle_dec (- b1 / (2 * b2)) 1); [|lra].
  cbn [map fold_left]. rewrite !quad_poly. cbn [nth]. unfold r_add, r_point. cbn [rl rh]. rewrite !Rplus_0_r.
  replace (b1 * -1 + b2 * (-1) ^ 2) with (b2 - b1) by ring. replace (b1 * 1 + b2 * 1 ^ 2) with (b1 + b2) by ring. 
  replace (b1 * (- b1 / (2 * b2)) + b2 * (- b1 / (2 * b2)) ^ 2) with (- b1 ^ 2 / (4 * b2)) by (field; exact N). reflexivity.
Qed.
Definition v11 : vec := fun _ => 1.
Theorem predict_outside : exists bk roots k N rows y w x Z, data_ok bk roots k rows /\ basis_roots_ok bk (map fst (rows 0%nat)) roots /\ positive (S k) w /\
  0 <= - fst (ispae_calcfg false NInf bk roots k N rows y w x) /\ ispae_predict bk roots (map x (seq 0 N)) (rows 0%nat) = Some Z /\ ~ (rl (y 0%nat) <= rl Z /\ rh Z <= rh (y 0%nat)).
Proof.
  exists Monom, qroots, 0%nat, 2%nat, iq_rows, (fun _ => mkr (-1 / 4) 2), ones, v11. eexists.
  split; [exact iq_data|]. split; [exact (proj2 qroots_ok)|]. split; [intros i _; unfold ones; lra|]. split; [|split].
  - rewrite ispae_obj, wrap_inf, Ropp_involutive. cbn [vmin]. cbn [seq map v11]. unfold v11. rewrite iq_value by lra. cbn [the]. apply tol_residual; [unfold ones; lra | unfold proper; cbn [rl rh]; rr |].
    cbn [rl rh]. split; rr.
  - unfold ispae_predict. rewrite iq_expand. cbn [seq map v11 row_at]. reflexivity.
  - unfold v11, r_scale, r_add, r_point. cbn [rl rh]. intros [H _]. revert H. rr.
Qed.
(** The vector given to the optimizer need not be a subgradient. *)
Theorem ispae_gradient_refuted : exists bk roots k N rows y x, data_ok bk roots k rows /\ basis_roots_ok bk (map fst (rows 0%nat)) roots /\
  exists z, fst (ispae_calcfg false NInf bk roots k N rows y ones z) <
    fst (ispae_calcfg false NInf bk roots k N rows y ones x) + dot N (snd (ispae_calcfg false NInf bk roots k N rows y ones x)) (minus z x).
Proof.
  exists Monom, qroots, 0%nat, 2%nat, iq_rows, (fun _ => mkr 9 11), v11. split; [exact iq_data|]. split; [exact (proj2 qroots_ok)|].
  exists (fun j => match j with O => 2 | _ => 1 end). rewrite !ispae_obj, !wrap_inf. cbn [vmin seq map]. unfold v11 at 1 2. rewrite !iq_value by lra. cbn [the].
  assert (E1 : forall a b, Rmin (Rmin (1 - 1) (1 + 1)) (- 1 ^ 2 / (4 * 1)) = a -> Rmax (Rmax (1 - 1) (1 + 1)) (- 1 ^ 2 / (4 * 1)) = b -> a = -1 / 4 /\ b = 2) by (intros a b <- <-; split; rr).
  destruct (E1 _ _ eq_refl eq_refl) as [-> ->].
  assert (E2 : forall a b, Rmin (Rmin (1 - 2) (2 + 1)) (- 2 ^ 2 / (4 * 1)) = a -> Rmax (Rmax (1 - 2) (2 + 1)) (- 2 ^ 2 / (4 * 1)) = b -> a = -1 /\ b = 3) by (intros a b <- <-; split; rr).
  destruct (E2 _ _ eq_refl eq_refl) as [-> ->].
  assert (G : forall j, snd (ispae_calcfg false NInf Monom qroots 0 2 iq_rows (fun _ => mkr 9 11) ones v11) j = match j with O => 1 | 1%nat => 0 | _ => 0 end).
  { intro j. unfold ispae_calcfg. cbn [wrap_norm argmin snd fold_left seq map]. rewrite iq_expand. unfold v11 at 1 2. rewrite iq_value by lra. cbn [the]. destruct (E1 _ _ eq_refl eq_refl) as [-> ->].
    unfold ispae_diff, r_csub, r_mid. cbn [rl rh]. destruct Rle_dec; [|lra]. unfold sel_row, v11, pick, ones. cbn [combine map fst snd rl rh]. destruct (Rle_dec 0 1); [|lra].
    destruct j as [|[|j]]; cbn [nth]; try ring. destruct j; cbn; ring. }
  unfold dot. cbn [total]. rewrite !G. unfold minus, v11, ispae_residual, r_csub, r_mid, r_rad, ones. cbn [rl rh]. rewrite !Rabs_right by lra. rr.
Qed.
