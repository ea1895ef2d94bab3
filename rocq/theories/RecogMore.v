(** Further proofs about the recognizing functionals: gradients of Uni and Uss,
    the metric axioms of dist, the linear penalty. *)
From Coq Require Import Reals List Arith Lia Lra Psatz Bool.
From Verif Require Import Exact Recog SpecExact ExactProofs RecogProofs.
Import ListNotations.
Open Scope R_scope.

Lemma sgn_cases a : (0 < a /\ sgn a = 1) \/ (a = 0 /\ sgn a = 0) \/ (a < 0 /\ sgn a = -1).
Proof. unfold sgn. destruct Rlt_dec; [auto|]. destruct Rlt_dec; [right; right; auto | right; left; split; [lra | reflexivity]]. Qed.

(** in one closed orthant the upper end of [A y] is linear in [y] *)
Lemma hi_orthant m n A x y i : proper_mat m n A -> (i < m)%nat -> same_orthant n x y -> rh (imv n A y i) = times n (at_hi A x) y i.
Proof.
  intros P Hi O. rewrite (imv_hi m n A y i P Hi). apply total_ext. intros j Hj. destruct (O j Hj) as [N S].
  unfold at_hi, pick. destruct (Rle_dec 0 (x j)), (Rle_dec 0 (y j)); try reflexivity.
  - assert (y j < 0) by lra. assert (0 < x j) by lra. nra.
  - assert (y j = 0) as -> by nra. ring.
Qed.
Lemma lo_orthant m n A x y i : proper_mat m n A -> (i < m)%nat -> same_orthant n x y -> rl (imv n A y i) = times n (at_lo A x) y i.
Proof.
  intros P Hi O. rewrite (imv_lo m n A y i P Hi). apply total_ext. intros j Hj. destruct (O j Hj) as [N S].
  unfold at_lo, pick. destruct (Rle_dec 0 (x j)), (Rle_dec 0 (y j)); try reflexivity.
  - assert (y j < 0) by lra. assert (0 < x j) by lra. nra.
  - assert (y j = 0) as -> by nra. ring.
Qed.
Lemma mig_ge c X : proper X -> c - rh X <= r_mig (r_csub c X) /\ rl X - c <= r_mig (r_csub c X).
Proof. intro P. destruct (proj1 (mig_csub_le c X _ P) (Rle_refl _)) as (A & B). lra. Qed.

Lemma uni_subgradient k n A b w x : proper_mat (S k) n A -> non_negative (S k) w ->
  (forall i, (i < S k)%nat -> uni_constituent n A b x w i = uni_value k n A b x w -> ~ (rl (imv n A x i) < r_mid (b i) < rh (imv n A x i))) ->
  forall y, same_orthant n x y ->
  - uni_value k n A b x w + dot n (snd (uni_fg k n A b w x)) (minus y x) <= - uni_value k n A b y w.
Proof.
  intros P W H0 y O. unfold uni_fg, uni_calcfg. cbv zeta. cbn [snd].
  set (t := fun i => _ * _). set (mc := argmin k t).
  assert (F : forall i, (i <= k)%nat -> t i = uni_constituent n A b x w i).
  { intros i Hi. unfold t. destruct (cf_ends k n A b x i P) as [-> ->]; [lia|]. unfold uni_constituent. rewrite cf_mig_eq; [reflexivity | apply csub_proper, imv_proper]. }
  destruct (argmin_spec k t) as (L & E & _). fold mc in L, E.
  destruct (cf_ends k n A b x mc P) as [EI ES]; [lia|].
  assert (V : uni_value k n A b x w = uni_constituent n A b x w mc).
  { unfold uni_value. rewrite <- (vmin_ext k t _ F), E. apply F. exact L. }
  specialize (H0 mc ltac:(lia) (eq_sym V)).
  assert (U : uni_value k n A b y w <= w mc * (r_rad (b mc) - r_mig (r_csub (r_mid (b mc)) (imv n A y mc)))) by (apply (vmin_le k (uni_constituent n A b y w)); exact L).
  assert (Wm : 0 <= w mc) by (apply W; lia).
  assert (PX := imv_proper n A x mc). assert (PY := imv_proper n A y mc).
  destruct (mig_ge (r_mid (b mc)) _ PY) as [G1 G2].
  assert (SX : same_orthant n x x) by (intros j Hj; destruct (O j Hj); split; [assumption|nra]).
  assert (HX := hi_orthant (S k) n A x x mc P ltac:(lia) SX). assert (LX := lo_orthant (S k) n A x x mc P ltac:(lia) SX).
  assert (HY := hi_orthant (S k) n A x y mc P ltac:(lia) O). assert (LY := lo_orthant (S k) n A x y mc P ltac:(lia) O).
  rewrite V, EI, ES. cbn [rl rh r_csub]. unfold uni_constituent. unfold proper in PX, PY.
  destruct Rle_dec as [H|H].
  - assert (MX : r_mig (r_csub (r_mid (b mc)) (imv n A x mc)) = r_mid (b mc) - rh (imv n A x mc)).
    { apply Rle_antisym; [|apply mig_ge; exact PX]. apply mig_csub_le; [exact PX|]. lra. }
    rewrite MX. rewrite dot_opp, dot_scal.
    replace (dot n (fun j => pick (x j) (sups_of A mc j) (infs_of A mc j)) (minus y x)) with (times n (at_hi A x) y mc - times n (at_hi A x) x mc) by (rewrite !times_dot, <- dot_minus; reflexivity).
    rewrite <- HX, <- HY. nra.
  - assert (MX : r_mig (r_csub (r_mid (b mc)) (imv n A x mc)) = rl (imv n A x mc) - r_mid (b mc)).
    { apply Rle_antisym; [|apply mig_ge; exact PX]. apply mig_csub_le; [exact PX|]. lra. }
    rewrite MX. rewrite dot_opp, dot_scal.
    replace (dot n (fun j => pick (x j) (infs_of A mc j) (sups_of A mc j)) (minus y x)) with (times n (at_lo A x) y mc - times n (at_lo A x) x mc) by (rewrite !times_dot, <- dot_minus; reflexivity).
    rewrite <- LX, <- LY. nra.
Qed.

Lemma abs_orthant x y : x <> 0 -> 0 <= x * y -> Rabs y = sgn x * y.
Proof.
  intros N H. destruct (sgn_cases x) as [[H1 ->]|[[H1 _]|[H1 ->]]]; [|contradiction|].
  - rewrite Rabs_pos_eq; nra.
  - rewrite Rabs_left1; nra.
Qed.
Lemma sgn_abs d e : Rabs d + sgn d * (e - d) <= Rabs e.
Proof.
  destruct (sgn_cases d) as [[H ->]|[[H ->]|[H ->]]].
  - rewrite (Rabs_pos_eq d) by lra. generalize (Rle_abs e). lra.
  - rewrite H, Rabs_R0. generalize (Rabs_pos e). lra.
  - rewrite (Rabs_left1 d) by lra. rewrite <- (Rabs_Ropp e). generalize (Rle_abs (- e)). lra.
Qed.
Lemma uss_subgradient k n A b w x : non_negative (S k) w -> forall y, same_orthant n x y ->
  - uss_value k n A b x w + dot n (snd (uss_fg k n A b w x)) (minus y x) <= - uss_value k n A b y w.
Proof.
  intros W y O. unfold uss_fg, uss_calcfg. cbv zeta. cbn [snd].
  set (t := fun i => _ * _). set (mc := argmin k t).
  destruct (argmin_spec k t) as (L & E & _). fold mc in L, E.
  assert (V : uss_value k n A b x w = t mc) by (unfold uss_value; rewrite <- E; reflexivity).
  assert (U : uss_value k n A b y w <= uss_constituent n A b y w mc) by (apply (vmin_le k (uss_constituent n A b y w)); exact L).
  assert (Wm : 0 <= w mc) by (apply W; lia).
  rewrite V. unfold t. unfold uss_constituent in U.
  set (dx := r_mid (b mc) - mv n (mids A) x mc) in *. set (dy := r_mid (b mc) - mv n (mids A) y mc) in *.
  assert (G := sgn_abs dx dy).
  rewrite dot_opp, dot_scal.
  assert (D : dot n (fun j => sgn (x j) * rads A mc j + sgn dx * mids A mc j) (minus y x) = (mv n (rads A) (vabs y) mc - mv n (rads A) (vabs x) mc) + sgn dx * (dx - dy)).
  { assert (DD : dx - dy = total n (fun j => mids A mc j * y j - mids A mc j * x j)).
    { unfold dx, dy, mv. change vsum with total. rewrite total_minus. ring. }
    rewrite DD. unfold dot, mv, minus, vabs. change vsum with total.
    rewrite <- total_minus, <- (total_scal n (sgn dx)), <- total_plus. apply total_ext. intros j Hj. destruct (O j Hj) as [N S].
    rewrite (abs_orthant (x j) (y j) N S), (abs_orthant (x j) (x j) N) by nra. ring. }
  rewrite D. nra.
Qed.

(** ** C32: dist *)
Lemma cheb_nn x y : 0 <= cheb x y.
Proof. unfold cheb. eapply Rle_trans; [apply Rabs_pos | apply Rmax_l]. Qed.
Lemma cheb_sym x y : cheb x y = cheb y x.
Proof. unfold cheb. rewrite (Rabs_minus_sym (rl x)), (Rabs_minus_sym (rh x)). reflexivity. Qed.
Lemma cheb_zero x y : cheb x y = 0 <-> x = y.
Proof.
  split.
  - unfold cheb. intro H. assert (A := Rmax_l (Rabs (rl x - rl y)) (Rabs (rh x - rh y))). assert (B := Rmax_r (Rabs (rl x - rl y)) (Rabs (rh x - rh y))).
    rewrite H in A, B. apply Rabs_le_iff in A, B. destruct x, y; simpl in *. f_equal; lra.
  - intros ->. unfold cheb. rewrite !Rminus_eq_0, Rabs_R0. apply Rmax_left; lra.
Qed.
Lemma cheb_tri x y z : cheb x z <= cheb x y + cheb y z.
Proof.
  unfold cheb. apply Rmax_lub.
  - replace (rl x - rl z) with ((rl x - rl y) + (rl y - rl z)) by ring. eapply Rle_trans; [apply Rabs_triang|]. apply Rplus_le_compat; apply Rmax_l.
  - replace (rh x - rh z) with ((rh x - rh y) + (rh y - rh z)) by ring. eapply Rle_trans; [apply Rabs_triang|]. apply Rplus_le_compat; apply Rmax_r.
Qed.
Lemma dist_inf_nn k x y : 0 <= dist_inf k x y.
Proof. unfold dist_inf. eapply Rle_trans; [apply (cheb_nn (x 0%nat) (y 0%nat))|]. apply (le_vmax k (fun i => cheb (x i) (y i))). lia. Qed.
Lemma dist_inf_zero k x y : dist_inf k x y = 0 <-> forall i, (i < S k)%nat -> x i = y i.
Proof.
  split.
  - intros H i Hi. apply cheb_zero. apply Rle_antisym; [|apply cheb_nn]. rewrite <- H. apply (le_vmax k (fun i => cheb (x i) (y i))). lia.
  - intro H. apply Rle_antisym; [|apply dist_inf_nn]. unfold dist_inf. apply vmax_le. intros i Hi. rewrite H by lia. apply Req_le, cheb_zero. reflexivity.
Qed.
Lemma dist_inf_sym k x y : dist_inf k x y = dist_inf k y x.
Proof. unfold dist_inf. apply vmax_ext. intros. apply cheb_sym. Qed.
Lemma dist_inf_tri k x y z : dist_inf k x z <= dist_inf k x y + dist_inf k y z.
Proof.
  unfold dist_inf at 1. apply vmax_le. intros i Hi. eapply Rle_trans; [apply (cheb_tri _ (y i))|].
  apply Rplus_le_compat; [apply (le_vmax k (fun i => cheb (x i) (y i))) | apply (le_vmax k (fun i => cheb (y i) (z i)))]; lia.
Qed.

(** powers and roots *)
Lemma root_nn p s : 0 <= root p s.
Proof. unfold root. destruct Rle_dec; [lra | left; apply exp_pos]. Qed.
Lemma root_pow p s : (0 < p)%nat -> 0 <= s -> root p s ^ p = s.
Proof.
  intros Hp Hs. unfold root. destruct Rle_dec.
  - assert (s = 0) as -> by lra. apply pow_i. lia.
  - rewrite <- Rpower_pow by apply exp_pos. rewrite Rpower_mult. rewrite Rinv_l by (apply not_0_INR; lia). apply Rpower_1. lra.
Qed.
Lemma pow_le_inv p a b : (0 < p)%nat -> 0 <= a -> 0 <= b -> a ^ p <= b ^ p -> a <= b.
Proof.
  intros Hp Ha Hb H. destruct (Rle_dec a b) as [|N]; [assumption|]. exfalso.
  assert (b < a) by lra. assert (b ^ p < a ^ p); [|lra]. clear H N Ha. induction p; [lia|].
  destruct p; [simpl; lra|]. assert (IH : b ^ S p < a ^ S p) by (apply IHp; lia).
  change (b * b ^ S p < a * a ^ S p). assert (0 <= b ^ S p) by (apply pow_le; lra). nra.
Qed.
Lemma pow_mono p a b : 0 <= a <= b -> a ^ p <= b ^ p.
Proof. intro H. apply pow_incr. assumption. Qed.
Lemma pow_convex p u v l m : 0 <= u -> 0 <= v -> 0 <= l -> 0 <= m -> l + m = 1 -> (l * u + m * v) ^ p <= l * u ^ p + m * v ^ p.
Proof.
  intros Hu Hv Hl Hm E. induction p; [simpl; lra|].
  simpl. assert (D : 0 <= (u - v) * (u ^ p - v ^ p)).
  { destruct (Rle_dec u v); [assert (u ^ p <= v ^ p) by (apply pow_mono; lra); nra | assert (v ^ p <= u ^ p) by (apply pow_mono; lra); nra]. }
  assert (0 <= l * u + m * v) by nra.
  apply Rle_trans with ((l * u + m * v) * (l * u ^ p + m * v ^ p)); [apply Rmult_le_compat_l; assumption|].
  assert (l = 1 - m) as -> by lra.
  assert (0 <= m * (1 - m)) by nra.
  assert (0 <= (m * (1 - m)) * ((u - v) * (u ^ p - v ^ p))) by (apply Rmult_le_pos; assumption). nra.
Qed.
Definition pnorm (k p : nat) (f : vec) : R := root p (total (S k) (fun i => f i ^ p)).
Lemma pnorm_zero k p f : (0 < p)%nat -> (forall i, (i < S k)%nat -> 0 <= f i) -> pnorm k p f = 0 -> forall i, (i < S k)%nat -> f i = 0.
Proof.
  intros Hp Hf H i Hi. assert (N : 0 <= total (S k) (fun i => f i ^ p)) by (apply total_nn; intros; apply pow_le; auto).
  assert (E := root_pow p _ Hp N). unfold pnorm in H. rewrite H in E. rewrite pow_i in E by lia.
  assert (T := total_term (S k) (fun i => f i ^ p) i Hi). cbv beta in T. rewrite <- E in T.
  apply Rle_antisym; [|auto]. apply (pow_le_inv p); auto; [lra|]. rewrite pow_i by lia. apply T. intros; apply pow_le; auto.
Qed.
Lemma pnorm_all0 k p f : (0 < p)%nat -> (forall i, (i < S k)%nat -> f i = 0) -> pnorm k p f = 0.
Proof.
  intros Hp H. unfold pnorm. rewrite (total_ext (S k) _ (fun _ => 0)) by (intros i Hi; rewrite H by assumption; apply pow_i; lia).
  rewrite total_0 by reflexivity. unfold root. destruct Rle_dec; [reflexivity | lra].
Qed.
Lemma total_scal_div n c f : c <> 0 -> total n (fun i => f i / c) = total n f / c.
Proof. intro. unfold Rdiv. rewrite (Rmult_comm (total n f)), <- total_scal. apply total_ext. intros; ring. Qed.
Lemma minkowski k p f g : (0 < p)%nat -> (forall i, (i < S k)%nat -> 0 <= f i) -> (forall i, (i < S k)%nat -> 0 <= g i) ->
  pnorm k p (fun i => f i + g i) <= pnorm k p f + pnorm k p g.
Proof.
  intros Hp Hf Hg.
  assert (Af : 0 <= pnorm k p f) by apply root_nn. assert (Ag : 0 <= pnorm k p g) by apply root_nn.
  assert (Nf : 0 <= total (S k) (fun i => f i ^ p)) by (apply total_nn; intros; apply pow_le; auto).
  assert (Ng : 0 <= total (S k) (fun i => g i ^ p)) by (apply total_nn; intros; apply pow_le; auto).
  destruct (Req_dec (pnorm k p f) 0) as [Zf|Zf].
  { assert (Q := pnorm_zero k p f Hp Hf Zf). rewrite Zf, Rplus_0_l. apply Req_le. unfold pnorm. f_equal. apply total_ext. intros i Hi. rewrite Q by assumption. now rewrite Rplus_0_l. }
  destruct (Req_dec (pnorm k p g) 0) as [Zg|Zg].
  { assert (Q := pnorm_zero k p g Hp Hg Zg). rewrite Zg, Rplus_0_r. apply Req_le. unfold pnorm. f_equal. apply total_ext. intros i Hi. rewrite Q by assumption. now rewrite Rplus_0_r. }
  set (a := pnorm k p f) in *. set (c := pnorm k p g) in *. assert (0 < a) by lra. assert (0 < c) by lra.
  apply (pow_le_inv p); [assumption | apply root_nn | lra |].
  unfold pnorm. rewrite root_pow; [|assumption| apply total_nn; intros; apply pow_le; apply Rplus_le_le_0_compat; auto].
  assert (Ea : total (S k) (fun i => f i ^ p) = a ^ p) by (symmetry; apply root_pow; assumption).
  assert (Ec : total (S k) (fun i => g i ^ p) = c ^ p) by (symmetry; apply root_pow; assumption).
  assert (0 < a ^ p) by (apply pow_lt; assumption). assert (0 < c ^ p) by (apply pow_lt; assumption). assert (0 < (a + c) ^ p) by (apply pow_lt; lra).
  set (l := a / (a + c)). set (m := c / (a + c)).
  assert (Hl : 0 <= l) by (unfold l; apply Rlt_le, Rdiv_lt_0_compat; lra). assert (Hm : 0 <= m) by (unfold m; apply Rlt_le, Rdiv_lt_0_compat; lra).
  assert (LM : l + m = 1) by (unfold l, m; field; lra).
  assert (B : total (S k) (fun i => (f i + g i) ^ p) <= total (S k) (fun i => (a + c) ^ p * (l / a ^ p * f i ^ p + m / c ^ p * g i ^ p))).
  { apply total_le. intros i Hi.
    replace (f i + g i) with ((a + c) * (l * (f i / a) + m * (g i / c))) by (unfold l, m; field; lra).
    rewrite Rpow_mult_distr. apply Rmult_le_compat_l; [lra|].
    eapply Rle_trans; [apply pow_convex; try assumption; apply Rmult_le_pos; auto; left; apply Rinv_0_lt_compat; assumption|].
    unfold Rdiv. rewrite !Rpow_mult_distr, !pow_inv. lra. }
  eapply Rle_trans; [exact B|]. rewrite total_scal, total_plus, !total_scal, Ea, Ec. apply Req_le.
  replace (l / a ^ p * a ^ p + m / c ^ p * c ^ p) with (l + m) by (field; lra). rewrite LM. ring.
Qed.
Lemma pnorm_mono k p f g : (0 < p)%nat -> (forall i, (i < S k)%nat -> 0 <= f i <= g i) -> pnorm k p f <= pnorm k p g.
Proof.
  intros Hp H. apply (pow_le_inv p); [assumption | apply root_nn | apply root_nn |]. unfold pnorm.
  rewrite !root_pow; [| assumption | apply total_nn; intros i Hi; apply pow_le; specialize (H i Hi); lra | assumption | apply total_nn; intros i Hi; apply pow_le; apply H; assumption].
  apply total_le. intros i Hi. apply pow_mono. apply H; assumption.
Qed.
Lemma dist_p_pnorm k p x y : dist_p k p x y = pnorm k p (fun i => cheb (x i) (y i)).
Proof. reflexivity. Qed.
Lemma dist_p_tri k p x y z : (0 < p)%nat -> dist_p k p x z <= dist_p k p x y + dist_p k p y z.
Proof.
  intro Hp. rewrite !dist_p_pnorm. eapply Rle_trans; [|apply minkowski; [assumption | intros; apply cheb_nn | intros; apply cheb_nn]].
  apply pnorm_mono; [assumption|]. intros i Hi. split; [apply cheb_nn | apply cheb_tri].
Qed.
Lemma dist_p_zero k p x y : (0 < p)%nat -> (dist_p k p x y = 0 <-> forall i, (i < S k)%nat -> x i = y i).
Proof.
  intro Hp. rewrite dist_p_pnorm. split.
  - intros H i Hi. apply cheb_zero. apply (pnorm_zero k p (fun i => cheb (x i) (y i)) Hp); auto. intros; apply cheb_nn.
  - intro H. apply pnorm_all0; [assumption|]. intros i Hi. apply cheb_zero. auto.
Qed.
Lemma dist_p_sym k p x y : dist_p k p x y = dist_p k p y x.
Proof. unfold dist_p. f_equal. apply total_ext. intros. now rewrite cheb_sym. Qed.
Lemma dist_p_nn k p x y : 0 <= dist_p k p x y.
Proof. apply root_nn. Qed.

(** ** C37 *)
Lemma lsum_nn l : Forall (Rle 0) l -> 0 <= lsum l.
Proof. induction 1; simpl; lra. Qed.
Lemma lsum_zero l : Forall (Rle 0) l -> lsum l = 0 -> Forall (eq 0) l.
Proof.
  induction 1; intro E; [constructor|]. simpl in E. assert (A := lsum_nn _ H0). constructor; [lra|]. apply IHForall. lra.
Qed.
Definition row_ok (n : nat) (x : vec) (row : vec * R) : Prop := dot n (fst row) x <= snd row.
Lemma penalty_row_spec n x row : 0 <= fst (penalty_row n x row) /\ (fst (penalty_row n x row) = 0 <-> row_ok n x row).
Proof.
  unfold penalty_row, row_ok, dot. change vsum with total. destruct Rlt_dec; simpl; split; try lra; split; intro; lra.
Qed.
Lemma penalty_nn n rows x : 0 <= lsum (map fst (map (penalty_row n x) rows)).
Proof. apply lsum_nn. rewrite map_map. apply Forall_map, Forall_forall. intros. apply penalty_row_spec. Qed.
Lemma penalty_zero n rows x : lsum (map fst (map (penalty_row n x) rows)) = 0 <-> Forall (row_ok n x) rows.
Proof.
  split.
  - intro H. apply lsum_zero in H.
    + rewrite Forall_forall in *. intros r Hr. apply penalty_row_spec. symmetry. apply H. rewrite map_map. apply in_map_iff. exists r. split; [reflexivity|assumption].
    + rewrite map_map. apply Forall_map, Forall_forall. intros. apply penalty_row_spec.
  - induction 1; [reflexivity|]. simpl. rewrite IHForall. rewrite (proj2 (proj2 (penalty_row_spec n x x0)) H). lra.
Qed.
(** one row's hinge has the reported row as a subgradient *)
Lemma hinge_sub n x row : subgradient n (fun y => fst (penalty_row n y row)) x (snd (penalty_row n x row)).
Proof.
  intro y. unfold penalty_row at 1 2. change vsum with total. fold (dot n (fst row) x).
  destruct (Rlt_dec (snd row) (dot n (fst row) x)); simpl.
  - rewrite dot_minus. unfold penalty_row. change vsum with total. fold (dot n (fst row) y). destruct Rlt_dec; simpl; lra.
  - unfold dot. rewrite (total_ext n _ (fun _ => 0)) by (intros; ring). rewrite total_0 by reflexivity. generalize (proj1 (penalty_row_spec n y row)). lra.
Qed.
Lemma dot_lsum n (gs : list vec) d : dot n (fun j => lsum (map (fun g : vec => g j) gs)) d = lsum (map (fun g => dot n g d) gs).
Proof.
  induction gs; simpl.
  - unfold dot. rewrite (total_ext n _ (fun _ => 0)) by (intros; ring). apply total_0. reflexivity.
  - rewrite <- IHgs. unfold dot. rewrite <- total_plus. apply total_ext. intros; ring.
Qed.
Lemma penalty_sub n mu rows x : 0 <= mu -> subgradient n (fun y => fst (linear_penalty n mu rows y)) x (snd (linear_penalty n mu rows x)).
Proof.
  intros Hm y. unfold linear_penalty. cbv zeta. cbn [fst snd].
  rewrite dot_scal, <- Rmult_plus_distr_l. apply Rmult_le_compat_l; [assumption|].
  assert (E : dot n (fun j => lsum (map (fun p : R * vec => snd p j) (map (penalty_row n x) rows))) (minus y x)
    = lsum (map (fun r => dot n (snd (penalty_row n x r)) (minus y x)) rows)).
  { rewrite <- (map_map (fun r => snd (penalty_row n x r)) (fun g => dot n g (minus y x))). rewrite <- dot_lsum.
    unfold dot. apply total_ext. intros j _. f_equal. rewrite !map_map. reflexivity. }
  unfold vec in E |- *. rewrite E. clear E Hm.
  induction rows as [|a rows IH]; [apply Req_le; simpl; ring|]. cbn [map lsum fold_right] in *.
  generalize (hinge_sub n x a y). unfold vec, lsum in *. lra.
Qed.
Lemma row_any_iff n row : row_any n row = true <-> exists j, (j < n)%nat /\ row j <> 0.
Proof.
  unfold row_any. rewrite existsb_exists. split.
  - intros (j & Hj & H). apply in_seq in Hj. exists j. split; [lia|]. destruct Req_EM_T; [discriminate|assumption].
  - intros (j & Hj & H). exists j. split; [apply in_seq; lia|]. destruct Req_EM_T; [contradiction|reflexivity].
Qed.
Lemma lower_ok r n C lb x : Forall (row_ok n x) (lc_lower r n C lb) <->
  forall k v, (k < r)%nat -> lb k = BFin v -> (exists j, (j < n)%nat /\ C k j <> 0) -> v <= times n C x k.
Proof.
  unfold lc_lower. rewrite Forall_flat_map, Forall_forall. split.
  - intros H k v Hk E N. assert (Hin : In k (seq 0 r)) by (apply in_seq; lia). specialize (H k Hin). rewrite E in H.
    apply row_any_iff in N. rewrite N in H. apply Forall_inv in H. unfold row_ok in H; simpl in H. rewrite dot_opp in H. rewrite times_dot. lra.
  - intros H k Hk. apply in_seq in Hk. destruct (lb k) eqn:E; [|constructor]. destruct row_any eqn:N; [|constructor].
    apply row_any_iff in N. constructor; [|constructor]. unfold row_ok; simpl. rewrite dot_opp. assert (H' := H k r0 ltac:(lia) E N). rewrite times_dot in H'. lra.
Qed.
Lemma upper_ok r n C ub x : Forall (row_ok n x) (lc_upper r n C ub) <->
  forall k v, (k < r)%nat -> ub k = BFin v -> (exists j, (j < n)%nat /\ C k j <> 0) -> times n C x k <= v.
Proof.
  unfold lc_upper. rewrite Forall_flat_map, Forall_forall. split.
  - intros H k v Hk E N. assert (Hin : In k (seq 0 r)) by (apply in_seq; lia). specialize (H k Hin). rewrite E in H.
    apply row_any_iff in N. rewrite N in H. apply Forall_inv in H. exact H.
  - intros H k Hk. apply in_seq in Hk. destruct (ub k) eqn:E; [|constructor]. destruct row_any eqn:N; [|constructor].
    apply row_any_iff in N. constructor; [|constructor]. exact (H k r0 ltac:(lia) E N).
Qed.

(** find_mu *)
Lemma lmin_le l : forall d a, In a l -> lmin d l <= a.
Proof.
  induction l as [|b l IH]; intros d a []; simpl.
  - subst. apply Rmin_l.
  - eapply Rle_trans; [apply Rmin_r|]. now apply IH.
Qed.
Lemma lmin_in l : forall d, l <> [] -> In (lmin d l) l.
Proof.
  induction l as [|b l IH]; intros d H; [congruence|]. simpl. destruct l as [|b' l'].
  - simpl. unfold Rmin. destruct Rle_dec; auto.
  - unfold Rmin. destruct Rle_dec; [left; reflexivity|]. right. apply IH. discriminate.
Qed.
(** sums over selections *)
Lemma subset_sums_hd c : hd 1 (subset_sums c) = 0 /\ subset_sums c <> [].
Proof. induction c; simpl; [split; [reflexivity|discriminate]|]. destruct IHc as [H N]. destruct (subset_sums c); [congruence|]. simpl in *. split; [assumption|discriminate]. Qed.
Lemma picks_in c : forall sel, length sel = length c -> In (sum_selected sel c) (subset_sums c).
Proof.
  induction c; intros [|s sel] E; try discriminate; [simpl; auto|]. simpl in E. apply Nat.succ_inj in E. simpl. apply in_or_app.
  destruct s; [right; apply in_map_iff; exists (sum_selected sel c); auto | left; rewrite Rplus_0_l; auto].
Qed.
Lemma picks_tl c : forall sel, length sel = length c -> In true sel -> In (sum_selected sel c) (tl (subset_sums c)).
Proof.
  induction c; intros [|s sel] E T; try discriminate; [destruct T|]. simpl in E. apply Nat.succ_inj in E.
  assert (TL : forall (l m : list R), l <> [] -> tl (l ++ m) = tl l ++ m) by (intros [|] ?; [congruence|reflexivity]).
  cbn [subset_sums]. rewrite TL by apply subset_sums_hd. apply in_or_app. simpl. destruct s.
  - right. apply in_map_iff. exists (sum_selected sel c). split; [reflexivity | now apply picks_in].
  - left. rewrite Rplus_0_l. apply IHc; [assumption|]. destruct T; [discriminate|assumption].
Qed.

Definition viol (n : nat) (x : vec) (r : vec * R) : bool := if Rlt_dec (snd r) (dot n (fst r) x) then true else false.
(** dropping zero entries does not change a selected sum *)
Fixpoint keep (sel : list bool) (c : list R) : list bool :=
  match sel, c with s :: sel', a :: c' => if Req_EM_T a 0 then keep sel' c' else s :: keep sel' c' | _, _ => [] end.
Lemma keep_sum c : forall sel, length sel = length c -> sum_selected sel c = sum_selected (keep sel c) (nonzero c) /\ length (keep sel c) = length (nonzero c).
Proof.
  induction c as [|a c IH]; intros [|s sel] E; try discriminate; [split; reflexivity|]. simpl in E. apply Nat.succ_inj in E.
  destruct (IH sel E) as [H1 H2]. simpl. destruct (Req_EM_T a 0) as [->|N]; simpl.
  - rewrite H1. split; [destruct s; ring | assumption].
  - rewrite H1, H2. auto.
Qed.
Lemma keep_true c : forall sel i, length sel = length c -> nth i sel false = true -> nth i c 0 <> 0 -> In true (keep sel c).
Proof.
  induction c as [|a c IH]; intros [|s sel] i E T N; try discriminate; [destruct i; simpl in N; congruence|]. simpl in E. apply Nat.succ_inj in E.
  destruct i; simpl in T, N |- *.
  - destruct Req_EM_T; [contradiction|]. left. assumption.
  - assert (K := IH sel i E T N). destruct Req_EM_T; [assumption | right; assumption].
Qed.
Lemma somes_in {A} (l : list (option A)) a : In (Some a) l -> In a (somes l).
Proof. induction l as [|[b|] l IH]; simpl; intros []; try discriminate; auto. injection H as ->. auto. Qed.
Lemma in_somes {A} (l : list (option A)) a : In a (somes l) -> In (Some a) l.
Proof. induction l as [|[b|] l IH]; simpl; intro H; auto. destruct H as [->|H]; auto. Qed.
(** [col_min] is a lower bound of the selected sums, and one of them *)
Lemma subset_sums_sel c : forall s, In s (subset_sums c) -> exists sel, length sel = length c /\ s = sum_selected sel c.
Proof.
  induction c as [|a c IH]; simpl; intros s H; [destruct H as [<-|[]]; exists []; auto|].
  apply in_app_or in H. destruct H as [H|H].
  - destruct (IH _ H) as (sel & L & ->). exists (false :: sel). simpl. rewrite L. split; [reflexivity | ring].
  - apply in_map_iff in H. destruct H as (s' & <- & H). destruct (IH _ H) as (sel & L & ->). exists (true :: sel). simpl. rewrite L. auto.
Qed.
Lemma tl_sel c : forall s, In s (tl (subset_sums c)) -> exists sel, length sel = length c /\ s = sum_selected sel c /\ In true sel.
Proof.
  induction c as [|a c IH]; intros s H; [destruct H|].
  assert (TL : forall (l m : list R), l <> [] -> tl (l ++ m) = tl l ++ m) by (intros [|] ?; [congruence|reflexivity]).
  cbn [subset_sums] in H. rewrite TL in H by apply subset_sums_hd. apply in_app_or in H. destruct H as [H|H].
  - destruct (IH _ H) as (sel & L & -> & T). exists (false :: sel). simpl. rewrite L. repeat split; [ring | right; assumption].
  - apply in_map_iff in H. destruct H as (s' & <- & H). destruct (subset_sums_sel _ _ H) as (sel & L & ->). exists (true :: sel). simpl. rewrite L. auto.
Qed.
Lemma col_min_spec c d : col_min c = Some d ->
  (forall sel, length sel = length (nonzero c) -> In true sel -> d <= Rabs (sum_selected sel (nonzero c))) /\
  exists sel, length sel = length (nonzero c) /\ In true sel /\ d = Rabs (sum_selected sel (nonzero c)).
Proof.
  unfold col_min. destruct (nonzero c) as [|a0 c'] eqn:E; [discriminate|]. rewrite <- E. clear E.
  destruct (map Rabs (tl (subset_sums (nonzero c)))) as [|a l] eqn:M; [discriminate|]. intro H. assert (D : d = lmin a (a :: l)) by congruence. clear H. subst d.
  rewrite <- M. split.
  - intros sel L T. apply lmin_le. apply in_map. now apply picks_tl.
  - assert (I : In (lmin a (map Rabs (tl (subset_sums (nonzero c))))) (map Rabs (tl (subset_sums (nonzero c))))) by (apply lmin_in; rewrite M; discriminate).
    apply in_map_iff in I. destruct I as (s & Es & Hs). destruct (tl_sel _ _ Hs) as (sel & L & -> & T). exists sel. auto.
Qed.
Lemma col_min_some c : nonzero c <> [] -> exists d, col_min c = Some d.
Proof.
  unfold col_min. intro N. destruct (nonzero c) as [|a c'] eqn:E; [congruence|].
  assert (I : In (sum_selected (true :: map (fun _ => true) c') (a :: c')) (tl (subset_sums (a :: c')))) by (apply picks_tl; [simpl; now rewrite map_length | left; reflexivity]).
  destruct (tl (subset_sums (a :: c'))); [destruct I|]. simpl. eexists; reflexivity.
Qed.
(** expand a selection of the non-zero entries to all entries *)
Fixpoint widen (sel : list bool) (c : list R) : list bool :=
  match c with
  | [] => []
  | a :: c' => if Req_EM_T a 0 then false :: widen sel c' else match sel with [] => false :: widen [] c' | s :: sel' => s :: widen sel' c' end
  end.
Lemma widen_spec c : forall sel, length sel = length (nonzero c) ->
  length (widen sel c) = length c /\ sum_selected (widen sel c) c = sum_selected sel (nonzero c) /\
  (In true sel -> exists i, nth i (widen sel c) false = true /\ nth i c 0 <> 0).
Proof.
  induction c as [|a c IH]; intros sel L; simpl in *.
  - destruct sel; [|discriminate]. repeat split; auto. intros [].
  - destruct (Req_EM_T a 0) as [Z|N]; simpl in *.
    + destruct (IH sel L) as (A & B & D). rewrite A, B. repeat split; [ring|]. intro T. destruct (D T) as (i & D1 & D2). exists (S i). auto.
    + destruct sel as [|s sel]; [discriminate|]. simpl in L. apply Nat.succ_inj in L. destruct (IH sel L) as (A & B & D). simpl. rewrite A, B. repeat split.
      intros [->|T]; [exists O; auto|]. destruct (D T) as (i & D1 & D2). exists (S i). auto.
Qed.
Lemma dp_selected n x rows j : lsum (map (fun p : R * vec => snd p j) (map (penalty_row n x) rows)) = sum_selected (map (viol n x) rows) (column j rows).
Proof.
  induction rows as [|r rows IH]; [reflexivity|]. cbn [map lsum fold_right sum_selected column] in *. unfold lsum in IH. rewrite IH. f_equal.
  unfold penalty_row, viol. change vsum with total. fold (dot n (fst r) x). destruct Rlt_dec; reflexivity.
Qed.
Lemma find_mu_dominates n rows num mu x :
  (forall j sel i, (j < n)%nat -> length sel = length rows -> nth i sel false = true -> nth i (column j rows) 0 <> 0 -> sum_selected sel (column j rows) <> 0) ->
  0 <= num -> find_mu n rows num = Some mu ->
  (exists r j, In r rows /\ snd r < dot n (fst r) x /\ (j < n)%nat /\ fst r j <> 0) ->
  exists j, (j < n)%nat /\ num <= Rabs (snd (linear_penalty n mu rows x) j).
Proof.
  intros Z Hn F (r & j & Hr & V & Hj & N). exists j. split; [assumption|].
  unfold linear_penalty. cbv zeta. cbn [snd]. unfold vec in *. assert (DP := dp_selected n x rows j). unfold vec in DP. rewrite DP.
  unfold find_mu in F. destruct (somes _) as [|a l] eqn:E in F; [discriminate|]. assert (D : mu = num / lmin a (a :: l)) by congruence. clear F. subst mu. rewrite <- E. set (d := lmin a _).
  assert (In_d : In d (somes (map (fun j => col_min (column j rows)) (seq 0 n)))).
  { unfold d. unfold column. unfold vec in *. apply lmin_in. rewrite E. discriminate. }
  apply In_nth_error in Hr. destruct Hr as (i & Hi).
  assert (LC : length (map (viol n x) rows) = length (column j rows)) by (unfold column; now rewrite !map_length).
  assert (T : nth i (map (viol n x) rows) false = true).
  { apply nth_error_nth. refine (eq_trans (map_nth_error (viol n x) i rows Hi) _). unfold viol. destruct Rlt_dec; [reflexivity|contradiction]. }
  assert (NZ : nth i (column j rows) 0 <> 0).
  { assert (nth i (column j rows) 0 = fst r j) as ->; [|assumption]. apply nth_error_nth. exact (map_nth_error (fun r : vec * R => fst r j) i rows Hi). }
  destruct (keep_sum _ _ LC) as [K1 K2]. assert (KT := keep_true _ _ _ LC T NZ).
  destruct (col_min_some (column j rows)) as (dj & Dj).
  { intro Q. rewrite Q in K2. destruct (keep (map (viol n x) rows) (column j rows)); [destruct KT | discriminate]. }
  destruct (col_min_spec _ _ Dj) as [LB _]. specialize (LB _ K2 KT). rewrite <- K1 in LB.
  assert (Dle : d <= dj).
  { unfold d. apply lmin_le. apply somes_in. apply in_map_iff. exists j. split; [exact Dj | apply in_seq; lia]. }
  assert (Dpos : 0 < d).
  { apply in_somes in In_d. apply in_map_iff in In_d. destruct In_d as (j' & C' & Hj'). apply in_seq in Hj'.
    destruct (col_min_spec _ _ C') as [_ (sel & L & TT & ->)]. destruct (widen_spec _ _ L) as (W1 & W2 & W3). destruct (W3 TT) as (i' & I1 & I2).
    rewrite <- W2. apply Rabs_pos_lt. apply (Z j' _ i'); try assumption; try lia. rewrite W1. unfold column. apply map_length. }
  rewrite Rabs_mult. unfold Rdiv. rewrite Rabs_mult, (Rabs_pos_eq num) by assumption.
  rewrite (Rabs_pos_eq (/ d)) by (left; apply Rinv_0_lt_compat; assumption).
  rewrite <- (Rmult_1_r num) at 1. rewrite Rmult_assoc. apply Rmult_le_compat_l; [assumption|].
  apply Rmult_le_reg_l with d; [assumption|]. rewrite Rmult_1_r, <- Rmult_assoc, Rinv_r, Rmult_1_l by (apply Rgt_not_eq; exact Dpos). exact (Rle_trans _ _ _ Dle LB).
Qed.

(** ** C32: subset *)
Lemma subset_v_iff n x y : subset_v n x y = true <-> forall i, (i < n)%nat -> rl (y i) <= rl (x i) /\ rh (x i) <= rh (y i).
Proof.
  unfold subset_v. rewrite forallb_forall. split.
  - intros H i Hi. specialize (H i ltac:(apply in_seq; lia)). unfold subsetb in H. destruct Rle_dec; [destruct Rle_dec; [auto|discriminate]|discriminate].
  - intros H i Hi. apply in_seq in Hi. destruct (H i ltac:(lia)). unfold subsetb. destruct Rle_dec; [destruct Rle_dec; [auto|contradiction]|contradiction].
Qed.
