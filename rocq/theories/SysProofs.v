(** Facts about ive. *)
From Coq Require Import Reals ZArith List Bool Arith Lia Lra Psatz.
From Verif Require Import Exact Recog SpecExact ExactProofs RecogProofs Ralgb5 RalgbMore EstimProofs SysProps SpecSys.
Import ListNotations.
Open Scope R_scope.

Lemma least_cond_some cond A coin N : forall c, least_cond cond A coin N = Some c ->
  (exists t, (t < N)%nat /\ cond (angle A coin t) = Some c) /\ forall t d, (t < N)%nat -> cond (angle A coin t) = Some d -> c <= d.
Proof.
  induction N as [|N IH]; intros c E; [discriminate|]. cbn [least_cond] in E. unfold take_less in E.
  destruct (cond (angle A coin N)) as [a|] eqn:Ea; destruct (least_cond cond A coin N) as [d|] eqn:Ed.
  - destruct (Rlt_dec a d) as [L|L]; injection E as <-; destruct (IH _ eq_refl) as [(t & Ht & Et) Hm]; split.
    + exists N. split; [lia|exact Ea].
    + intros s e Hs Es. destruct (Nat.eq_dec s N) as [->|]; [rewrite Ea in Es; injection Es as <-; lra|]. specialize (Hm s e ltac:(lia) Es). lra.
    + exists t. split; [lia|exact Et].
    + intros s e Hs Es. destruct (Nat.eq_dec s N) as [->|]; [rewrite Ea in Es; injection Es as <-; lra|]. apply (Hm s e ltac:(lia) Es).
  - injection E as <-. split; [exists N; split; [lia|exact Ea]|]. intros s e Hs Es. destruct (Nat.eq_dec s N) as [->|]; [rewrite Ea in Es; injection Es as <-; lra|].
    exfalso. assert (X : forall M, least_cond cond A coin M = None -> forall s, (s < M)%nat -> cond (angle A coin s) = None); [|rewrite (X N Ed s) in Es by lia; discriminate].
    clear. induction M as [|M IH]; intros H s Hs; [lia|]. cbn [least_cond] in H. unfold take_less in H. destruct (cond (angle A coin M)) eqn:E; destruct (least_cond cond A coin M) eqn:F; try discriminate.
    * destruct (Rlt_dec r r0); discriminate.
    * destruct (Nat.eq_dec s M) as [->|]; [exact E|apply IH; [reflexivity|lia]].
  - injection E as <-. destruct (IH _ eq_refl) as [(t & Ht & Et) Hm]. split; [exists t; split; [lia|exact Et]|]. intros s e Hs Es. destruct (Nat.eq_dec s N) as [->|]; [congruence|]. apply (Hm s e ltac:(lia) Es).
  - discriminate.
Qed.
Lemma least_cond_in cond A coin N t d : (t < N)%nat -> cond (angle A coin t) = Some d -> exists c, least_cond cond A coin N = Some c.
Proof.
  revert t d. induction N as [|N IH]; intros t d Ht Et; [lia|]. cbn [least_cond]. unfold take_less. destruct (Nat.eq_dec t N) as [->|].
  - rewrite Et. destruct (least_cond cond A coin N); [destruct Rlt_dec; eauto|eauto].
  - destruct (IH t d ltac:(lia) Et) as [c ->]. destruct (cond (angle A coin N)); [destruct Rlt_dec; eauto|eauto].
Qed.
Lemma least_cond_mono cond A coin N N' c c' : (N <= N')%nat -> least_cond cond A coin N = Some c -> least_cond cond A coin N' = Some c' -> c' <= c.
Proof. intros L E E'. destruct (least_cond_some _ _ _ _ _ E) as [(t & Ht & Et) _]. destruct (least_cond_some _ _ _ _ _ E') as [_ Hm]. apply (Hm t c); [lia|exact Et]. Qed.
Lemma angle_corner m n A coin t : corner m n A (angle A coin t).
Proof. intros i j _ _. unfold angle. destruct (coin t i j); tauto. Qed.
Lemma norm2_eq n x : norm2 n x = length2 n x.
Proof. unfold norm2, length2. now rewrite vsum_eq. Qed.
Lemma length2_nn n x : 0 <= length2 n x.
Proof. apply sqrt_pos. Qed.
Lemma length2_pos n x : (exists i, (i < n)%nat /\ x i <> 0) -> 0 < length2 n x.
Proof.
  intros (i & Hi & Ni). apply sqrt_lt_R0. apply Rlt_le_trans with (x i * x i); [assert (T := Rsqr_pos_lt _ Ni); unfold Rsqr in T; lra|].
  apply (total_term n (fun j => x j * x j) i Hi). intros j Hj. assert (T := Rle_0_sqr (x j)). unfold Rsqr in T. lra.
Qed.
Lemma rhs_pos m b : nonzero_rhs m b -> 0 < length2 m (fun i => r_mag (b i)).
Proof.
  intros (i & Hi & Ni). apply length2_pos. exists i. split; [exact Hi|]. unfold r_mag. intro E. apply Ni.
  assert (T1 := Rmax_l (Rabs (rl (b i))) (Rabs (rh (b i)))). assert (T2 := Rmax_r (Rabs (rl (b i))) (Rabs (rh (b i)))).
  assert (T3 := Rabs_pos (rl (b i))). assert (T4 := Rabs_pos (rh (b i))). rewrite E in *.
  split; [destruct (Req_dec (rl (b i)) 0) as [|N]|destruct (Req_dec (rh (b i)) 0) as [|N]]; try assumption; apply Rabs_pos_lt in N; lra.
Qed.

Section Ive.
Context (cond : mat -> option R) (coin : nat -> nat -> nat -> bool) (k n : nat) (big : R) (P : params (real_ops n big)) (x0 : vec) (A : imat) (b : ivec).
Hypothesis Hb : nonzero_rhs (S k) b.
Let x := fst (tol_maximize k n big P A b (fun _ => 1) x0).
Let t := snd (tol_maximize k n big P A b (fun _ => 1) x0).
Lemma ive_some N c : least_cond cond A coin N = Some c -> ive cond coin k n big P x0 A b N = Num (measure (S k) n b x t c).
Proof.
  intro E. unfold ive. rewrite E. unfold x, t. destruct (tol_maximize k n big P A b (fun _ => 1) x0) as [xr fr]. cbn [fst snd]. unfold f_div. rewrite !norm2_eq.
  assert (T := rhs_pos _ _ Hb). destruct Req_EM_T as [Z|_]; [lra|]. cbn [f_mul]. apply f_equal. unfold measure, Rdiv. rewrite ?norm2_eq. ring.
Qed.
Lemma ive_none N : least_cond cond A coin N = None -> ive cond coin k n big P x0 A b N = NaN \/ exists p, ive cond coin k n big P x0 A b N = Infty p.
Proof.
  intro E. unfold ive. rewrite E. destruct (tol_maximize k n big P A b (fun _ => 1) x0) as [xr fr]. unfold f_div. rewrite !norm2_eq.
  assert (T := rhs_pos _ _ Hb). destruct (Req_EM_T (length2 (S k) (fun i => r_mag (b i))) 0) as [Z|_]; [lra|]. rewrite ?norm2_eq. cbn [f_mul]. destruct Req_EM_T as [_|_]; [now left|]. cbn [f_mul].
  destruct Req_EM_T as [_|_]; [now left|right; eauto].
Qed.
Lemma ive_num N v : ive cond coin k n big P x0 A b N = Num v -> exists c, least_cond cond A coin N = Some c /\ v = measure (S k) n b x t c.
Proof.
  intro E. destruct (least_cond cond A coin N) as [c|] eqn:L.
  - exists c. split; [reflexivity|]. rewrite (ive_some N c L) in E. congruence.
  - destruct (ive_none N L) as [F|[p F]]; rewrite F in E; discriminate.
Qed.
End Ive.
Lemma measure_scale m n b x t c : measure m n b x t c = c * (t * (sqrt (INR n) * length2 n x / length2 m (fun i => r_mag (b i)))).
Proof. unfold measure, Rdiv. ring. Qed.
Lemma factor_nn m n b x : nonzero_rhs m b -> 0 <= sqrt (INR n) * length2 n x / length2 m (fun i => r_mag (b i)).
Proof.
  intro H. assert (T := rhs_pos _ _ H). apply Rmult_le_pos; [apply Rmult_le_pos; [apply sqrt_pos|apply length2_nn]|]. apply Rlt_le, Rinv_0_lt_compat, T.
Qed.
Lemma tol_slack1 k n big P A b x0 x t : proper_mat (S k) n A -> tol_maximize k n big P A b (fun _ => 1) x0 = (x, t) ->
  forall s, s <= t <-> tolerable (S k) n A (shrink s b) x.
Proof. intros PA E s. destruct (tol_maximize_spec _ _ _ _ _ _ _ _ _ _ PA E) as [-> _]. apply tol_slack. exact PA. Qed.

Theorem ive_value cond coin k n big P x0 A b N v : proper_mat (S k) n A -> nonzero_rhs (S k) b -> ive cond coin k n big P x0 A b N = Num v ->
  exists x t M c, (forall s, s <= t <-> tolerable (S k) n A (shrink s b) x) /\ corner (S k) n A M /\ cond M = Some c /\
    v = measure (S k) n b x t c /\ forall r d, (r < N)%nat -> cond (angle A coin r) = Some d -> c <= d.
Proof.
  intros PA Hb E. destruct (ive_num _ _ _ _ _ _ _ _ _ Hb _ _ E) as (c & L & ->). destruct (tol_maximize k n big P A b (fun _ => 1) x0) as [x t] eqn:T. cbn [fst snd].
  destruct (least_cond_some _ _ _ _ _ L) as [(r & Hr & Er) Hm]. exists x, t, (angle A coin r), c. split; [exact (tol_slack1 _ _ _ _ _ _ _ _ _ PA T)|].
  split; [apply angle_corner|]. split; [exact Er|]. split; [reflexivity|exact Hm].
Qed.
Theorem ive_defined cond coin k n big P x0 A b N r c : nonzero_rhs (S k) b -> (r < N)%nat -> cond (angle A coin r) = Some c ->
  exists v, ive cond coin k n big P x0 A b N = Num v.
Proof. intros Hb Hr E. destruct (least_cond_in _ _ _ _ _ _ Hr E) as [d L]. rewrite (ive_some _ _ _ _ _ _ _ _ _ Hb _ _ L). eauto. Qed.
Theorem ive_bound cond coin k n big P x0 A b N v c0 : proper_mat (S k) n A -> nonzero_rhs (S k) b ->
  (forall M c, corner (S k) n A M -> cond M = Some c -> c0 <= c) -> ive cond coin k n big P x0 A b N = Num v ->
  exists x t, (forall s, s <= t <-> tolerable (S k) n A (shrink s b) x) /\
    (0 <= t -> measure (S k) n b x t c0 <= v) /\ (t <= 0 -> v <= measure (S k) n b x t c0) /\
    ((exists r, (r < N)%nat /\ cond (angle A coin r) = Some c0) -> v = measure (S k) n b x t c0).
Proof.
  intros PA Hb Hc E. destruct (ive_num _ _ _ _ _ _ _ _ _ Hb _ _ E) as (c & L & ->). destruct (tol_maximize k n big P A b (fun _ => 1) x0) as [x t] eqn:T. cbn [fst snd].
  destruct (least_cond_some _ _ _ _ _ L) as [(r & Hr & Er) Hm]. exists x, t. split; [exact (tol_slack1 _ _ _ _ _ _ _ _ _ PA T)|].
  assert (C := Hc _ _ (angle_corner (S k) n A coin r) Er). assert (F := factor_nn (S k) n b x Hb). rewrite !measure_scale. set (f := sqrt (INR n) * length2 n x / length2 (S k) (fun i => r_mag (b i))) in *. split; [|split].
  - intro Ht. apply Rmult_le_compat_r; [apply Rmult_le_pos; assumption|exact C].
  - intro Ht. assert (0 <= - (t * f)) by nra. nra.
  - intros (s & Hs & Es). rewrite (Rle_antisym _ _ (Hm s c0 Hs Es) C). reflexivity.
Qed.
Theorem ive_more_rounds cond coin k n big P x0 A b N N' v v' : nonzero_rhs (S k) b -> (forall M c, cond M = Some c -> 0 <= c) -> (N <= N')%nat ->
  ive cond coin k n big P x0 A b N = Num v -> ive cond coin k n big P x0 A b N' = Num v' -> Rabs v' <= Rabs v.
Proof.
  intros Hb Hc L E E'. destruct (ive_num _ _ _ _ _ _ _ _ _ Hb _ _ E) as (c & Lc & ->). destruct (ive_num _ _ _ _ _ _ _ _ _ Hb _ _ E') as (c' & Lc' & ->).
  assert (M := least_cond_mono _ _ _ _ _ _ _ L Lc Lc'). destruct (least_cond_some _ _ _ _ _ Lc') as [(r & _ & Er) _]. apply Hc in Er.
  rewrite !measure_scale, !(Rabs_mult c), !(Rabs_mult c'), (Rabs_pos_eq c'), (Rabs_pos_eq c) by lra. apply Rmult_le_compat_r; [apply Rabs_pos|exact M].
Qed.
Theorem ive_sign cond coin k n big P x0 A b N v : proper_mat (S k) n A -> nonzero_rhs (S k) b -> (forall M c, cond M = Some c -> 0 < c) ->
  ive cond coin k n big P x0 A b N = Num v ->
  (0 < v -> exists x s, 0 < s /\ tolerable (S k) n A (shrink s b) x) /\
  (v < 0 -> (forall y, tol_value k n A b y ones <= snd (tol_maximize k n big P A b (fun _ => 1) x0)) -> forall y, ~ tolerable (S k) n A b y).
Proof.
  intros PA Hb Hc E. destruct (ive_num _ _ _ _ _ _ _ _ _ Hb _ _ E) as (c & L & ->). destruct (tol_maximize k n big P A b (fun _ => 1) x0) as [x t] eqn:T. cbn [fst snd].
  destruct (least_cond_some _ _ _ _ _ L) as [(r & Hr & Er) Hm]. apply Hc in Er. assert (F := factor_nn (S k) n b x Hb). rewrite measure_scale. set (f := sqrt (INR n) * length2 n x / length2 (S k) (fun i => r_mag (b i))) in *.
  assert (S1 := tol_slack1 _ _ _ _ _ _ _ _ _ PA T). split.
  - intro V. exists x, t. assert (0 < t). { destruct (Rlt_dec 0 t) as [|Nt]; [assumption|]. assert (0 <= - t * f) by (apply Rmult_le_pos; lra). nra. } split; [assumption|]. apply S1. lra.
  - intros V Mx y Ty. specialize (Mx y). apply (tol_recognizes k n A b y ones PA ltac:(intros i Hi; unfold ones; lra)) in Ty. assert (0 <= t * f) by (apply Rmult_le_pos; lra). nra.
Qed.
Theorem ive_no_rounds cond coin k n big P x0 A b : nonzero_rhs (S k) b -> forall v, ive cond coin k n big P x0 A b 0 <> Num v.
Proof. intros Hb v E. destruct (ive_none cond coin k n big P x0 A b Hb 0 eq_refl) as [F|[p F]]; congruence. Qed.

(** The largest tolerance may be attained at the origin, and then ive is 0
    whatever the tolerance is. *)
Definition iv_A : imat := fun _ _ => mkr 1 1.
Definition iv_b : ivec := fun _ => mkr (-1) 1.
Lemma iv_origin big P x t : tol_maximize 0 1 big P iv_A iv_b (fun _ => 1) (fun _ => 0) = (x, t) -> t = 1 /\ x O = 0.
Proof.
  intro E. assert (PA : proper_mat 1 1 iv_A) by (intros i j _ _; unfold proper, iv_A; simpl; lra).
  assert (S1 := tol_slack1 _ _ _ _ _ _ _ _ _ PA E). destruct (tol_maximize_spec _ _ _ _ _ _ _ _ _ _ PA E) as [Et L].
  assert (T0 : 1 <= tol_value 0 1 iv_A iv_b (fun _ => 0) ones).
  { apply (tol_slack 0 1 iv_A iv_b (fun _ => 0) 1 PA). intros M HM i Hi. unfold shrink, iv_b, inI, times; simpl. lra. }
  assert (T1 : 1 <= t) by (unfold ones in T0; lra).
  assert (H := proj1 (S1 t) (Rle_refl t)). assert (Hv := H (fun _ _ => 1) ltac:(intros i j _ _; unfold inI, iv_A; simpl; lra) O ltac:(lia)).
  unfold shrink, iv_b, inI, times in Hv. simpl in Hv. split; lra.
Qed.
Theorem ive_origin_refuted : exists A b, proper_mat 1 1 A /\ nonzero_rhs 1 b /\ (exists x, tolerable 1 1 A (shrink 1 b) x) /\
  forall cond coin big P N v, ive cond coin 0 1 big P (fun _ => 0) A b N = Num v -> v = 0.
Proof.
  exists iv_A, iv_b. split; [intros i j _ _; unfold proper, iv_A; simpl; lra|]. assert (Hb : nonzero_rhs 1 iv_b) by (exists O; split; [lia|unfold iv_b; simpl; lra]). split; [exact Hb|]. split.
  - exists (fun _ => 0). intros M HM i Hi. unfold shrink, iv_b, inI, times; simpl. lra.
  - intros cond coin big P N v E. destruct (ive_num cond coin 0 1 big P (fun _ => 0) iv_A iv_b Hb N v E) as (c & L & ->). destruct (tol_maximize 0 1 big P iv_A iv_b (fun _ => 1) (fun _ => 0)) as [x t] eqn:T.
    destruct (iv_origin _ _ _ _ T) as [-> X]. cbn [fst snd]. unfold measure, length2. simpl. rewrite X. replace (0 + 0 * 0) with 0 by ring. rewrite sqrt_0. unfold Rdiv. ring.
Qed.

(** A case: [1,2] x = [2,5] started at 3, one round. *)
Definition iv_A2 : imat := fun _ _ => mkr 1 2.
Definition iv_b2 : ivec := fun _ => mkr 2 5.
Lemma ive_case : proper_mat 1 1 iv_A2 /\ nonzero_rhs 1 iv_b2 /\ (forall M c, corner 1 1 iv_A2 M -> Some 1 = Some c -> 1 <= c) /\
  forall coin big P x0, exists v, ive (fun _ => Some 1) coin 0 1 big P x0 iv_A2 iv_b2 1 = Num v.
Proof.
  assert (Hb : nonzero_rhs 1 iv_b2) by (exists O; split; [lia|unfold iv_b2; simpl; lra]).
  split; [intros i j _ _; unfold proper, iv_A2; simpl; lra|]. split; [exact Hb|]. split.
  - intros M c _ E. injection E as <-. lra.
  - intros. apply (ive_defined _ _ _ _ _ _ _ _ _ 1 0 1 Hb); [lia|reflexivity].
Qed.
(** ** Infinite values, and the corners that can be met *)
Lemma angle_sampled A coin r : angle A coin r = sampled A coin r.
Proof. reflexivity. Qed.
Lemma least_cond_none cond A coin N : (forall r, (r < N)%nat -> cond (sampled A coin r) = None) -> least_cond cond A coin N = None.
Proof. induction N as [|N IH]; intro H; [reflexivity|]. cbn [least_cond]. rewrite angle_sampled, (H N) by lia. cbn [take_less]. apply IH. intros r Hr. apply H. lia. Qed.
Lemma is_pos_true r : 0 < r -> is_pos r = true.
Proof. intro H. unfold is_pos. destruct Rlt_dec; [reflexivity|contradiction]. Qed.
Lemma is_pos_false r : r <= 0 -> is_pos r = false.
Proof. intro H. unfold is_pos. destruct Rlt_dec; [lra|reflexivity]. Qed.
Lemma scaled_sign (a l : R) : 0 <= l -> (0 < a * l -> 0 < a /\ 0 < l) /\ (a * l < 0 -> a < 0 /\ 0 < l) /\ (a * l = 0 -> a = 0 \/ l = 0).
Proof.
  intro H. split; [|split].
  - intro P. destruct (Req_dec l 0) as [->|]; [lra|]. split; nra.
  - intro P. destruct (Req_dec l 0) as [->|]; [lra|]. split; nra.
  - apply Rmult_integral.
Qed.
Theorem ive_singular cond coin k n big P x0 A b N : proper_mat (S k) n A -> nonzero_rhs (S k) b -> (forall r, (r < N)%nat -> cond (sampled A coin r) = None) ->
  exists x t, (forall s, s <= t <-> tolerable (S k) n A (shrink s b) x) /\
    let q := sqrt (INR n) * t * length2 n x in
    (0 < q -> ive cond coin k n big P x0 A b N = Infty true) /\ (q < 0 -> ive cond coin k n big P x0 A b N = Infty false) /\ (q = 0 -> ive cond coin k n big P x0 A b N = NaN).
Proof.
  intros PA Hb Hc. destruct (tol_maximize k n big P A b (fun _ => 1) x0) as [x t] eqn:T. exists x, t. split; [exact (tol_slack1 _ _ _ _ _ _ _ _ _ PA T)|].
  cbv zeta. unfold ive. rewrite T, (least_cond_none _ _ _ _ Hc). unfold f_div. rewrite (norm2_eq n x), (norm2_eq (S k)). assert (B := rhs_pos _ _ Hb). destruct (Req_EM_T (length2 (S k) (fun i => r_mag (b i))) 0) as [Z|_]; [lra|].
  set (a := sqrt (INR n) * t). assert (L := length2_nn n x). destruct (scaled_sign a (length2 n x) L) as (S1 & S2 & S3).
  set (B0 := length2 (S k) (fun i => r_mag (b i))) in *.
  assert (D : 0 < length2 n x -> 0 < length2 n x / B0) by (intro; apply Rmult_lt_0_compat; [assumption|apply Rinv_0_lt_compat, B]).
  cbn [f_mul]. fold a. split; [|split]; intro Q.
  - destruct (S1 Q) as [Qa Ql]. apply D in Ql. destruct (Req_EM_T a 0); [lra|]. rewrite (is_pos_true a Qa). cbn [eqb f_mul]. destruct Req_EM_T; [lra|]. rewrite is_pos_true by assumption. reflexivity.
  - destruct (S2 Q) as [Qa Ql]. apply D in Ql. destruct (Req_EM_T a 0); [lra|]. rewrite (is_pos_false a) by lra. cbn [eqb f_mul]. destruct Req_EM_T; [lra|]. rewrite is_pos_true by assumption. reflexivity.
  - destruct (Req_EM_T a 0); [reflexivity|]. destruct (S3 Q) as [|Z]; [contradiction|]. cbn [f_mul]. destruct Req_EM_T as [_|X]; [reflexivity|]. exfalso. apply X. rewrite Z. unfold Rdiv. ring.
Qed.
Lemma zero_rhs_length m b : ~ nonzero_rhs m b -> length2 m (fun i => r_mag (b i)) = 0.
Proof.
  intro H. unfold length2. transitivity (sqrt 0); [|apply sqrt_0]. f_equal. assert (Z : forall i, (i < m)%nat -> r_mag (b i) = 0).
  { intros i Hi. destruct (Req_dec (rl (b i)) 0) as [E1|]; [|exfalso; apply H; exists i; tauto]. destruct (Req_dec (rh (b i)) 0) as [E2|]; [|exfalso; apply H; exists i; tauto].
    unfold r_mag. rewrite E1, E2, Rabs_R0. apply Rmax_left, Rle_refl. }
  clear H. induction m as [|m IH]; [reflexivity|]. cbn [total]. rewrite IH by (intros i Hi; apply Z; lia). rewrite (Z m) by lia. ring.
Qed.
Theorem ive_zero_rhs cond coin k n big P x0 A b N r c : proper_mat (S k) n A -> ~ nonzero_rhs (S k) b -> (r < N)%nat -> cond (sampled A coin r) = Some c -> (forall M c, cond M = Some c -> 0 < c) ->
  exists x t, (forall s, s <= t <-> tolerable (S k) n A (shrink s b) x) /\
    let q := sqrt (INR n) * t * length2 n x in
    (0 < q -> ive cond coin k n big P x0 A b N = Infty true) /\ (q < 0 -> ive cond coin k n big P x0 A b N = Infty false) /\ (q = 0 -> ive cond coin k n big P x0 A b N = NaN).
Proof.
  intros PA Hb Hr Er Hc. destruct (tol_maximize k n big P A b (fun _ => 1) x0) as [x t] eqn:T. exists x, t. split; [exact (tol_slack1 _ _ _ _ _ _ _ _ _ PA T)|].
  cbv zeta. unfold ive. rewrite T. destruct (least_cond_in cond A coin N r c Hr Er) as [d Ld]. rewrite Ld. destruct (least_cond_some _ _ _ _ _ Ld) as [(s & _ & Es) _]. apply Hc in Es.
  unfold f_div. rewrite (norm2_eq n x), (norm2_eq (S k)), (zero_rhs_length _ _ Hb). destruct (Req_EM_T 0 0) as [_|]; [|contradiction].
  set (a := sqrt (INR n) * t). assert (L := length2_nn n x). destruct (scaled_sign a (length2 n x) L) as (S1 & S2 & S3).
  cbn [f_mul]. fold a. split; [|split]; intro Q.
  - destruct (S1 Q) as [Qa Ql]. destruct (Req_EM_T (length2 n x) 0); [lra|]. rewrite (is_pos_true _ Ql). assert (0 < a * d) by (apply Rmult_lt_0_compat; assumption). destruct Req_EM_T; [lra|]. rewrite is_pos_true by assumption. reflexivity.
  - destruct (S2 Q) as [Qa Ql]. destruct (Req_EM_T (length2 n x) 0); [lra|]. rewrite (is_pos_true _ Ql). assert (a * d < 0) by nra. destruct Req_EM_T; [lra|]. rewrite is_pos_false by lra. reflexivity.
  - destruct (Req_EM_T (length2 n x) 0); [reflexivity|]. destruct (S3 Q) as [Z|]; [|contradiction]. rewrite Z, Rmult_0_l. destruct (Req_EM_T 0 0); [reflexivity|contradiction].
Qed.
Theorem ive_every_corner cond k n big P x0 A b M c : proper_mat (S k) n A -> nonzero_rhs (S k) b -> corner (S k) n A M ->
  (forall M M', (forall i j, (i < S k)%nat -> (j < n)%nat -> M i j = M' i j) -> cond M = cond M') -> cond M = Some c ->
  exists coin x t, (forall s, s <= t <-> tolerable (S k) n A (shrink s b) x) /\ ive cond coin k n big P x0 A b 1 = Num (measure (S k) n b x t c).
Proof.
  intros PA Hb Hc He E. destruct (tol_maximize k n big P A b (fun _ => 1) x0) as [x t] eqn:T.
  set (coin := fun (_ i j : nat) => if Req_EM_T (M i j) (rh (A i j)) then true else false). exists coin, x, t. split; [exact (tol_slack1 _ _ _ _ _ _ _ _ _ PA T)|].
  assert (X : cond (angle A coin 0) = Some c). { rewrite <- E. apply He. intros i j Hi Hj. unfold angle, coin. destruct (Req_EM_T (M i j) (rh (A i j))) as [Z|Z]; [now rewrite Z|]. destruct (Hc i j Hi Hj) as [Y|Y]; [now rewrite Y|contradiction]. }
  assert (Ld : least_cond cond A coin 1 = Some c) by (cbn [least_cond]; rewrite X; reflexivity).
  rewrite (ive_some _ _ _ _ _ _ _ _ _ Hb _ _ Ld), T. reflexivity.
Qed.
