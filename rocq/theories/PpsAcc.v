(** PPS: how far the answer is from the solution set, and how many iterations
    are enough. *)
From Coq Require Import Reals List Arith Bool ZArith Lia Lra Psatz.
From Verif Require Import Exact SpecExact ExactProofs Estim SpecEstim EstimProofs Pss Pps SpecPps PpsProofs PpsLoop.
Import ListNotations.
Open Scope R_scope.

(** ** Counting *)
Lemma filter_le {A} (f g : A -> bool) l : (forall x, In x l -> f x = true -> g x = true) -> (length (filter f l) <= length (filter g l))%nat.
Proof.
  induction l as [|a l IH]; intro H; [apply Nat.le_refl|]. cbn [filter]. assert (IH' := IH (fun x Hx => H x (or_intror Hx))).
  destruct (f a) eqn:E; [rewrite (H a (or_introl eq_refl) E)|destruct (g a)]; cbn [length]; lia.
Qed.
Lemma filter_lt {A} (f g : A -> bool) l a : (forall x, In x l -> f x = true -> g x = true) -> In a l -> f a = false -> g a = true ->
  (length (filter f l) < length (filter g l))%nat.
Proof.
  induction l as [|c l IH]; intros H Ia Fa Ga; [contradiction|]. cbn [filter].
  assert (H' : forall x, In x l -> f x = true -> g x = true) by (intros; apply H; [now right | assumption]).
  destruct Ia as [-> |Ia].
  - rewrite Fa, Ga. cbn [length]. pose proof (filter_le f g l H'). lia.
  - pose proof (IH H' Ia Fa Ga). destruct (f c) eqn:E; [rewrite (H c (or_introl eq_refl) E)|destruct (g c)]; cbn [length]; lia.
Qed.
Lemma filter_all {A} (f : A -> bool) l : (length (filter f l) <= length l)%nat.
Proof. induction l as [|a l IH]; [apply Nat.le_refl|]. cbn [filter]. destruct (f a); cbn [length]; lia. Qed.

Definition wide (q : rit) : bool := if Req_EM_T (rl q) (rh q) then false else true.
Lemma wide_point c : wide (r_point c) = false.
Proof. unfold wide. cbn [rl rh r_point]. destruct (Req_EM_T c c); [reflexivity | contradiction]. Qed.
Lemma wide_wid q : wid q <> 0 -> wide q = true.
Proof. unfold wide, wid. intro H. destruct (Req_EM_T _ _) as [E|]; [rewrite E in H; exfalso; lra | reflexivity]. Qed.
Lemma not_wide q : wide q = false -> rl q = rh q.
Proof. unfold wide. destruct (Req_EM_T _ _); [auto | discriminate]. Qed.
Lemma mono_wide d q : wide (mono_entry d q) = true -> wide q = true.
Proof. unfold mono_entry. cbv zeta. destruct (ge0 d); destruct (le0 d); rewrite ?wide_point; auto; discriminate. Qed.
Lemma mag_nonneg x : 0 <= r_mag x.
Proof. unfold r_mag. eapply Rle_trans; [apply Rabs_pos | apply Rmax_l]. Qed.
Lemma mag_zero x : r_mag x = 0 -> rl x = 0 /\ rh x = 0.
Proof.
  unfold r_mag. intro E. pose proof (Rmax_l (Rabs (rl x)) (Rabs (rh x))). pose proof (Rmax_r (Rabs (rl x)) (Rabs (rh x))).
  pose proof (Rabs_pos (rl x)). pose proof (Rabs_pos (rh x)). split.
  - destruct (Req_dec (rl x) 0) as [|N]; [assumption|]. apply Rabs_pos_lt in N. lra.
  - destruct (Req_dec (rh x) 0) as [|N]; [assumption|]. apply Rabs_pos_lt in N. lra.
Qed.
Lemma mono_flat d q : r_mag d = 0 -> wide (mono_entry d q) = false.
Proof.
  intro E. apply mag_zero in E. destruct E as [E1 E2]. unfold mono_entry, ge0, le0. cbv zeta. rewrite E1, E2.
  destruct (Rle_dec 0 0) as [_|N]; [apply wide_point | exfalso; apply N; lra].
Qed.
Lemma argmax_max : forall k f j, (j <= k)%nat -> f j <= f (argmax k f).
Proof.
  induction k as [|k IH]; intros f j Hj; cbn [argmax]; [replace j with 0%nat by lia; lra|].
  destruct (Rlt_dec _ _) as [L|L]; destruct (Nat.eq_dec j (S k)) as [-> |N]; try lra.
  - pose proof (IH f j ltac:(lia)). lra.
  - apply IH. lia.
Qed.

Section Acc.
Variables (hbr : imat -> ivec -> option ivec) (inverse : imat -> option imat) (solve : mat -> vec -> option vec).
Variables (n nu : nat) (tol : R) (hang : nat) (A : imat) (b : ivec).
Hypothesis Hnu : (nu < n)%nat.
Hypothesis Hsolve : solutions_exact solve n.
Hypothesis Hpoint : exact_on_numbers hbr n A b.

Definition pairs : list (nat * nat) := list_prod (seq 0 n) (seq 0 n).
Lemma in_pairs i j : (i < n)%nat -> (j < n)%nat -> In (i, j) pairs.
Proof. intros. apply in_prod_iff. split; apply in_seq; lia. Qed.
Lemma pairs_in p : In p pairs -> (fst p < n)%nat /\ (snd p < n)%nat.
Proof. destruct p as [i j]. intro H. apply in_prod_iff in H. destruct H as [H1 H2]. apply in_seq in H1. apply in_seq in H2. cbn [fst snd]. lia. Qed.
(** the number of uncertain entries *)
Definition cQ (Q : imat) : nat := length (filter (fun p => wide (Q (fst p) (snd p))) pairs).
Definition cr (r : ivec) : nat := length (filter (fun i => wide (r i)) (seq 0 n)).
Definition cnt (Q : imat) (r : ivec) : nat := (cQ Q + cr r)%nat.
Lemma cnt_le Q r : (cnt Q r <= n * n + n)%nat.
Proof.
  unfold cnt, cQ, cr. pose proof (filter_all (fun p : nat * nat => wide (Q (fst p) (snd p))) pairs) as H1. pose proof (filter_all (fun i => wide (r i)) (seq 0 n)) as H2.
  unfold pairs in H1 at 2. rewrite prod_length, !seq_length in H1. rewrite seq_length in H2. lia.
Qed.
Lemma cQ_upd Q i j c : (i < n)%nat -> (j < n)%nat -> wide (Q i j) = true -> (cQ (upd2 Q i j (r_point c)) < cQ Q)%nat.
Proof.
  intros Hi Hj H. apply (filter_lt _ _ _ (i, j)); [|now apply in_pairs | cbn [fst snd]; rewrite upd2_same; apply wide_point | exact H].
  intros [k l] _. cbn [fst snd]. destruct (upd2_cases Q i j (r_point c) k l) as [(_ & _ & E)|E]; rewrite E; [rewrite wide_point; discriminate | auto].
Qed.
Lemma cr_upd r i c : (cr (upd1 r i (r_point c)) <= cr r)%nat.
Proof.
  apply filter_le. intros k _. destruct (upd1_cases r i (r_point c) k) as [(_ & E)|E]; rewrite E; [rewrite wide_point; discriminate | auto].
Qed.
Lemma cr_upd_lt r i c : (i < n)%nat -> wide (r i) = true -> (cr (upd1 r i (r_point c)) < cr r)%nat.
Proof.
  intros Hi H. apply (filter_lt _ _ _ i); [|apply in_seq; lia| |exact H].
  - intros k _. destruct (upd1_cases r i (r_point c) k) as [(_ & E)|E]; rewrite E; [rewrite wide_point; discriminate | auto].
  - destruct (upd1_cases r i (r_point c) i) as [(_ & E)|E]; [rewrite E; apply wide_point|]. unfold upd1. rewrite Nat.eqb_refl. apply wide_point.
Qed.

(** ** The monotony test and the choice of the entry make progress *)
Lemma mono_cQ p : (cQ (pQ (monotony nu p)) <= cQ (pQ p))%nat.
Proof. apply filter_le. intros [i j] _. cbn [fst snd pQ monotony]. apply mono_wide. Qed.
Lemma mono_cr p : (cr (pr (monotony nu p)) <= cr (pr p))%nat.
Proof. apply filter_le. intros i _. cbn [pr monotony]. apply mono_wide. Qed.
Lemma not_exact Q : exact_mat n Q = false -> exists i j, (i < n)%nat /\ (j < n)%nat /\ wide (Q i j) = true.
Proof.
  intro H. unfold exact_mat in H. fold pairs in H.
  assert (exists p, In p pairs /\ wide (Q (fst p) (snd p)) = true) as ([i j] & Ip & W).
  { induction pairs as [|[i j] l IH]; [discriminate|]. cbn [forallb fst snd] in H. destruct (Req_EM_T (r_rad (Q i j)) 0) as [E|E].
    - destruct (IH H) as (q & Iq & Wq). exists q. split; [now right | exact Wq].
    - exists (i, j). split; [now left|]. apply wide_wid. unfold r_rad in E. unfold wid. cbn [fst snd]. lra. }
  apply pairs_in in Ip. exists i, j. cbn [fst snd] in Ip, W. tauto.
Qed.
Lemma mat_arg_max f i j i' j' : mat_arg n f = (i, j) -> (i' < n)%nat -> (j' < n)%nat -> f i' j' <= f i j.
Proof.
  unfold mat_arg. cbv zeta. set (g := fun k => f (k / n)%nat (k mod n)%nat). intros E Hi Hj. inversion E; subst.
  assert (K : (i' * n + j' <= n * n - 1)%nat) by nia. pose proof (argmax_max (n * n - 1) g _ K) as H.
  unfold g in H at 1. rewrite Nat.div_add_l, (Nat.div_small j'), Nat.add_0_r in H by lia.
  rewrite (Nat.add_comm (i' * n)), Nat.mod_add, (Nat.mod_small j') in H by lia. exact H.
Qed.
Definition proper_item (p : pitem) : Prop := pok n A b (pQ p) (pr p).
Lemma size_pos d q : rl q <= rh q -> 0 < r_mag d * wid q -> wide q = true.
Proof. intros P H. apply wide_wid. intro E. rewrite E in H. lra. Qed.
(** The child built from [q := monotony p] by fixing the chosen entry has fewer
    uncertain entries than [p]. *)
Lemma progress_mat p im jm c : proper_item (monotony nu p) -> mat_arg n (mat_size nu (monotony nu p)) = (im, jm) ->
  vec_size nu (monotony nu p) (vec_arg n (vec_size nu (monotony nu p))) < mat_size nu (monotony nu p) im jm ->
  (cnt (upd2 (pQ (monotony nu p)) im jm (r_point c)) (pr (monotony nu p)) < cnt (pQ p) (pr p))%nat.
Proof.
  intros [I1 I2] E H. destruct (mat_arg_lt n nu Hnu _ _ _ E) as [Hi Hj]. set (q := monotony nu p) in *.
  assert (Hv : 0 <= vec_size nu q (vec_arg n (vec_size nu q))).
  { unfold vec_size at 1. apply Rmult_le_pos; [apply mag_nonneg|]. destruct (I2 (vec_arg n (vec_size nu q)) (vec_arg_lt n nu Hnu _)) as [[_ P] _]. unfold wid. lra. }
  assert (W : wide (pQ q im jm) = true).
  { destruct (I1 im jm Hi Hj) as [[_ P] _]. apply (size_pos (deriv nu (pY q) (px q) im jm)); [exact P|]. unfold mat_size in H at 1. lra. }
  unfold cnt. pose proof (cQ_upd (pQ q) im jm c Hi Hj W). pose proof (mono_cQ p). pose proof (mono_cr p). fold q in H1, H2. lia.
Qed.
Lemma progress_vec p c im jm : exact_mat n (pQ p) = false -> proper_item (monotony nu p) -> mat_arg n (mat_size nu (monotony nu p)) = (im, jm) ->
  ~ vec_size nu (monotony nu p) (vec_arg n (vec_size nu (monotony nu p))) < mat_size nu (monotony nu p) im jm ->
  (cnt (pQ (monotony nu p)) (upd1 (pr (monotony nu p)) (vec_arg n (vec_size nu (monotony nu p))) (r_point c)) < cnt (pQ p) (pr p))%nat.
Proof.
  intros Ex [I1 I2] E H. set (q := monotony nu p) in *. set (k := vec_arg n (vec_size nu q)) in *. assert (Hk : (k < n)%nat) by (apply vec_arg_lt with (nu := nu); exact Hnu).
  pose proof (mono_cQ p) as C1. pose proof (mono_cr p) as C2. fold q in C1, C2. unfold cnt.
  destruct (Rlt_dec 0 (vec_size nu q k)) as [L|L].
  - destruct (I2 k Hk) as [[_ P] _]. pose proof (cr_upd_lt (pr q) k c Hk (size_pos (pY q nu k) _ P L)). lia.
  - pose proof (cr_upd (pr q) k c). assert (Z : forall i j, (i < n)%nat -> (j < n)%nat -> wide (pQ q i j) = false).
    { intros i j Hi Hj. pose proof (mat_arg_max _ _ _ i j E Hi Hj) as M. destruct (I1 i j Hi Hj) as [[_ P] _].
      destruct (wide (pQ q i j)) eqn:W; [|reflexivity]. exfalso.
      assert (Hw : 0 < wid (pQ q i j)). { unfold wide in W. unfold wid. destruct (Req_EM_T _ _); [discriminate|]. lra. }
      pose proof (mag_nonneg (deriv nu (pY q) (px q) i j)) as G. unfold mat_size in M at 1.
      assert (r_mag (deriv nu (pY q) (px q) i j) = 0) as E0 by nra.
      assert (F : wide (pQ q i j) = false) by (unfold q; cbn [pQ monotony]; apply mono_flat; exact E0). congruence. }
    destruct (not_exact _ Ex) as (i & j & Hi & Hj & W).
    assert (cQ (pQ q) < cQ (pQ p))%nat; [|lia]. apply (filter_lt _ _ _ (i, j)); [|now apply in_pairs | cbn [fst snd]; auto | exact W].
    intros [i' j'] Ip. apply pairs_in in Ip. cbn [fst snd] in *. rewrite Z by tauto. discriminate.
Qed.

(** ** What is attained *)
Definition attained (y : R) : Prop := exists x, united n n A b x /\ x nu = y.
Definition weigh (Q : imat) (r : ivec) : nat := (2 ^ S (cnt Q r) - 1)%nat.
Definition weight (L : list pitem) : nat := list_sum (map (fun p => weigh (pQ p) (pr p)) L).
Definition item_ok (p : pitem) : Prop := pok n A b (pQ p) (pr p) /\ exists v, hbr (pQ p) (pr p) = Some v /\ pg p = rl (v nu).
Lemma pow_pos k : (1 <= 2 ^ k)%nat.
Proof. induction k; cbn [Nat.pow]; lia. Qed.
Lemma weight_insert k p l : weight (insert_at k p l) = (weigh (pQ p) (pr p) + weight l)%nat.
Proof.
  revert l; induction k as [|k IH]; intros [|c l]; try reflexivity. cbn [insert_at]. unfold weight in *. cbn [map list_sum fold_right].
  fold (list_sum (map (fun p0 => weigh (pQ p0) (pr p0)) (insert_at k p l))). rewrite IH. fold (list_sum (map (fun p0 => weigh (pQ p0) (pr p0)) l)). lia.
Qed.
Lemma insert_item_keeps x h rest : exists k, insert_item x (h :: rest) = h :: insert_at k x rest.
Proof. unfold insert_item. cbv zeta. generalize (bisect (length (h :: rest)) (map pg (h :: rest)) (pg x) 0 (length (h :: rest))). intros [|k]; [exists 0%nat | exists k]; reflexivity. Qed.

Lemma split_acc ind fl Q r Y0 g Wch sch omega h rest LL' Mn : pok n A b Q r ->
  split hbr inverse solve n nu hang ind fl Q r Y0 g Wch sch omega None (h :: rest, []) = POk (LL', Mn) ->
  exists rest', LL' = (h :: rest', []) /\ (forall y, In y rest' -> In y rest \/ item_ok y) /\ attained (Mn nu) /\
    (weight rest' <= weigh Q r + weight rest)%nat.
Proof.
  intros P E. destruct P as [I1 I2]. unfold split in E.
  apply pbind_ok in E. destruct E as (vx & E1 & E). apply por_ok in E1.
  apply pbind_ok in E. destruct E as (Mn' & E2 & E). apply por_ok in E2. cbv zeta in E.
  apply pbind_ok in E. destruct E as (g' & E3 & E).
  assert (HMn : attained (Mn' nu)).
  { exists Mn'. split; [|reflexivity]. exists (mids Q), (fun i => r_mid (r i)). split; [now apply mids_in|]. split; [now apply mid_in|]. now apply Hsolve. }
  destruct (lt_inf (rl (vx nu)) omega).
  - apply pbind_ok in E. destruct E as (Y & E4 & E). cbn [lt_inf] in E. inversion E; subst LL' Mn'; clear E.
    set (new := mkp _ _ _ _ _ _ _ _). destruct (insert_item_keeps new h rest) as (k & R1). rewrite R1. exists (insert_at k new rest).
    split; [reflexivity|]. split; [|split; [exact HMn|]].
    + intros y Iy. apply insert_at_In in Iy. destruct Iy as [-> |Iy]; [right | now left]. split; [split; assumption|]. exists vx. split; [exact E1 | reflexivity].
    + rewrite weight_insert. apply Nat.le_refl.
  - inversion E; subst LL' Mn'. exists rest. split; [reflexivity|]. split; [auto|]. split; [exact HMn | lia].
Qed.

Definition outcome_acc (p : pitem) (rest : list pitem) (r : lists * R) : Prop :=
  exists h rest', fst r = (h :: rest', []) /\ (forall y, In y rest' -> In y rest \/ item_ok y) /\ attained (snd r) /\
    (weight rest' < weigh (pQ p) (pr p) + weight rest)%nat.
Lemma weigh_step Q r p : (cnt Q r < cnt (pQ p) (pr p))%nat -> (2 * weigh Q r < weigh (pQ p) (pr p))%nat.
Proof.
  intro H. unfold weigh. pose proof (pow_pos (S (cnt Q r))). assert (2 ^ S (S (cnt Q r)) <= 2 ^ S (cnt (pQ p) (pr p)))%nat by (apply Nat.pow_le_mono_r; lia).
  assert (2 ^ S (S (cnt Q r)) = 2 * 2 ^ S (cnt Q r))%nat by reflexivity. lia.
Qed.
Lemma one_acc p ind fl Q r Y0 g Wch sch omega h rest LL' : pok n A b Q r -> (cnt Q r < cnt (pQ p) (pr p))%nat ->
  pbind (split hbr inverse solve n nu hang ind fl Q r Y0 g Wch sch omega None (h :: rest, [])) (fun r1 => POk (fst r1, vnu nu (snd r1))) = POk LL' ->
  outcome_acc p rest LL'.
Proof.
  intros P C E. apply pbind_ok in E. destruct E as ([L1 M1] & E1 & E). cbn [fst snd] in E. inversion E; subst LL'; clear E.
  destruct (split_acc _ _ _ _ _ _ _ _ _ _ _ _ _ P E1) as (r' & S1 & S2 & S3 & S4). exists h, r'. cbn [fst snd].
  split; [exact S1|]. split; [exact S2|]. split; [exact S3|]. pose proof (weigh_step _ _ _ C). lia.
Qed.
Lemma two_acc p ind1 fl1 Q1 r1 Y1 g1 W1 s1 ind2 fl2 Q2 r2 Y2 g2 W2 s2 omega h rest LL' :
  pok n A b Q1 r1 -> pok n A b Q2 r2 -> (cnt Q1 r1 < cnt (pQ p) (pr p))%nat -> (cnt Q2 r2 < cnt (pQ p) (pr p))%nat ->
  pbind (split hbr inverse solve n nu hang ind1 fl1 Q1 r1 Y1 g1 W1 s1 omega None (h :: rest, [])) (fun a1 =>
  pbind (split hbr inverse solve n nu hang ind2 fl2 Q2 r2 Y2 g2 W2 s2 omega None (fst a1)) (fun a2 => POk (fst a2, Rmin (vnu nu (snd a1)) (vnu nu (snd a2))))) = POk LL' ->
  outcome_acc p rest LL'.
Proof.
  intros P1 P2 C1 C2 E. apply pbind_ok in E. destruct E as ([L1 M1] & E1 & E). cbn [fst snd] in E.
  apply pbind_ok in E. destruct E as ([L2 M2] & E2 & E). cbn [fst snd] in E. inversion E; subst LL'; clear E.
  destruct (split_acc _ _ _ _ _ _ _ _ _ _ _ _ _ P1 E1) as (r' & S1 & S2 & S3 & S4). subst L1.
  destruct (split_acc _ _ _ _ _ _ _ _ _ _ _ _ _ P2 E2) as (r'' & T1 & T2 & T3 & T4).
  exists h, r''. cbn [fst snd]. split; [exact T1|]. split; [intros y Iy; destruct (T2 y Iy) as [Iy'|]; auto|].
  split; [unfold vnu, Rmin; destruct (Rle_dec _ _); assumption|]. pose proof (weigh_step _ _ _ C1). pose proof (weigh_step _ _ _ C2). lia.
Qed.
Lemma descend_acc p omega rest out : item_ok p -> exact_mat n (pQ p) = false ->
  descend hbr inverse solve n nu hang p omega None (rest, []) = POk out -> outcome_acc p rest out.
Proof.
  intros [Ip _] Ex E. unfold descend in E. cbv zeta in E. assert (Iq : proper_item (monotony nu p)) by (apply mono_iok; exact Ip).
  pose proof Iq as [I1 I2]. destruct (mat_arg n (mat_size nu (monotony nu p))) as [im jm] eqn:Earg.
  destruct (mat_arg_lt n nu Hnu _ _ _ Earg) as [Him Hjm]. pose proof (progress_mat p im jm) as PM. pose proof (fun c => progress_vec p c im jm Ex Iq Earg) as PV.
  revert E PM PV. set (q := monotony nu p) in *. set (k := vec_arg n (vec_size nu q)). intros E PM PV.
  assert (Hk : (k < n)%nat) by (apply vec_arg_lt with (nu := nu); exact Hnu).
  destruct (I1 im jm Him Hjm) as [[Q1 Q2] Q3]. destruct (I2 k Hk) as [[B1 B2] B3]. cbn [fst snd] in E.
  assert (UQ : forall c, rl (pQ q im jm) <= c <= rh (pQ q im jm) -> pok n A b (upd2 (pQ q) im jm (r_point c)) (pr q)).
  { intros c Hc. split; [apply inside_upd2; assumption | exact I2]. }
  assert (UR : forall c, rl (pr q k) <= c <= rh (pr q k) -> pok n A b (pQ q) (upd1 (pr q) k (r_point c))).
  { intros c Hc. split; [exact I1 | apply inside_upd1; assumption]. }
  destruct (Rlt_dec _ _) as [L|L].
  - destruct (_ =? 0)%Z; [|destruct (_ =? 1)%Z].
    + eapply (two_acc p); [| | | |exact E]; [apply UQ; lra | apply UQ; lra | now apply PM | now apply PM].
    + eapply (one_acc p); [| |exact E]; [apply UQ; lra | now apply PM].
    + eapply (one_acc p); [| |exact E]; [apply UQ; lra | now apply PM].
  - destruct (_ =? 0)%Z; [|destruct (_ =? 1)%Z].
    + eapply (two_acc p); [| | | |exact E]; [apply UR; lra | apply UR; lra | now apply PV | now apply PV].
    + eapply (one_acc p); [| |exact E]; [apply UR; lra | now apply PV].
    + eapply (one_acc p); [| |exact E]; [apply UR; lra | now apply PV].
Qed.

(** ** The loop *)
Definition near (g : R) : Prop := exists y, attained y /\ Rabs (y - g) <= Rmax tol 0.
Definition om_ok (omega : option R) : Prop := match omega with Some w => attained w | None => True end.
Definition oc_ok (L : list pitem) (omega oc : option R) : Prop :=
  match oc with Some o => exists p rest, L = p :: rest /\ o = pg p | None => omega = None end.
Lemma weight_filter f l : (weight (filter f l) <= weight l)%nat.
Proof. induction l as [|a l IH]; [apply Nat.le_refl|]. cbn [filter]. unfold weight in *. destruct (f a); cbn [map list_sum fold_right] in *; unfold list_sum in *; cbn [fold_right]; lia. Qed.
Lemma weight_pos p l : (1 <= weight (p :: l))%nat.
Proof.
  unfold weight. cbn [map list_sum fold_right]. unfold weigh at 1. pose proof (pow_pos (cnt (pQ p) (pr p))).
  assert (2 ^ S (cnt (pQ p) (pr p)) = 2 * 2 ^ cnt (pQ p) (pr p))%nat by reflexivity. lia.
Qed.
Lemma near_attained y : attained y -> near y.
Proof. intro H. exists y. split; [exact H|]. rewrite Rminus_diag_eq, Rabs_R0 by reflexivity. apply Rmax_r. Qed.
Lemma exact_points Q : exact_mat n Q = true -> forall i j, (i < n)%nat -> (j < n)%nat -> rl (Q i j) = rh (Q i j).
Proof.
  intros H i j Hi Hj. unfold exact_mat in H. rewrite forallb_forall in H. pose proof (H _ (in_pairs i j Hi Hj)) as P. cbn [fst snd] in P.
  destruct (Req_EM_T _ _) as [E|]; [unfold r_rad in E; lra | discriminate].
Qed.
Lemma stop_exact p : item_ok p -> exact_mat n (pQ p) = true -> attained (pg p).
Proof.
  intros ((I1 & I2) & v & E & ->) Ex. destruct (Hpoint (pQ p) (pr p) v nu I1 I2 (exact_points _ Ex) E Hnu) as (x & (M & w & HM & Hw & Hx) & Ev).
  exists x. split; [|exact Ev]. exists M, w. split; [|split; [|exact Hx]].
  - intros i j Hi Hj. destruct (I1 i j Hi Hj) as [[]]. destruct (HM i j Hi Hj). split; lra.
  - intros i Hi. destruct (I2 i Hi) as [[]]. destruct (Hw i Hi). split; lra.
Qed.
Lemma loop_acc : forall fuel L omega oc g, (forall y, In y L -> item_ok y) -> om_ok omega -> oc_ok L omega oc -> (weight L <= fuel)%nat ->
  pps_loop hbr inverse solve n nu tol hang fuel (L, []) omega None oc = POk g -> near g.
Proof.
  induction fuel as [|f IH]; intros L omega oc g HI Hom Hoc HW E; (destruct L as [|p rest]; [discriminate|]); [pose proof (weight_pos p rest); lia|].
  cbn [pps_loop fst snd] in E.
  assert (OC : forall o, oc = Some o -> o = pg p) by (intros o ->; destruct Hoc as (p' & r' & Er & ->); now inversion Er).
  destruct (exact_mat n (pQ p)) eqn:Ex.
  - destruct oc as [o|]; [|discriminate]. cbn [result] in E. inversion E; subst g. rewrite (OC o eq_refl). apply near_attained. apply stop_exact; [apply HI; now left | exact Ex].
  - destruct (far tol omega (pg p)) eqn:Ef.
    + apply pbind_ok in E. destruct E as ([[L' Lk'] mu] & E1 & E).
      destruct (descend_acc p omega rest _ (HI p (or_introl eq_refl)) Ex E1) as (h & r' & O1 & O2 & O3 & O4).
      cbn [fst snd] in O1, O3. inversion O1; subst L' Lk'; clear O1. cbn [fst snd tl filter] in E. set (om' := lower_mu omega mu) in *.
      assert (Hom' : om_ok om' /\ exists w, om' = Some w).
      { unfold om', lower_mu. destruct omega as [w|]; cbn [om_ok] in *; [destruct (Rlt_dec mu w)|]; eauto. }
      destruct Hom' as (Hom' & w & Hw).
      assert (E' : match filter (not_above om') r' with [] => result om' | p' :: _ => pps_loop hbr inverse solve n nu tol hang f (filter (not_above om') r', []) om' None (Some (pg p')) end = POk g).
      { destruct r' as [|a r'']; exact E. }
      clear E. pose proof (weight_filter (not_above om') r') as WF.
      assert (HI' : forall y, In y (filter (not_above om') r') -> item_ok y).
      { intros y Iy. apply filter_In in Iy. destruct Iy as [Iy _]. destruct (O2 y Iy) as [Iy'|]; [apply HI; now right | assumption]. }
      destruct (filter (not_above om') r') as [|p' r2].
      * rewrite Hw in E', Hom'. cbn [result om_ok] in *. inversion E'; subst g. now apply near_attained.
      * eapply IH; [exact HI' | exact Hom' | | | exact E'].
        -- cbn [oc_ok]. eauto.
        -- unfold weight in HW at 1. cbn [map list_sum fold_right] in HW. fold (list_sum (map (fun p0 => weigh (pQ p0) (pr p0)) rest)) in HW. fold (weight rest) in HW. lia.
    + destruct oc as [o|]; [|cbn [oc_ok] in Hoc; subst omega; discriminate]. cbn [result] in E. inversion E; subst g. rewrite (OC o eq_refl).
      destruct omega as [w|]; [|discriminate]. cbn [far] in Ef. destruct (Rlt_dec tol _) as [|N]; [discriminate|]. exists w. split; [exact Hom|].
      eapply Rle_trans; [apply Rnot_lt_le; exact N | apply Rmax_l].
Qed.
Lemma algo_acc inv_A maxiter g : proper_mat n n A -> proper_vec n b -> (2 ^ (n * n + n + 1) <= maxiter)%nat ->
  pps_algo hbr inverse solve n nu tol hang A b inv_A (Z.of_nat maxiter) = POk g -> near g.
Proof.
  intros PA Pb HN E. unfold pps_algo in E. apply pbind_ok in E. destruct E as (vx & E1 & E). apply por_ok in E1.
  eapply loop_acc; [| | | | exact E].
  - intros y [<-|[]]. split; [split|]; [intros i j Hi Hj; pose proof (PA i j Hi Hj) as P; unfold proper in P; cbn [pQ]; lra | intros i Hi; pose proof (Pb i Hi) as P; unfold proper in P; cbn [pr]; lra|].
    exists vx. split; [exact E1 | reflexivity].
  - exact I.
  - reflexivity.
  - unfold weight. cbn [map list_sum fold_right]. unfold weigh. pose proof (cnt_le A b) as C. cbn [pQ pr].
    assert (2 ^ S (cnt A b) <= 2 ^ (n * n + n + 1))%nat by (apply Nat.pow_le_mono_r; lia). lia.
Qed.
End Acc.

Theorem pps_accurate : forall hbr inverse solve det hang n A b tol maxiter nu X, (nu < n)%nat -> proper_mat n n A -> proper_vec n b ->
  solutions_exact solve n -> exact_on_numbers hbr n A b -> exact_on_numbers hbr n A (negated b) -> 0 <= tol ->
  (2 ^ (n * n + n + 1) <= maxiter)%nat -> pps hbr inverse solve det hang n A b tol (Z.of_nat maxiter) nu = POk X ->
  (exists x, united n n A b x /\ Rabs (x nu - rl X) <= tol) /\ (exists x, united n n A b x /\ Rabs (x nu - rh X) <= tol).
Proof.
  intros hbr inverse solve det hang n A b tol maxiter nu X Hnu PA Pb Hs E1 E2 Ht HN E.
  unfold pps in E. destruct (Req_EM_T _ _); [discriminate|]. apply pbind_ok in E. destruct E as (iA & EA & E).
  apply pbind_ok in E. destruct E as (lo & L1 & E). apply pbind_ok in E. destruct E as (hi & L2 & E). inversion E; subst X; clear E. cbn [rl rh].
  split.
  - destruct (algo_acc hbr inverse solve n nu tol hang A b Hnu Hs E1 iA maxiter lo PA Pb HN L1) as (y & (x & Hx & <-) & D).
    exists x. split; [exact Hx|]. rewrite Rmax_left in D by lra. exact D.
  - destruct (algo_acc hbr inverse solve n nu tol hang A (negated b) Hnu Hs E2 iA maxiter hi PA) as (y & (x & Hx & <-) & D); auto.
    { intros i Hi. pose proof (Pb i Hi) as P. unfold proper in *. unfold negated. cbn [rl rh]. lra. }
    rewrite Rmax_left in D by lra. exists (fun j => - x j). split.
    + destruct Hx as (M & v & HM & Hv & Hxx). exists M, (fun i => - v i). split; [exact HM|]. split.
      * intros i Hii. destruct (Hv i Hii) as [H1 H2]. unfold negated in H1, H2; cbn [rl rh] in H1, H2. split; lra.
      * intros i Hii. unfold times. rewrite (total_ext n _ (fun j => - (M i j * x j))) by (intros; ring). rewrite total_opp. f_equal. now apply Hxx.
    + replace (- x nu - - hi) with (- (x nu - hi)) by ring. rewrite Rabs_Ropp. exact D.
Qed.
