(** Proofs about the matrix branch of HBR and about PPS for all components. *)
From Coq Require Import Reals ZArith List Bool Arith Lia Lra Psatz.
From Verif Require Import Exact SpecExact ExactProofs RecogProofs Estim SpecEstim EstimProofs RohnProofs HbrProofs Pss Pps SpecPps PpsProofs PpsLoop PpsMore EstimMat SpecEstimMat.
Import ListNotations.
Open Scope R_scope.

(** ** PPS *)
Lemma pps_each_ok f l r : pps_each f l = POk r <-> length r = length l /\ forall p, (p < length l)%nat -> f (nth p l O) = POk (nth p r 0).
Proof.
  revert r. induction l as [|a l IH]; intro r; cbn [pps_each].
  - split.
    + intro E. injection E as <-. split; [reflexivity|]. intros p Hp. simpl in Hp. lia.
    + intros [L _]. destruct r; [reflexivity|discriminate].
  - destruct (f a) as [x| | | |] eqn:F; cbn [pbind];
      try (split; [discriminate|]; intros [_ H]; specialize (H O ltac:(simpl; lia)); simpl in H; congruence).
    destruct (pps_each f l) as [xs| | | |] eqn:G; cbn [pbind].
    2-5: split; [discriminate|]; intros [L H]; destruct r as [|y r]; [discriminate|]; exfalso;
      assert (Q : length r = length l /\ forall p, (p < length l)%nat -> f (nth p l O) = POk (nth p r 0)) by
        (split; [simpl in L; lia|]; intros p Hp; exact (H (S p) ltac:(simpl; lia))); apply IH in Q; discriminate.
    split.
    + intro E. injection E as <-. destruct (proj1 (IH xs) eq_refl) as [L H]. split; [simpl; lia|]. intros [|p] Hp; [exact F|]. apply H. simpl in Hp. lia.
    + intros [L H]. destruct r as [|y r]; [discriminate|]. assert (Y := H O ltac:(simpl; lia)). simpl in Y. rewrite F in Y. injection Y as <-.
      assert (Q : POk xs = POk r) by (apply IH; split; [simpl in L; lia|]; intros p Hp; exact (H (S p) ltac:(simpl; lia))). now injection Q as <-.
Qed.

Section All.
Variables (hbr : imat -> ivec -> option ivec) (inverse : imat -> option imat) (solve : mat -> vec -> option vec) (det : mat -> R).
Variables (hang n : nat) (A : imat) (b : ivec) (tol : R) (maxiter : Z).
Let all := pps_all hbr inverse solve det hang n A b tol maxiter.
Let one := pps hbr inverse solve det hang n A b tol maxiter.

(** The box is returned exactly when every component alone is returned, and then
    its components are those answers. *)
Theorem pps_all_components box : (0 < n)%nat -> (all = POk box <-> length box = n /\ forall nu, (nu < n)%nat -> one nu = POk (nth nu box (mkr 0 0))).
Proof.
  intro Hn. unfold all, one, pps_all, pps. destruct Req_EM_T as [Z|NZ].
  { split; [discriminate|]. intros [_ H]. now specialize (H O Hn). }
  destruct (inverse A) as [iA|]; cbn [por pbind]; [|split; [discriminate|]; intros [_ H]; now specialize (H O Hn)].
  set (f := fun nu => pps_algo hbr inverse solve n nu tol hang A b iA maxiter).
  set (g := fun nu => pps_algo hbr inverse solve n nu tol hang A (fun i => r_neg (b i)) iA maxiter).
  set (g' := fun nu => pbind (g nu) (fun x => POk (- x))).
  change (pbind (pps_each f (seq 0 n)) (fun lo => pbind (pps_each g' (seq 0 n)) (fun hi => POk (map (fun ab => mkr (fst ab) (snd ab)) (combine lo hi)))) = POk box <->
    length box = n /\ forall nu, (nu < n)%nat -> pbind (f nu) (fun lo => pbind (g nu) (fun hi => POk (mkr lo (- hi)))) = POk (nth nu box (mkr 0 0))).
  split.
  - destruct (pps_each f (seq 0 n)) as [lo| | | |] eqn:E1; cbn [pbind]; try discriminate.
    destruct (pps_each g' (seq 0 n)) as [hi| | | |] eqn:E2; cbn [pbind]; try discriminate.
    intro E. injection E as <-. apply pps_each_ok in E1, E2. destruct E1 as [L1 H1], E2 as [L2 H2]. rewrite seq_length in L1, H1, L2, H2.
    rewrite map_length, combine_length, L1, L2. split; [lia|]. intros nu Hnu.
    assert (Q1 := H1 nu Hnu). assert (Q2 := H2 nu Hnu). rewrite seq_nth in Q1, Q2 by exact Hnu. rewrite Nat.add_0_l in Q1, Q2. rewrite Q1. cbn [pbind].
    unfold g' in Q2. destruct (g nu) as [x| | | |]; cbn [pbind] in Q2 |- *; try discriminate. injection Q2 as Q2.
    rewrite (map_nth (fun ab : R * R => mkr (fst ab) (snd ab)) (combine lo hi) (0, 0) nu : nth nu _ (mkr 0 0) = _), combine_nth by lia. cbn [fst snd]. now rewrite Q2.
  - intros [L H].
    assert (F : pps_each f (seq 0 n) = POk (map rl box)).
    { apply pps_each_ok. rewrite map_length, seq_length. split; [exact L|]. intros p Hp. rewrite seq_nth by exact Hp. rewrite Nat.add_0_l.
      specialize (H p Hp). destruct (f p); cbn [pbind] in H; try discriminate. destruct (g p); cbn [pbind] in H; try discriminate. injection H as H.
      rewrite (map_nth rl box (mkr 0 0) p : nth p _ 0 = _), <- H. reflexivity. }
    assert (G : pps_each g' (seq 0 n) = POk (map rh box)).
    { apply pps_each_ok. rewrite map_length, seq_length. split; [exact L|]. intros p Hp. rewrite seq_nth by exact Hp. rewrite Nat.add_0_l.
      specialize (H p Hp). unfold g'. destruct (f p); cbn [pbind] in H; try discriminate. destruct (g p); cbn [pbind] in H |- *; try discriminate. injection H as H.
      rewrite (map_nth rh box (mkr 0 0) p : nth p _ 0 = _), <- H. reflexivity. }
    rewrite F, G. cbn [pbind]. f_equal. clear. induction box as [|[l h] box IH]; [reflexivity|]. simpl. now rewrite IH.
Qed.

Theorem pps_all_encloses box (low high : nat -> vec) : (0 < n)%nat ->
  estimates_enclose hbr n A b -> estimates_enclose hbr n A (negated b) -> inverses_enclose inverse n A -> solutions_exact solve n ->
  (forall nu, (nu < n)%nat -> generic_minimum n A b nu (low nu) /\ generic_minimum n A (negated b) nu (high nu)) ->
  all = POk box -> forall x, united n n A b x -> in_ivec n (fun j => nth j box (mkr 0 0)) x.
Proof.
  intros Hn H1 H2 H3 H4 G E x U nu Hnu. apply pps_all_components in E; [|exact Hn]. destruct E as [_ E]. destruct (G nu Hnu) as [G1 G2].
  exact (pps_encloses hbr inverse solve det hang n A b tol maxiter nu _ _ _ Hnu H1 H2 H3 H4 G1 G2 (E nu Hnu) x U).
Qed.
End All.

(** ** HBR with a matrix on the right-hand side *)
Lemma all_some_map {T} (f : nat -> T) l : all_some (map (fun i => Some (f i)) l) = Some (map f l).
Proof. induction l as [|a l IH]; [reflexivity|]. simpl. now rewrite IH. Qed.
Lemma scale_point c x : r_scale c (r_point x) = r_point (c * x).
Proof. unfold r_scale, r_point. cbn [rl rh]. now rewrite Rmin_left, Rmax_left by lra. Qed.
Lemma rit_eq x y : rl x = rl y -> rh x = rh y -> x = y.
Proof. destruct x, y. simpl. now intros -> ->. Qed.
Lemma eye_row n f i : (i < n)%nat -> total n (fun l => eye i l * f l) = f i.
Proof.
  intro Hi. rewrite (total_pick n i) by (first [exact Hi | intros j Hj Ne; unfold eye; destruct (Nat.eqb_spec i j); [lia|ring]]).
  unfold eye. rewrite Nat.eqb_refl. ring.
Qed.
Lemma rimm_eye n M i j : (i < n)%nat -> rimm n eye (point_mat M) i j = r_point (M i j).
Proof.
  intro Hi. apply rit_eq; unfold rimm; [rewrite isum_lo|rewrite isum_hi]; unfold point_mat.
  all: rewrite (total_ext n _ (fun l => eye i l * M l j)) by (intros l _; change (mkr (M l j) (M l j)) with (r_point (M l j)); now rewrite scale_point); now rewrite (eye_row n (fun l => M l j)).
Qed.
Lemma total_const n c : total n (fun _ => c) = INR n * c.
Proof. induction n; [simpl; lra|]. rewrite S_INR. simpl total. rewrite IHn. ring. Qed.
Lemma mag_point x : r_mag (r_point x) = Rabs x.
Proof. unfold r_mag, r_point. cbn [rl rh]. now rewrite Rmax_left by lra. Qed.
Lemma compmat_eye i j : r_compmat (point_mat eye) i j = eye i j.
Proof.
  unfold r_compmat, point_mat, eye. fold (r_point (if (i =? j)%nat then 1 else 0)). destruct (i =? j)%nat eqn:E.
  - unfold r_mig, has0, r_point. cbn [rl rh]. destruct Rle_dec; [lra|]. rewrite Rabs_right by lra. now rewrite Rmin_left by lra.
  - rewrite mag_point, Rabs_R0. lra.
Qed.
Lemma existsb_first (P : nat -> bool) k : P O = true -> existsb P (seq 0 (S k)) = true.
Proof. intro H. apply existsb_exists. exists O. split; [apply in_seq; lia|exact H]. Qed.

(** Number equations X = b: every entry of the answer is b/n^2 * [1, 2n - 1]. *)
Section Identity.
Variables (k p : nat) (M : mat).
Let n := S k.
Let A1 := rimm n eye (point_mat eye).
Let cm := r_compmat A1.
Let b1 := rimm n eye (point_mat M).
Lemma cm_eye i j : (i < n)%nat -> cm i j = eye i j.
Proof. intro Hi. unfold cm. rewrite <- compmat_eye. unfold r_compmat. unfold A1. now rewrite rimm_eye. Qed.
Definition answer_entry (x : R) : rit := mkr (Rmin (/ INR n ^ 2 * x) ((2 * INR n - 1) / INR n ^ 2 * x)) (Rmax (/ INR n ^ 2 * x) ((2 * INR n - 1) / INR n ^ 2 * x)).
Lemma hbr_mat_identity : exists box, hbr_mat k p (point_mat eye) (point_mat M) eye eye = Some box /\ length box = n /\
  forall i c, (i < n)%nat -> (c < p)%nat -> nth c (nth i box []) (mkr 0 0) = answer_entry (M i c).
Proof.
  unfold hbr_mat. cbv beta zeta. fold n. fold A1. fold b1. fold cm.
  set (v := vabs (mv n eye (fun _ => 1))). set (u := mv n cm v).
  assert (V : forall i, (i < n)%nat -> v i = 1).
  { intros i Hi. unfold v, vabs. rewrite mv_times. unfold times. rewrite (eye_row n (fun _ => 1)) by exact Hi. apply Rabs_right. lra. }
  assert (U : forall i, (i < n)%nat -> u i = 1).
  { intros i Hi. unfold u. rewrite mv_times. unfold times. rewrite (total_ext n _ (fun l => eye i l * v l)) by (intros; now rewrite cm_eye). rewrite eye_row by exact Hi. now apply V. }
  assert (T : existsb (fun i => if Rlt_dec 0 (u i) then true else false) (seq 0 n) = true).
  { apply existsb_first. rewrite U by (unfold n; lia). destruct Rlt_dec; [reflexivity|lra]. }
  rewrite T. clear T.
  assert (W : forall j, (j < n)%nat -> vmax k (fun i => - (mm n cm eye i j - eye i j) / (u i * 1)) = 0).
  { intros j Hj. apply vmax_const. intros i Hi. unfold mm. rewrite vsum_eq. rewrite (total_ext n _ (fun l => eye i l * eye l j)) by (intros; rewrite cm_eye by (unfold n; lia); reflexivity).
    rewrite (eye_row n (fun l => eye l j)) by (unfold n; lia). unfold Rdiv. ring. }
  assert (VW : vsum n (fun i => v i * vmax k (fun i0 => - (mm n cm eye i0 i - eye i0 i) / (u i0 * 1))) = 0).
  { rewrite vsum_eq. apply total_0. intros j Hj. rewrite W by exact Hj. ring. }
  rewrite VW.
  assert (Nn : 1 <= INR n) by (unfold n; rewrite S_INR; assert (T := pos_INR k); lra).
  assert (B1 : forall i c, (i < n)%nat -> b1 i c = r_point (M i c)) by (intros; unfold b1; now apply rimm_eye).
  set (al := fun i => cm i i + -1 / (eye i i + 0)).
  assert (Al : forall i, (i < n)%nat -> al i = 0).
  { intros i Hi. unfold al. rewrite cm_eye by exact Hi. unfold eye. rewrite Nat.eqb_refl. field. }
  set (tr := vsum n (fun l => (eye l l + 0) * 1)).
  assert (Tr : tr = INR n).
  { unfold tr. rewrite vsum_eq. rewrite (total_ext n _ (fun _ => 1)) by (intros; unfold eye; rewrite Nat.eqb_refl; ring). rewrite total_const. ring. }
  set (be := fun i c => mm n (fun i0 j => eye i0 j + 0) (fun i0 c0 => r_mag (b1 i0 c0)) i c / tr - r_mag (b1 i c)).
  assert (Be : forall i c, (i < n)%nat -> be i c = Rabs (M i c) / INR n - Rabs (M i c)).
  { intros i c Hi. unfold be. rewrite Tr, B1, mag_point by exact Hi. f_equal. f_equal. unfold mm. rewrite vsum_eq.
    rewrite (total_ext n _ (fun l => eye i l * Rabs (M l c))) by (intros; rewrite B1, mag_point by assumption; ring). now rewrite (eye_row n (fun l => Rabs (M l c))). }
  set (den := isum n (fun l => r_scale 1 (r_add (A1 l l) (sym (al l))))).
  assert (Den : den = r_point (INR n)).
  { assert (T : forall l, (l < n)%nat -> r_scale 1 (r_add (A1 l l) (sym (al l))) = r_point 1).
    { intros l Hl. rewrite Al by exact Hl. unfold A1. rewrite rimm_eye by exact Hl. unfold eye. rewrite Nat.eqb_refl.
      replace (sym 0) with (r_point 0) by (unfold sym, sort_itv, r_point; rewrite Rmin_left, Rmax_left by lra; f_equal; lra).
      replace (r_add (r_point 1) (r_point 0)) with (r_point 1) by (unfold r_add, r_point; cbn [rl rh]; f_equal; lra). rewrite scale_point. unfold r_point. f_equal; lra. }
    apply rit_eq; unfold den; [rewrite isum_lo|rewrite isum_hi]; (rewrite (total_ext n _ (fun _ => 1)) by (intros; now rewrite T)); rewrite total_const; unfold r_point; cbn [rl rh]; lra. }
  change (isum n (fun l => r_scale 1 (r_add (A1 l l) (sym (cm l l + -1 / (eye l l + 0)))))) with den. rewrite Den. clearbody den tr.
  assert (Ent : forall i c, (i < n)%nat -> r_div (r_add (b1 i c) (sym (be i c))) (r_point (INR n)) = Some (answer_entry (M i c))).
  { intros i c Hi. rewrite B1, Be by exact Hi. set (N := INR n) in *. set (x := M i c). unfold r_div.
    assert (H0' : has0 (r_point N) = false) by (unfold has0, r_point; cbn [rl rh]; destruct Rle_dec; [lra|reflexivity]). rewrite H0'.
    f_equal. unfold answer_entry. fold N. unfold r_add, sym, sort_itv, r_point. cbn [rl rh].
    assert (IN : 0 < / N <= 1) by (split; [apply Rinv_0_lt_compat; lra|rewrite <- Rinv_1; apply Rinv_le_contravar; lra]).
    replace (/ N ^ 2) with (/ N * / N) by (field; lra). replace ((2 * N - 1) / N ^ 2 * x) with ((2 - / N) * (/ N * x)) by (field; lra).
    unfold Rdiv. set (t := / N) in *. clearbody t.
    assert (Ab : 0 <= Rabs x) by apply Rabs_pos.
    assert (SB : Rabs x * t - Rabs x <= 0) by nra.
    assert (TT : 0 <= t * (1 - t)) by nra.
    assert (PP : 0 <= x -> 0 <= x * (t * (1 - t))) by (intro; apply Rmult_le_pos; assumption).
    assert (PN : x < 0 -> 0 <= (- x) * (t * (1 - t))) by (intro; apply Rmult_le_pos; [lra|assumption]).
    rewrite (Rmin_right (- (Rabs x * t - Rabs x))), (Rmax_left (- (Rabs x * t - Rabs x))) by lra.
    f_equal.
    - rewrite (Rmin_left ((x + (Rabs x * t - Rabs x)) * t)) by lra. rewrite (Rmin_left ((x + - (Rabs x * t - Rabs x)) * t)) by lra.
      destruct (Rle_or_lt 0 x) as [Px|Px]; [rewrite (Rabs_right x) by lra; specialize (PP Px)|rewrite (Rabs_left x) by lra; specialize (PN Px)].
      + rewrite Rmin_left by nra. rewrite Rmin_left by nra. ring.
      + rewrite Rmin_left by nra. rewrite Rmin_right by nra. ring.
    - rewrite (Rmax_left ((x + (Rabs x * t - Rabs x)) * t)) by lra. rewrite (Rmax_left ((x + - (Rabs x * t - Rabs x)) * t)) by lra.
      destruct (Rle_or_lt 0 x) as [Px|Px]; [rewrite (Rabs_right x) by lra; specialize (PP Px)|rewrite (Rabs_left x) by lra; specialize (PN Px)].
      + rewrite Rmax_right by nra. rewrite Rmax_right by nra. ring.
      + rewrite Rmax_right by nra. rewrite Rmax_left by nra. ring. }
  exists (map (fun i => map (fun c => answer_entry (M i c)) (seq 0 p)) (seq 0 n)).
  split; [|split].
  - rewrite <- all_some_map. f_equal. apply map_ext_in. intros i Hi. apply in_seq in Hi. rewrite <- all_some_map. f_equal. apply map_ext_in. intros c _. apply Ent. lia.
  - now rewrite map_length, seq_length.
  - intros i c Hi Hc. rewrite (nth_indep _ [] (map (fun c => answer_entry (M O c)) (seq 0 p))) by (now rewrite map_length, seq_length).
    rewrite (map_nth (fun i => map (fun c => answer_entry (M i c)) (seq 0 p))), seq_nth by exact Hi.
    rewrite (nth_indep _ (mkr 0 0) (answer_entry (M (0 + i)%nat O))) by (now rewrite map_length, seq_length).
    rewrite (map_nth (fun c => answer_entry (M (0 + i)%nat c))), seq_nth by exact Hc. reflexivity.
Qed.
End Identity.

(** Already X = b: whatever the non-zero right-hand side, the answer misses every entry of
    the only solution as soon as there are two equations. *)
Theorem hbr_mat_identity_misses k p M : (1 <= k)%nat -> (forall i c, (i < S k)%nat -> (c < p)%nat -> M i c <> 0) ->
  inverse_of (S k) (mids (point_mat eye)) eye /\ inverse_of (S k) (r_compmat (rimm (S k) eye (point_mat eye))) eye /\
  exists box, hbr_mat k p (point_mat eye) (point_mat M) eye eye = Some box /\ united_mat (S k) p (point_mat eye) (point_mat M) M /\
    forall i c, (i < S k)%nat -> (c < p)%nat -> ~ inI (nth c (nth i box []) (mkr 0 0)) (M i c).
Proof.
  intros Hk NZ.
  assert (EE : forall i j, (i < S k)%nat -> total (S k) (fun l => eye i l * eye l j) = if (i =? j)%nat then 1 else 0).
  { intros i j Hi. now rewrite (eye_row (S k) (fun l => eye l j)). }
  assert (ME : forall i j, mids (point_mat eye) i j = eye i j).
  { intros i j. unfold mids, point_mat, r_mid, r_point. cbn [rl rh]. field. }
  split; [|split].
  - intros i j Hi Hj. split; (rewrite (total_ext (S k) _ (fun l => eye i l * eye l j)) by (intros; now rewrite ME)); now apply EE.
  - intros i j Hi Hj. split; (rewrite (total_ext (S k) _ (fun l => eye i l * eye l j)) by (intros; now rewrite cm_eye)); now apply EE.
  - destruct (hbr_mat_identity k p M) as (box & E & L & N). exists box. split; [exact E|]. split.
    + exists eye, M. split; [|split].
      * intros i j _ _. unfold inI, point_mat, r_point. simpl. lra.
      * intros i j _ _. unfold inI, point_mat, r_point. simpl. lra.
      * intros i c Hi Hc. now rewrite (eye_row (S k) (fun l => M l c)).
    + intros i c Hi Hc. rewrite N by assumption. assert (Z := NZ i c Hi Hc). unfold answer_entry, inI. cbn [rl rh].
      assert (K : 2 <= INR (S k)) by (rewrite S_INR; assert (T : INR 1 <= INR k) by (apply le_INR; exact Hk); simpl in T; lra).
      set (m := INR (S k)) in *. set (x := M i c) in *.
      assert (IN : 0 < / m < 1) by (split; [apply Rinv_0_lt_compat; lra|rewrite <- Rinv_1; apply Rinv_lt_contravar; lra]).
      replace (/ m ^ 2) with (/ m * / m) by (field; lra). replace ((2 * m - 1) / m ^ 2 * x) with ((2 * / m - / m * / m) * x) by (field; lra).
      set (t := / m) in *. clearbody t. assert (T1 : t * t < 1) by nra. assert (T2 : 2 * t - t * t < 1) by nra.
      destruct (Rtotal_order x 0) as [Px|[Px|Px]]; [|contradiction|]; intros [H1 H2].
      * revert H1. apply Rlt_not_le. apply Rmin_glb_lt; nra.
      * revert H2. apply Rlt_not_le. apply Rmax_lub_lt; nra.
Qed.

(** One equation: the matrix branch answers each column as the vector branch does. *)
Theorem hbr_mat_single p A b C B : inverse_of 1 (r_compmat (rimm 1 C A)) B -> h_matrix 1 (rimm 1 C A) ->
  exists row, hbr_mat 0 p A b C B = Some [row] /\ length row = p /\
    (forall c, (c < p)%nat -> hbr 0 A (fun i => b i c) C B = Some [nth c row (mkr 0 0)]) /\
    forall X, united_mat 1 p A b X -> forall c, (c < p)%nat -> inI (nth c row (mkr 0 0)) (X O c).
Proof.
  intros HB HA.
  assert (F : forall c, exists x, hbr 0 A (fun i => b i c) C B = Some [x] /\ forall y, united 1 1 A (fun i => b i c) y -> inI x (y O)).
  { intro c. destruct (hbr_encloses 0 A (fun i => b i c) C B HB HA) as (r & Er & Lr & H). destruct r as [|x [|? ?]]; try discriminate.
    exists x. split; [exact Er|]. intros y Hy. exact (H y Hy O ltac:(lia)). }
  destruct (all_some_intro (fun c => match hbr 0 A (fun i => b i c) C B with Some [x] => Some x | _ => None end) (seq 0 p)) as (row & E & L & N).
  { intros c _. destruct (F c) as (x & Ex & _). rewrite Ex. now exists x. }
  rewrite seq_length in L, N.
  assert (Col : forall c, (c < p)%nat -> hbr 0 A (fun i => b i c) C B = Some [nth c row (mkr 0 0)]).
  { intros c Hc. assert (T := N c O (mkr 0 0) Hc). rewrite seq_nth in T by exact Hc. rewrite Nat.add_0_l in T.
    destruct (F c) as (x & Ex & _). rewrite Ex in T |- *. now injection T as ->. }
  exists row. split; [|split; [exact L|split; [exact Col|]]].
  - unfold hbr_mat. cbv zeta. set (A1 := rimm 1 C A) in *. set (cm := r_compmat A1) in *.
    set (v := vabs (mv 1 B (fun _ => 1))). set (u := mv 1 cm v).
    set (w := fun j => vmax 0 (fun i => - (mm 1 cm B i j - eye i j) / (u i * 1))).
    assert (W : w O = 0).
    { unfold w. apply vmax_const. intros i Hi. assert (i = O) by lia. subst i. unfold mm. rewrite vsum_eq. rewrite (proj1 (HB O O ltac:(lia) ltac:(lia))). unfold eye, Rdiv. simpl. ring. }
    assert (T : existsb (fun i => if Rlt_dec 0 (u i) then true else false) (seq 0 1) = true).
    { destruct (F O) as (x & Ex & _). unfold hbr in Ex. cbv zeta in Ex. fold A1 in Ex. fold cm in Ex. fold v in Ex. fold u in Ex. destruct existsb; [reflexivity|discriminate]. }
    rewrite T. change (seq 0 1) with [O]. cbn [map].
    match goal with |- context [all_some (map ?f (seq 0 p))] => assert (G : all_some (map f (seq 0 p)) = Some row) end.
    { rewrite <- E. f_equal. apply map_ext. intro c. destruct (F c) as (x & Ex & _). rewrite Ex. unfold hbr in Ex. cbv zeta in Ex. fold A1 in Ex. fold cm in Ex. fold v in Ex. fold u in Ex. rewrite T in Ex.
      change (seq 0 1) with [O] in Ex. cbn [map all_some] in Ex.
      match type of Ex with match ?d with Some _ => _ | None => _ end = _ => destruct d as [y|] eqn:D; [|discriminate]; injection Ex as -> end.
      rewrite <- D. fold (w O). change (vmax 0 (fun i => - (mm 1 cm B i O - eye i O) / (u i * 1))) with (w O).
      assert (VW : vsum 1 (fun i => v i * vmax 0 (fun i0 => - (mm 1 cm B i0 i - eye i0 i) / (u i0 * 1))) = 0).
      { cbn [vsum]. change (vmax 0 (fun i0 => - (mm 1 cm B i0 O - eye i0 O) / (u i0 * 1))) with (w O). rewrite W. ring. }
      rewrite VW, W. f_equal.
      - f_equal. f_equal. unfold mm, mv, rimv, rimm. cbn [vsum]. f_equal. f_equal. ring.
      - apply rit_eq; [rewrite isum_lo|rewrite isum_hi]; cbn [total]; unfold r_scale, r_add; cbn [rl rh].
        all: set (a := cm O O + -1 / (B O O + 0)); assert (PA : proper (A1 O O)) by (apply isum_proper; intros; apply scale_proper);
          assert (PS : rl (sym a) <= rh (sym a)) by (unfold sym, sort_itv; cbn [rl rh]; eapply Rle_trans; [apply Rmin_l|apply Rmax_l]); unfold proper in PA.
        + rewrite Rmin_left by lra. lra.
        + rewrite Rmax_right by lra. lra. }
    rewrite G. reflexivity.
  - intros X (M & v & HM & Hv & HX) c Hc. destruct (F c) as (x & Ex & H). rewrite (Col c Hc) in Ex. injection Ex as Ex. rewrite Ex.
    apply (H (fun l => X l c)). exists M, (fun i => v i c). split; [exact HM|]. split; [intros i Hi; now apply Hv|]. intros i Hi. exact (HX i c Hi Hc).
Qed.

Theorem hbr_mat_case : inverse_of 1 (r_compmat (rimm 1 (fun _ _ => / 3) (fun _ _ => mkr 2 4))) (fun _ _ => 3 / 2) /\
  h_matrix 1 (rimm 1 (fun _ _ => / 3) (fun _ _ => mkr 2 4)).
Proof.
  assert (E : forall i j, rimm 1 (fun _ _ => / 3) (fun _ _ => mkr 2 4) i j = mkr (2 / 3) (4 / 3)).
  { intros i j. unfold rimm. cbn [isum]. unfold r_add, r_scale, r_point. cbn [rl rh]. rewrite Rmin_left, Rmax_right by lra. f_equal; field. }
  split.
  - intros i j Hi Hj. assert (i = O) by lia. assert (j = O) by lia. subst. cbn [total Nat.eqb]. unfold r_compmat. cbn [Nat.eqb]. rewrite E.
    unfold r_mig, has0. cbn [rl rh]. destruct (Rle_dec (2 / 3) 0); [lra|]. rewrite !Rabs_right by lra. rewrite Rmin_left by lra. split; field.
  - exists (fun _ => 1). split; [intros i _; lra|]. intros M HM i Hi. assert (i = O) by lia. subst. cbn [total Nat.eqb].
    specialize (HM O O ltac:(lia) ltac:(lia)). rewrite E in HM. unfold inI in HM. cbn [rl rh] in HM. rewrite Rabs_right by lra. lra.
Qed.
