(** Proofs about PSS on doubles: the rows of [b - A Q] and the estimate of a box. *)
From Coq Require Import ZArith Reals List Bool Arith Lia Lra Psatz.
From Flocq Require Import Core IEEE754.BinarySingleNaN.
From Verif Require Import Base PyNum Kernel Spec Expr XReal XArith KernelProofs ExprProofs KernelAlg KernelMore Witness Arrays Construct SpecArray ArrayProofs ArrayMore ArrayMat
  ConstructProofs ConstructMore SpecIso IsoProofs SpecSolvers NewtonProofs NewtonVerify GSProofs ArrIso PssFl SpecPssFl PssFlProofs PssFlDiv.
Import ListNotations.
Open Scope R_scope.

(** ** Products and sums that are not NaN *)
Definition cm (X : itv) (r : R) : Prop := kd X = Classical /\ small_itv X /\ member X r.
Lemma mul_cm X Y m Z a b : plain X -> plain Y -> member X a -> member Y b -> returns (py_op OpMul (OItv X) (OItv Y)) m Z -> cm Z (a * b).
Proof.
  intros (kX & sX & FX & _) (kY & sY & FY & _) Ma Mb H. change (returns (itv_mul X (OItv Y)) m Z) in H.
  destruct (gives_returns _ _ _ _ _ (mul_gives X Y m sX sY kX kY)) as (Z' & HZ & K & _ & _ & S & _). assert (Z' = Z) by exact (same_result _ _ _ _ HZ H). subst Z'.
  split; [exact K|]. split; [exact S|].
  destruct (mul_encl X Y m sX sY kX kY) as (Z' & HZ' & E). assert (Z' = Z) by exact (same_result _ _ _ _ HZ' H). subst Z'.
  destruct (mul_finite_not_nan X Y m sX sY kX kY FX FY) as (Z' & HZ'' & N & _). assert (Z' = Z) by exact (same_result _ _ _ _ HZ'' H). subst Z'.
  destruct (E a b Ma Mb) as [[NN _]|M]; [congruence | exact M].
Qed.
Lemma add_cm X Y m Z a b : cm X a -> cm Y b -> returns (py_op OpAdd (OItv X) (OItv Y)) m Z -> cm Z (a + b).
Proof.
  intros (kX & sX & Ma) (kY & sY & Mb) H. change (returns (itv_add X (OItv Y)) m Z) in H.
  destruct (gives_returns _ _ _ _ _ (add_gives X Y m sX sY)) as (Z' & HZ & K & _ & _ & S & _). assert (Z' = Z) by exact (same_result _ _ _ _ HZ H). subst Z'. rewrite kX, kY in K.
  split; [exact K|]. split; [exact S|]. destruct (add_encl X Y m sX sY) as (Z' & HZ' & E). assert (Z' = Z) by exact (same_result _ _ _ _ HZ' H). subst Z'. auto.
Qed.
Lemma sub_cm X Y m Z a b : cm X a -> cm Y b -> returns (py_op OpSub (OItv X) (OItv Y)) m Z -> cm Z (a - b).
Proof.
  intros (kX & sX & Ma) (kY & sY & Mb) H. change (returns (itv_sub X (OItv Y)) m Z) in H.
  destruct (gives_returns _ _ _ _ _ (sub_gives X Y m sX sY)) as (Z' & HZ & K & _ & _ & S & _). assert (Z' = Z) by exact (same_result _ _ _ _ HZ H). subst Z'. rewrite kX, kY in K.
  split; [exact K|]. split; [exact S|]. destruct (sub_encl X Y m sX sY) as (Z' & HZ' & E). assert (Z' = Z) by exact (same_result _ _ _ _ HZ' H). subst Z'. auto.
Qed.
Lemma omul_out X Y m z : returns (omul (OItv X) (OItv Y)) m z -> exists W, z = OItv W /\ returns (py_op OpMul (OItv X) (OItv Y)) m W.
Proof. intro H. unfold omul in H. rewrite keeps_returns in H by (apply (keeps_py_op OpMul)). destruct H as (W & HW & H). apply returns_ret in H. eauto. Qed.
Lemma oadd_out X Y m z : returns (oadd (OItv X) (OItv Y)) m z -> exists W, z = OItv W /\ returns (py_op OpAdd (OItv X) (OItv Y)) m W.
Proof. intro H. unfold oadd in H. rewrite keeps_returns in H by (apply (keeps_py_op OpAdd)). destruct H as (W & HW & H). apply returns_ret in H. eauto. Qed.
Definition pair_in (p : itv * itv) (ab : R * R) : Prop := plain (fst p) /\ plain (snd p) /\ member (fst p) (fst ab) /\ member (snd p) (snd ab).
Definition ops (p : itv * itv) : operand * operand := (OItv (fst p), OItv (snd p)).
Lemma dot_from_cm l rl : Forall2 pair_in l rl -> forall A acc m z, cm A acc -> returns (dot_from (OItv A) (map ops l)) m z -> exists W, z = OItv W /\ cm W (acc + dotR rl).
Proof.
  induction 1 as [|[X Y] [a b] l rl (PX & PY & MX & MY) _ IH]; intros A acc m z CA H; cbn [map dot_from dotR] in *.
  - apply returns_ret in H. exists A. rewrite Rplus_0_r. auto.
  - cbn [fst snd ops] in *. rewrite keeps_returns in H by apply keeps_omul. destruct H as (p & Hp & H). destruct (omul_out _ _ _ _ Hp) as (P & -> & HP).
    rewrite keeps_returns in H by apply keeps_oadd. destruct H as (s & Hs & H). destruct (oadd_out _ _ _ _ Hs) as (S & -> & HS).
    rewrite <- Rplus_assoc. apply (IH S _ m z); [|exact H]. apply (add_cm A P m S acc (a * b) CA); [|exact HS]. exact (mul_cm X Y m P a b PX PY MX MY HP).
Qed.
Definition as_itv (o : operand) : itv := match o with OItv e => e | ONum c => mkitv Classical c c end.
Lemma dot_cm l rl m z : Forall2 pair_in l rl -> returns (dot (map ops l)) m z -> cm (as_itv z) (dotR rl).
Proof.
  destruct 1 as [|[X Y] [a b] l rl (PX & PY & MX & MY) H0]; intro H; cbn [map dot dotR] in *.
  - apply returns_ret in H. subst z. split; [reflexivity|]. split; [split; cbn; lia|]. apply member_x. cbn. split; apply Rle_refl.
  - cbn [fst snd ops] in *. rewrite keeps_returns in H by apply keeps_omul. destruct H as (p & Hp & H). destruct (omul_out _ _ _ _ Hp) as (P & -> & HP).
    destruct (dot_from_cm l rl H0 P (a * b) m z (mul_cm X Y m P a b PX PY MX MY HP) H) as (W & -> & CW). exact CW.
Qed.

(** ** Deleting a component *)
Lemma Rsum_skip n nu (f : nat -> R) : (nu < n)%nat -> Rsum n f = f nu + Rsum (n - 1) (fun k => f (skip nu k)).
Proof.
  induction n as [|n IH]; intro H; [lia|]. cbn [Rsum]. replace (S n - 1)%nat with n by lia. destruct (Nat.eq_dec nu n) as [->|N].
  - rewrite (Rsum_ext n (fun k => f (skip n k)) f); [lra|]. intros k Hk. unfold skip. destruct (Nat.ltb_spec k n); [reflexivity|lia].
  - rewrite IH by lia. destruct n as [|n]; [lia|]. replace (S n - 1)%nat with n by lia. cbn [Rsum]. unfold skip at 3. destruct (Nat.ltb_spec n nu); [lia|]. lra.
Qed.
Lemma skip_lt n nu k : (k < n - 1)%nat -> (skip nu k < n)%nat.
Proof. unfold skip. destruct (k <? nu); lia. Qed.
Lemma skip_seq n nu : (nu < n)%nat -> map (skip nu) (seq 0 (n - 1)) = seq 0 nu ++ seq (S nu) (n - S nu).
Proof.
  intro H. replace (n - 1)%nat with (nu + (n - S nu))%nat by lia. rewrite seq_app, map_app. f_equal.
  - rewrite <- (map_id (seq 0 nu)) at 2. apply map_ext_in. intros k Hk. apply in_seq in Hk. unfold skip. destruct (Nat.ltb_spec k nu); [reflexivity|lia].
  - rewrite <- seq_shift. cbn [Nat.add]. apply map_ext_in. intros k Hk. apply in_seq in Hk. unfold skip. destruct (Nat.ltb_spec k nu); [lia|reflexivity].
Qed.
Lemma remaining_skip n nu x : (nu < n)%nat -> remaining n nu x = map (fun k => x (skip nu k)) (seq 0 (n - 1)).
Proof. intro H. unfold remaining. rewrite <- (skip_seq n nu H), map_map. reflexivity. Qed.

(** ** The estimate of a box *)
Lemma keeps_mcatch {A} (c d : M A) : keeps_mode c -> keeps_mode d -> keeps_mode (mcatch c d).
Proof. intros K L m. unfold mcatch. specialize (K m). destruct (c m) as [[a|e] m1]; cbn [snd] in *; subst m1; [reflexivity | apply L]. Qed.
Lemma mcatch_returns {A} (c d : M A) m v : keeps_mode c -> returns (mcatch c d) m v -> returns c m v \/ returns d m v.
Proof. intros K H. unfold returns, outcome, mcatch in *. specialize (K m). destruct (c m) as [[a|e] m1]; cbn [snd fst] in *; subst m1; auto. Qed.
Definition near (md : rmode) (x T : R) : Prop := T = x \/ (T = rnd md x /\ xround md x = XFin T).
Definition row_in (md : rmode) (x T : R) (r : bool * (itv * itv)) : Prop :=
  exists v e, small_itv (fst (snd r)) /\ kd (fst (snd r)) = Classical /\ plain (snd (snd r)) /\ member (fst (snd r)) v /\ member (snd (snd r)) e /\ v = e * x /\
    (fst r = false -> xround md x = XFin T).
Lemma okm_near X x md T : near md x T -> okm X x -> okm X T.
Proof. intros [-> | [-> _]] O; [exact O | now apply okm_rnd]. Qed.
Lemma keeps_answer s : keeps_mode (answer_fl s).
Proof.
  destruct s as [X|X1 X2]; [apply keeps_ret|]. unfold answer_fl. apply keeps_bind; [apply keeps_vectorize_num; intro; apply keeps_ret|]. intro bs.
  destruct (adata bs) as [|b1 [|b2 [|]]]; try apply keeps_raise. destruct (_ && _); [apply keeps_ret|].
  apply keeps_bind; [apply keeps_vectorize_num; intro; apply keeps_ret|]. intro az. destruct (adata az) as [|a1 [|a2 [|]]]; try apply keeps_raise. apply keeps_ret.
Qed.
Lemma Forall_pick {A} (P : A -> Prop) f (rows : list (bool * A)) : Forall P (map snd (filter (fun r => Bool.eqb (fst r) f) rows)) <-> (forall r, In r rows -> fst r = f -> P (snd r)).
Proof.
  rewrite Forall_forall. split.
  - intros H [g a] I E. cbn in *. subst g. apply H. apply in_map_iff. exists (f, a). split; [reflexivity|]. apply filter_In. split; [exact I|]. cbn. apply eqb_reflx.
  - intros H a I. apply in_map_iff in I. destruct I as ([g a'] & <- & I). apply filter_In in I. destruct I as [I E]. cbn in *. apply eqb_prop in E. exact (H _ I E).
Qed.
Lemma keeps_first_meet div Vnu : keeps_mode (match div with [] => mraise IndexError | d :: ds => s <- meet_fl (FOne d) (FOne Vnu) ;; meets_fl s (map FOne ds) end).
Proof. destruct div; [apply keeps_raise|]. apply keeps_bind; [apply keeps_meet | intro; apply keeps_meets]. Qed.
Lemma keeps_second_meet pdiv Vnu : keeps_mode (match pdiv with [] => mraise IndexError | q :: _ => meet_fl q (FOne Vnu) end).
Proof. destruct pdiv; [apply keeps_raise | apply keeps_meet]. Qed.
Lemma keeps_divs l : keeps_mode (mapM (fun p : itv * itv => py_op OpDiv (OItv (fst p)) (OItv (snd p))) l).
Proof. apply keeps_mapM. intro. apply (keeps_py_op OpDiv). Qed.
Lemma keeps_omega rows Vnu : keeps_mode (omega_fl rows Vnu).
Proof.
  unfold omega_fl. apply keeps_bind; [apply keeps_mcatch; [apply keeps_divs | apply keeps_ret]|]. intro div.
  apply keeps_bind; [apply keeps_mapM; intro; apply keeps_kdiv|]. intro pdiv.
  apply keeps_bind; [apply keeps_mcatch; [apply keeps_first_meet | apply keeps_second_meet]|]. intro s.
  apply keeps_bind; [apply keeps_meets | intro; apply keeps_answer].
Qed.
Lemma omega_below rows Vnu md v x T : near md x T -> Forall (row_in md x T) rows -> okm Vnu T -> returns (omega_fl rows Vnu) md v -> xle_R (xval v) T.
Proof.
  intros NT HR OV H. rewrite Forall_forall in HR. unfold omega_fl in H.
  rewrite keeps_returns in H by (apply keeps_mcatch; [apply keeps_divs | apply keeps_ret]). destruct H as (div & Hdiv & H).
  rewrite keeps_returns in H by (apply keeps_mapM; intro; apply keeps_kdiv). destruct H as (pdiv & Hpdiv & H).
  rewrite keeps_returns in H by (apply keeps_mcatch; [apply keeps_first_meet | apply keeps_second_meet]). destruct H as (s & Hs & H).
  rewrite keeps_returns in H by apply keeps_meets. destruct H as (r & Hr & H).
  assert (Dok : Forall (fun d => okm d T) div).
  { apply mcatch_returns in Hdiv; [|apply keeps_divs]. destruct Hdiv as [Hdiv|Hdiv]; [|apply returns_ret in Hdiv; subst div; constructor].
    apply mapM_returns in Hdiv; [|intro; apply (keeps_py_op OpDiv)].
    assert (P : Forall (fun p : itv * itv => exists v e, small_itv (fst p) /\ kd (fst p) = Classical /\ plain (snd p) /\ member (fst p) v /\ member (snd p) e /\ v = e * x) (map snd (filter (fun r => Bool.eqb (fst r) true) rows))).
    { apply Forall_pick. intros q I _. destruct (HR q I) as (v0 & e & A). exists v0, e. tauto. }
    revert P Hdiv. generalize (map snd (filter (fun r0 : bool * (itv * itv) => Bool.eqb (fst r0) true) rows)). intros l P F. clear Hs. revert P. induction F as [|p d l ds Hd F IH]; intro P; [constructor|].
    inversion P as [|? ? (v0 & e & sa & ka & pd & Ma & Md & E) P']; subst. constructor; [|exact (IH P')].
    apply (okm_near d x md T NT). exact (div_okm _ _ md d _ e x sa ka pd Ma Md eq_refl Hd). }
  assert (Pok : Forall (fun q => holds_q q x T) pdiv).
  { apply mapM_returns in Hpdiv; [|intro; apply keeps_kdiv].
    assert (P : Forall (fun p : itv * itv => exists v e, small_itv (fst p) /\ kd (fst p) = Classical /\ plain (snd p) /\ member (fst p) v /\ member (snd p) e /\ v = e * x /\ xround md x = XFin T) (map snd (filter (fun r => Bool.eqb (fst r) false) rows))).
    { apply Forall_pick. intros q I E. destruct (HR q I) as (v0 & e & A1 & A2 & A3 & A4 & A5 & A6 & A7). exists v0, e. auto 10. }
    revert P Hpdiv. generalize (map snd (filter (fun r0 : bool * (itv * itv) => Bool.eqb (fst r0) false) rows)). intros l P F. clear Hs Hr. revert P. induction F as [|p q l qs Hq F IH]; intro P; [constructor|].
    inversion P as [|? ? (v0 & e & sa & ka & pd & Ma & Md & E & Ex) P']; subst. constructor; [|now apply IH].
    exact (kdiv_holds _ _ md q _ e x T sa (proj1 (proj2 pd)) (proj1 (proj2 (proj2 pd))) Ma Md eq_refl Ex Hq). }
  assert (Sok : holds_q s x T /\ met s).
  { apply mcatch_returns in Hs; [|apply keeps_first_meet]. destruct Hs as [Hs|Hs].
    - destruct Dok as [|d ds Od Ods]; [discriminate|]. rewrite keeps_returns in Hs by apply keeps_meet. destruct Hs as (s1 & Hs1 & Hs).
      destruct (meet_holds (FOne d) (FOne Vnu) md s1 x T Od OV Hs1) as [A B]. apply (meets_holds (map FOne ds) s1 md s x T A B); [|exact Hs].
      apply Forall_map. exact Ods.
    - destruct Pok as [|q qs Oq _]; [discriminate|]. exact (meet_holds q (FOne Vnu) md s x T Oq OV Hs). }
  destruct (meets_holds pdiv s md r x T (proj1 Sok) (proj2 Sok) Pok Hr) as [A B]. exact (answer_below r md v x T A B H).
Qed.

(** ** The rows *)
Section Rows.
Variables (m n nu : nat) (A : nat -> nat -> itv) (b V : nat -> itv) (md : rmode).
Hypothesis Hnu : (nu < n)%nat.
Hypothesis HS : fl_system m n nu A b.
Hypothesis HV : fl_box n nu V.

Lemma keeps_matmul x y : keeps_mode (matmul x y).
Proof.
  unfold matmul. destruct (ashape x) as [|a [|a' [|]]], (ashape y) as [|c [|c' [|]]]; try apply keeps_raise; (destruct (_ =? _); [|apply keeps_raise]);
    (apply keeps_bind; [|intro; apply keeps_ret]); first [apply keeps_dot | apply keeps_mapM; intro; apply keeps_dot].
Qed.
Lemma keeps_rest Q : keeps_mode (rest_fl m n nu A Q).
Proof. unfold rest_fl. apply keeps_bind; [apply keeps_matmul | intro; apply keeps_ret]. Qed.
Lemma keeps_rest_mid Q : keeps_mode (rest_mid_fl m n nu A Q).
Proof.
  unfold rest_mid_fl. apply keeps_bind; [apply keeps_vectorize_num; intro; apply keeps_mid|]. intro. apply keeps_bind; [apply keeps_matmul | intro; apply keeps_ret].
Qed.
Lemma keeps_omega_at fs Ar : keeps_mode (omega_at m nu A b V fs Ar).
Proof.
  unfold omega_at. apply keeps_bind; [|intro; apply keeps_omega]. unfold arr_op, lift_arr. apply keeps_bind; [|intro; apply keeps_ret]. apply keeps_binop_arr. intros. apply (keeps_py_op OpSub).
Qed.
Lemma WA_get i k : (i < m)%nat -> (k < n - 1)%nat -> oget (op_arr (WA m n nu A)) [i; k] = OItv (A i (skip nu k)).
Proof.
  intros Hi Hk. destruct (proj1 (in_bounds_flat _ _) (ib2 i k m (n - 1) Hi Hk)) as (p & F). unfold oget, aget, op_arr, WA, array_interval, amap. cbn [adat ashape adata]. rewrite F.
  rewrite map_map, nth_error_map, (flat_nth _ _ _ F). reflexivity.
Qed.
Lemma vec_get (Q : list itv) k X : nth_error Q k = Some X -> oget (op_arr (vec_itv Q)) [k] = OItv X.
Proof.
  intro E. assert (L : (k < length Q)%nat) by (apply nth_error_Some; congruence). unfold oget, aget, op_arr, vec_itv, array_interval, amap. cbn [adat ashape adata flat size].
  destruct (Nat.ltb_spec k (length Q)); [|lia]. cbn. rewrite Nat.mul_1_r, Nat.add_0_r, nth_error_map, E. reflexivity.
Qed.
Lemma rest_rows Q Ar P x : length Q = (n - 1)%nat -> Forall modest Q -> in_box Q (remaining n nu x) ->
  (forall i j, (i < m)%nat -> (j < n)%nat -> member (A i j) (P i j)) ->
  returns (rest_fl m n nu A Q) md Ar -> ashape (adat Ar) = [m] /\ forall i, (i < m)%nat -> exists W, nth_error (adata (adat Ar)) i = Some W /\ cm W (Rsum (n - 1) (fun k => P i (skip nu k) * x (skip nu k))).
Proof.
  intros LQ MQ BQ HP H. unfold rest_fl in H. rewrite keeps_returns in H by apply keeps_matmul. destruct H as (Z & HZ & H). apply returns_ret in H. subst Ar.
  unfold matmul in HZ. cbn [ashape op_arr amap WA vec_itv array_interval adat] in HZ. rewrite LQ, Nat.eqb_refl in HZ.
  rewrite keeps_returns in HZ by (apply keeps_mapM; intro; apply keeps_dot). destruct HZ as (l & Hl & HZ). apply returns_ret in HZ. subst Z.
  apply mapM_returns in Hl; [|intro; apply keeps_dot]. cbn [as_array array_interval amap adat ashape adata]. split; [reflexivity|].
  intros i Hi. destruct (Forall2_nth _ _ _ Hl i i (nth_seq m i Hi)) as (z & Ez & Hz). exists (as_itv z). rewrite nth_error_map, Ez. split; [reflexivity|].
  rewrite <- dotR_Rsum. set (d := mkitv Classical pn0 pn0).
  apply (dot_cm (map (fun k => (A i (skip nu k), nth k Q d)) (seq 0 (n - 1))) (map (fun k => (P i (skip nu k), x (skip nu k))) (seq 0 (n - 1))) md z).
  - assert (Hn : Forall (fun k => (k < n - 1)%nat) (seq 0 (n - 1))) by (apply Forall_forall; intros k Hk; apply in_seq in Hk; lia).
    revert Hn. generalize (seq 0 (n - 1)). intros s Hn. induction Hn as [|k s Hk _ IH]; cbn [map]; constructor; [|exact IH].
    unfold pair_in. cbn [fst snd]. split; [apply (proj1 HS); [exact Hi | now apply skip_lt]|].
    rewrite (remaining_skip n nu x Hnu) in BQ. destruct (nth_error Q k) as [X|] eqn:EX; [|apply nth_error_None in EX; lia].
    assert (EN : nth k Q d = X) by now apply nth_error_nth. rewrite EN. split.
    { rewrite Forall_forall in MQ. destruct (MQ X (nth_error_In _ _ EX)) as (k1 & s1 & p1 & _). split; [exact k1|]. split; assumption. }
    split; [apply HP; [exact Hi | now apply skip_lt]|].
    destruct (Forall2_nth _ _ _ BQ k X EX) as (r & Er & Mr). rewrite nth_error_map, (nth_seq _ _ Hk) in Er. cbn in Er. injection Er as <-. exact Mr.
  - rewrite map_map. erewrite map_ext_in; [exact Hz|]. intros k Hk. apply in_seq in Hk. unfold ops. cbn [fst snd].
    destruct (nth_error Q k) as [X|] eqn:EX; [|apply nth_error_None in EX; lia]. rewrite (WA_get i k Hi) by lia. rewrite (vec_get Q k X EX). now rewrite (nth_error_nth Q k d EX).
Qed.
Definition flags_ok (x T : R) (fs : list bool) : Prop := In false fs -> xround md x = XFin T.
Lemma omega_at_below fs Ar Q x T v : length Q = (n - 1)%nat -> Forall modest Q -> in_box Q (remaining n nu x) -> fl_solution m n A b x -> in_fl_box n V x -> near md (x nu) T -> flags_ok (x nu) T fs ->
  returns (rest_fl m n nu A Q) md Ar -> returns (omega_at m nu A b V fs Ar) md v -> xle_R (xval v) T.
Proof.
  intros LQ MQ BQ (P & y & HP & Hy & HE) IV NT FT HAr H. destruct (rest_rows Q Ar P x LQ MQ BQ HP HAr) as [SA Rows].
  unfold omega_at in H. rewrite keeps_returns in H.
  2:{ unfold arr_op, lift_arr. apply keeps_bind; [|intro; apply keeps_ret]. apply keeps_binop_arr. intros. apply (keeps_py_op OpSub). }
  destruct H as (B & HB & H). unfold arr_op in HB. apply lift_returns in HB; [|apply keeps_binop_arr; intros; apply (keeps_py_op OpSub)]. destruct HB as (D & HD & ->). cbn [adat array_interval] in H.
  apply binop_arr_spec in HD; [|intros; apply (keeps_py_op OpSub)]. destruct HD as (s & Hs & SD & WD & HDi).
  cbn [op_arr amap ashape Wb array_interval adat] in Hs. rewrite SA in Hs. rewrite bcast_same in Hs. injection Hs as <-.
  refine (omega_below _ _ md v (x nu) T NT _ _ H); clear H.
  - apply Forall_forall. intros [f [a d]] I. assert (Ifs := in_combine_l _ _ _ _ I). apply in_combine_r in I. apply In_nth_error in I. destruct I as (i & I).
    assert (LD : length (adata D) = m) by (rewrite WD, SD; cbn; lia). assert (LC : length (column m nu A) = m) by (unfold column; now rewrite map_length, seq_length).
    assert (Hi : (i < m)%nat). { assert (i < length (combine (adata D) (column m nu A)))%nat by (apply nth_error_Some; congruence). rewrite combine_length in H. lia. }
    assert (Ia := in_combine_l). assert (Ea : nth_error (adata D) i = Some a /\ nth_error (column m nu A) i = Some d).
    { revert I. clear. revert i. generalize (column m nu A). induction (adata D) as [|u l IH]; intros [|w k] [|i]; cbn; intro E; try discriminate; [injection E as -> ->; auto | now apply IH]. }
    destruct Ea as [Ea Ed]. unfold column in Ed. rewrite nth_error_map, (nth_seq m i Hi) in Ed. cbn in Ed. injection Ed as <-.
    assert (F : flat [m] [i] = Some i). { cbn [flat]. destruct (Nat.ltb_spec i m); [|lia]. cbn [size]. now rewrite Nat.mul_1_r, Nat.add_0_r. }
    destruct (HDi [i] i F) as (oa & ob & c & G1 & G2 & Hc & Gc). unfold aget in Gc. rewrite SD, F in Gc. assert (c = a) by congruence. subst c.
    assert (S1 : ashape (op_arr (Wb m b)) = [m]) by reflexivity. assert (S2 : ashape (op_arr Ar) = [m]) by exact SA.
    unfold bget, aget in G1, G2. rewrite S1, (bidx_same [m] [i] i F), F in G1. rewrite S2, (bidx_same [m] [i] i F), F in G2.
    cbn [op_arr amap Wb array_interval adat adata] in G1, G2.
    rewrite nth_error_map in G1, G2. rewrite nth_error_map, (nth_seq m i Hi) in G1. cbn [option_map] in G1. injection G1 as <-.
    destruct (Rows i Hi) as (W & EW & CW). rewrite EW in G2. cbn [option_map] in G2. injection G2 as <-.
    assert (Cb : cm (b i) (y i)) by (destruct (proj1 (proj2 HS) i Hi) as (k1 & s1 & _); split; [exact k1|]; split; [exact s1 | now apply Hy]).
    destruct (sub_cm _ _ md a _ _ Cb CW Hc) as (ka & sa & Ma). exists (y i - Rsum (n - 1) (fun k => P i (skip nu k) * x (skip nu k))), (P i nu). cbn [fst snd].
    split; [exact sa|]. split; [exact ka|]. split; [now apply (proj1 HS)|]. split; [exact Ma|]. split; [now apply HP|]. split.
    + rewrite <- (HE i Hi), (Rsum_skip n nu (fun j => P i j * x j) Hnu). lra.
    + intros ->. now apply FT.
  - destruct HV as (MV & D1 & D2). destruct (MV nu Hnu) as (k1 & s1 & _). apply (okm_near (V nu) (x nu) md T NT). split; [exact k1|]. split; [now split | now apply IV].
Qed.
End Rows.
