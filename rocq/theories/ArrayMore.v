(** Proofs of the array properties. *)
From Coq Require Import ZArith Reals List Bool Arith Lia Lra Psatz.
From Flocq Require Import Core IEEE754.BinarySingleNaN.
From Verif Require Import Base PyNum Kernel Spec Expr XReal XArith KernelProofs ExprProofs KernelAlg Witness Arrays SpecArray ArrayProofs.
Import ListNotations.
Open Scope nat_scope.

(** ** The broadcasting specification *)
Lemma bcast_rev_spec : forall s t r, bcast_rev s t = Some r ->
  length r = Nat.max (length s) (length t) /\
  forall i, (i < length r)%nat -> let a := nth i s 1 in let b := nth i t 1 in let c := nth i r 1 in
    (a = c /\ (b = c \/ b = 1)) \/ (b = c /\ a = 1)%nat.
Proof.
  induction s as [|a s IH]; intros t r H.
  - simpl in H. inversion H; subst. split; [reflexivity|]. intros i Hi. simpl. destruct i; right; split; reflexivity.
  - destruct t as [|b t].
    + simpl in H. inversion H; subst. split; [simpl; lia|]. intros i Hi. cbv zeta. left. split; [reflexivity|]. right. destruct i; reflexivity.
    + simpl in H. destruct (bcast_rev s t) as [r0|] eqn:E; [|discriminate]. destruct (IH _ _ E) as [L P].
      assert (exists c, r = c :: r0 /\ ((a = c /\ (b = c \/ b = 1)) \/ (b = c /\ a = 1))%nat) as (c & -> & Hc).
      { destruct (Nat.eqb_spec a b); [inversion H; subst; eauto 8|]. destruct (Nat.eqb_spec a 1); [inversion H; subst; eauto 8|].
        destruct (Nat.eqb_spec b 1); [inversion H; subst; eauto 8|discriminate]. }
      split; [simpl; lia|]. intros [|i] Hi; [exact Hc|]. simpl in Hi. simpl. apply P. lia.
Qed.
Lemma bcast_rev_complete : forall s t r, length r = Nat.max (length s) (length t) ->
  (forall i, (i < length r)%nat -> let a := nth i s 1 in let b := nth i t 1 in let c := nth i r 1 in
    (a = c /\ (b = c \/ b = 1)) \/ (b = c /\ a = 1)%nat) -> bcast_rev s t = Some r.
Proof.
  induction s as [|a s IH]; intros t r L P.
  - simpl. f_equal. apply (nth_ext _ _ 1%nat 1%nat); [simpl in L; lia|]. intros i Hi.
    specialize (P i). simpl in L. assert (Hr : (i < length r)%nat) by lia. specialize (P Hr). cbv zeta in P.
    assert (E : nth i (@nil nat) 1 = 1%nat) by (destruct i; reflexivity). rewrite E in P. lia.
  - destruct t as [|b t].
    + simpl. f_equal. apply (nth_ext _ _ 1%nat 1%nat); [simpl in L; simpl; lia|]. intros i Hi.
      assert (Hr : (i < length r)%nat) by (simpl in *; lia). specialize (P i Hr). cbv zeta in P.
      assert (E : nth i (@nil nat) 1 = 1%nat) by (destruct i; reflexivity). rewrite E in P. lia.
    + destruct r as [|c r]; [simpl in L; lia|]. simpl.
      rewrite (IH t r).
      * specialize (P O). simpl in P. assert (Hc : ((a = c /\ (b = c \/ b = 1)) \/ (b = c /\ a = 1))%nat) by (apply P; lia).
        destruct (Nat.eqb_spec a b); [f_equal; f_equal; lia|]. destruct (Nat.eqb_spec a 1); [f_equal; f_equal; lia|].
        destruct (Nat.eqb_spec b 1); [f_equal; f_equal; lia|lia].
      * simpl in L. lia.
      * intros i Hi. specialize (P (S i)). apply P. simpl. lia.
Qed.
Lemma pad_nth s k i : (length s <= k)%nat -> (i < k)%nat -> nth i (pad k s) 1%nat = nth (k - 1 - i) (rev s) 1%nat.
Proof.
  intros L Hi. unfold pad. destruct (Nat.lt_ge_cases i (k - length s)) as [H|H].
  - rewrite app_nth1 by (rewrite repeat_length; lia). rewrite (nth_overflow (rev s)) by (rewrite rev_length; lia).
    apply nth_repeat.
  - rewrite app_nth2 by (rewrite repeat_length; lia). rewrite repeat_length.
    rewrite rev_nth by lia. f_equal. lia.
Qed.
Lemma bcast_iff s t r : bcast s t = Some r <-> broadcast_shape s t r.
Proof.
  unfold bcast, broadcast_shape. set (k := Nat.max (length s) (length t)).
  assert (Ls : (length s <= k)%nat) by (unfold k; lia). assert (Lt : (length t <= k)%nat) by (unfold k; lia).
  split.
  - destruct (bcast_rev (rev s) (rev t)) as [r0|] eqn:E; [|discriminate]. intro H; inversion H; subst r.
    apply bcast_rev_spec in E. rewrite !rev_length in E. fold k in E. destruct E as [L P]. rewrite rev_length.
    split; [assumption|]. intros i Hi. rewrite (pad_nth s k i), (pad_nth t k i) by assumption. rewrite (rev_nth r0) by lia.
    replace (length r0 - S i)%nat with (k - 1 - i)%nat by lia. apply P. lia.
  - intros [L P].
    assert (E : bcast_rev (rev s) (rev t) = Some (rev r)).
    { apply bcast_rev_complete; rewrite !rev_length; [exact L|]. intros i Hi. rewrite (rev_nth r) by lia.
      specialize (P (k - 1 - i)%nat). cbv zeta in P. rewrite pad_nth in P by lia. rewrite pad_nth in P by lia.
      replace (k - 1 - (k - 1 - i))%nat with i in P by lia. replace (length r - S i)%nat with (k - 1 - i)%nat by lia.
      apply P. lia. }
    rewrite E. now rewrite rev_involutive.
Qed.
Lemma bidx_rev_nth : forall s idx i, (i < length s)%nat -> (length s <= length idx)%nat ->
  nth i (bidx_rev s idx) 0 = (if nth i s 0 =? 1 then 0 else nth i idx 0)%nat.
Proof.
  induction s as [|n s IH]; intros [|j idx] i Hi L; simpl in *; try lia.
  destruct i as [|i]; [reflexivity|]. apply IH; lia.
Qed.
Lemma bidx_source s idx : (length s <= length idx)%nat -> source_index s idx (bidx s idx).
Proof.
  intro L. unfold bidx, source_index. assert (LL : length (bidx_rev (rev s) (rev idx)) = length s) by (rewrite bidx_rev_len; rewrite !rev_length; lia).
  rewrite rev_length. split; [assumption|]. intros i Hi. rewrite rev_nth by lia. rewrite LL.
  rewrite bidx_rev_nth by (rewrite !rev_length; lia).
  rewrite (rev_nth s) by lia. rewrite (rev_nth idx) by lia.
  replace (length s - S (length s - S i))%nat with i by lia.
  replace (length idx - S (length s - S i))%nat with (length idx - length s + i)%nat by lia. reflexivity.
Qed.
Lemma source_unique s idx i1 i2 : source_index s idx i1 -> source_index s idx i2 -> i1 = i2.
Proof.
  intros [L1 H1] [L2 H2]. apply (nth_ext _ _ 0%nat 0%nat); [lia|]. intros i Hi. rewrite H1, H2 by lia. reflexivity.
Qed.
Lemma bget_reads {A} (a : arr A) idx v : (length (ashape a) <= length idx)%nat -> (bget a idx = Some v <-> reads a idx v).
Proof.
  intro L. unfold bget, reads. split.
  - intro H. exists (bidx (ashape a) idx). split; [now apply bidx_source | assumption].
  - intros (idx' & S' & G). rewrite (source_unique _ _ _ _ (bidx_source _ _ L) S'). exact G.
Qed.
Lemma bcast_len s t r : bcast s t = Some r -> length r = Nat.max (length s) (length t).
Proof. intro H. apply bcast_iff in H. exact (proj1 H). Qed.
Lemma reads_det {A} (a : arr A) idx u v : reads a idx u -> reads a idx v -> u = v.
Proof. intros (i1 & S1 & G1) (i2 & S2 & G2). rewrite (source_unique _ _ _ _ S1 S2) in G1. congruence. Qed.
Lemma reads_in {A} (a : arr A) idx u : reads a idx u -> In u (adata a).
Proof. intros (i & _ & G). eapply aget_in; eauto. Qed.
Lemma in_bounds_flat s idx : in_bounds s idx <-> exists k, flat s idx = Some k.
Proof. symmetry. apply flat_Forall2. Qed.

(** ** Elementwise operators *)
Lemma op_arr_wf x : awf (adat x) -> awf (op_arr x).
Proof. apply amap_wf. Qed.
Lemma op_arr_reads x idx v : reads (op_arr x) idx v <-> exists e, v = OItv e /\ reads (adat x) idx e.
Proof.
  unfold reads, op_arr. cbn [ashape amap]. split.
  - intros (i & S' & G). rewrite aget_map in G. destruct (aget (adat x) i) as [e|] eqn:E; [|discriminate]. inversion G; subst. eauto.
  - intros (e & -> & i & S' & G). exists i. split; [assumption|]. now rewrite aget_map, G.
Qed.
Lemma binop_reads {A B C} (f : A -> B -> M C) x y m Z : (forall a b, keeps_mode (f a b)) -> returns (binop_arr f x y) m Z ->
  exists s, broadcast_shape (ashape x) (ashape y) s /\ ashape Z = s /\ awf Z /\
    forall idx, in_bounds s idx -> exists a b c, reads x idx a /\ reads y idx b /\ returns (f a b) m c /\ aget Z idx = Some c.
Proof.
  intros K H. destruct (binop_arr_spec f K x y m Z H) as (s & Hs & SZ & WZ & P). exists s.
  split; [now apply bcast_iff|]. split; [assumption|]. split; [assumption|]. intros idx Hi.
  apply in_bounds_flat in Hi. destruct Hi as [k F]. destruct (P idx k F) as (a & b & c & Ha & Hb & Hc & G).
  assert (L := bcast_len _ _ _ Hs). assert (Li := flat_len _ _ _ F).
  exists a, b, c. split; [apply bget_reads; [lia|assumption]|]. split; [apply bget_reads; [lia|assumption]|]. auto.
Qed.
Lemma binop_no_shape {A B C} (f : A -> B -> M C) x y m : (~ exists s, broadcast_shape (ashape x) (ashape y) s) ->
  raises (binop_arr f x y) m ValueError.
Proof.
  intro H. unfold binop_arr. destruct (bcast (ashape x) (ashape y)) as [s|] eqn:E; [|reflexivity].
  exfalso. apply H. exists s. now apply bcast_iff.
Qed.
Lemma lift_raises c m e : raises c m e -> raises (lift_arr c) m e.
Proof. unfold raises, outcome, lift_arr, mbind. destruct (c m) as [[a|e'] m1]; simpl; [discriminate|]. congruence. Qed.
Lemma arr_op_elementwise o x y m :
  (forall Z, returns (arr_op o x y) m Z -> exists s, broadcast_shape (ashape (adat x)) (ashape y) s /\ ashape (adat Z) = s /\
     consistent Z /\
     forall idx, in_bounds s idx -> exists e b c, reads (adat x) idx e /\ reads y idx b /\
       returns (py_op o (OItv e) b) m c /\ aget (adat Z) idx = Some c) /\
  ((~ exists s, broadcast_shape (ashape (adat x)) (ashape y) s) -> raises (arr_op o x y) m ValueError).
Proof.
  split.
  - intros Z H. unfold arr_op in H. apply lift_returns in H; [|apply keeps_binop_arr; apply keeps_py_op].
    destruct H as (d & Hd & ->). destruct (binop_reads (py_op o) _ _ m d (keeps_py_op o) Hd) as (s & Hs & Sd & Wd & P).
    exists s. split; [exact Hs|]. split; [exact Sd|]. split; [split; [reflexivity|exact Wd]|].
    intros idx Hi. destruct (P idx Hi) as (a & b & c & Ha & Hb & Hc & G). apply op_arr_reads in Ha. destruct Ha as (e & -> & Ha).
    exists e, b, c. auto.
  - intro H. apply lift_raises. now apply binop_no_shape.
Qed.

Open Scope R_scope.
Lemma real_op_some o x y r : real_op o x y = Some r -> r = opR o x y /\ (o = OpDiv -> y <> 0).
Proof.
  destruct o; simpl; intro H; try (inversion H; split; [reflexivity | discriminate]).
  destruct (Req_EM_T y 0); [discriminate|]. inversion H. split; [reflexivity | auto].
Qed.
Lemma wsound1_inhab f X Z : good X -> kd Z = Classical -> small_itv Z -> wsound1 f X Z -> good Z.
Proof. intros. now apply good_of_wsound1 with f X. Qed.
Lemma py_op_operand o X b m Z : good X -> good_operand b -> (o = OpDiv -> safe_divisor b) ->
  returns (py_op o (OItv X) b) m Z ->
  good Z /\ (nan_itv X -> nan_itv Z) /\ forall x y, member X x -> in_operand b y -> member_or_nan Z (opR o x y) /\ (o = OpDiv -> y <> 0).
Proof.
  intros GX Gb Hd HZ. destruct b as [c|Y]; cbn [good_operand in_operand safe_divisor] in *.
  - destruct Gb as [Sc Fc]. destruct (py_op_num_r o X c m Z Hd GX Sc Fc HZ) as (kZ & sZ & W).
    split; [now apply good_of_wsound1 with (fun x => real_op o x (num_val c)) X|]. destruct W as [W1 W2]. split; [exact W1|].
    intros x y Hx ->. destruct (W2 x Hx) as (r & Er & Hr). apply real_op_some in Er. destruct Er as [-> Er]. auto.
  - destruct (py_op_itv o X Y m Z GX Gb HZ) as (kZ & sZ & W). split; [now apply good_of_wsound2 with (real_op o) X Y|].
    destruct W as [W1 W2]. split; [tauto|]. intros x y Hx Hy. destruct (W2 x y Hx Hy) as (r & Er & Hr).
    apply real_op_some in Er. destruct Er as [-> Er]. auto.
Qed.
Lemma arr_op_encl o x y m Z : Forall good (adata (adat x)) -> Forall good_operand (adata y) ->
  (o = OpDiv -> Forall safe_divisor (adata y)) ->
  returns (arr_op o x y) m Z ->
  Forall good (adata (adat Z)) /\
  forall idx e b c, in_bounds (shp Z) idx -> reads (adat x) idx e -> reads y idx b -> aget (adat Z) idx = Some c ->
    forall u v, member e u -> in_operand b v -> member_or_nan c (opR o u v) /\ (o = OpDiv -> v <> 0).
Proof.
  intros Gx Gy Hd H. destruct (proj1 (arr_op_elementwise o x y m) Z H) as (s & Hs & SZ & [CZ WZ] & P).
  rewrite Forall_forall in Gx, Gy.
  assert (Q : forall idx e b c, in_bounds (shp Z) idx -> reads (adat x) idx e -> reads y idx b -> aget (adat Z) idx = Some c ->
     good c /\ forall u v, member e u -> in_operand b v -> member_or_nan c (opR o u v) /\ (o = OpDiv -> v <> 0)).
  { intros idx e b c Hi He Hb Hc. rewrite CZ, SZ in Hi. destruct (P idx Hi) as (e' & b' & c' & He' & Hb' & R & Hc').
    rewrite (reads_det _ _ _ _ He' He) in *. rewrite (reads_det _ _ _ _ Hb' Hb) in *. assert (c' = c) by congruence. subst c'.
    destruct (py_op_operand o e b m c) as (G & _ & W); auto.
    - apply Gx. eapply reads_in; eauto.
    - apply Gy. eapply reads_in; eauto.
    - intro Ho. specialize (Hd Ho). rewrite Forall_forall in Hd. apply Hd. eapply reads_in; eauto. }
  split.
  - rewrite Forall_forall. intros c Hc. apply In_nth_error in Hc. destruct Hc as [k Hk].
    assert (kl : (k < size s)%nat) by (rewrite <- SZ, <- WZ; apply nth_error_Some; congruence).
    destruct (nth_flat s k kl) as (idx & _ & F).
    assert (Hi : in_bounds s idx) by (apply in_bounds_flat; eauto).
    destruct (P idx Hi) as (e & b & c' & He & Hb & _ & Hc').
    assert (c' = c). { unfold aget in Hc'. rewrite SZ, F, Hk in Hc'. congruence. } subst c'.
    rewrite <- SZ, <- CZ in Hi. exact (proj1 (Q idx e b c Hi He Hb Hc')).
  - intros idx e b c Hi He Hb Hc. exact (proj2 (Q idx e b c Hi He Hb Hc)).
Qed.

(** Reflected operators with an array of numbers on the left. *)
Lemma py_op_num_left o c X m Z : good X -> small_num c -> finite_num c -> returns (py_op o (ONum c) (OItv X)) m Z ->
  good Z /\ forall x, member X x -> member_or_nan Z (opR o (num_val c) x) /\ (o = OpDiv -> x <> 0).
Proof.
  intros GX Sc Fc HZ. destruct (py_op_num_l o X c m Z GX Sc Fc HZ) as (kZ & sZ & W).
  split; [now apply good_of_wsound1 with (fun x => real_op o (num_val c) x) X|]. destruct W as [W1 W2].
  intros x Hx. destruct (W2 x Hx) as (r & Er & Hr). apply real_op_some in Er. destruct Er as [-> Er]. auto.
Qed.
Lemma broadcast_sym s t r : broadcast_shape s t r -> broadcast_shape t s r.
Proof.
  unfold broadcast_shape. rewrite (Nat.max_comm (length t)). intros [L P]. split; [assumption|]. intros i Hi. specialize (P i Hi).
  cbv zeta in *. lia.
Qed.
Lemma scalar_broadcast {A} (v : A) s r : broadcast_shape (ashape (scalar v)) s r -> r = s.
Proof. intro H. apply bcast_iff in H. simpl in H. rewrite bcast_nil_l in H. congruence. Qed.
Lemma scalar_reads {A} (v : A) idx : reads (scalar v) idx v.
Proof. exists []. split; [|reflexivity]. split; [reflexivity|]. simpl. intros i Hi. lia. Qed.
Lemma left_binop_encl o (y : arr operand) x m d : Forall good (adata (adat x)) -> Forall num_operand (adata y) ->
  returns (binop_arr (py_op o) y (op_arr x)) m d ->
  exists s, broadcast_shape (ashape y) (ashape (adat x)) s /\ ashape d = s /\ awf d /\
  forall idx, in_bounds s idx -> exists b e c, reads y idx b /\ reads (adat x) idx e /\ aget d idx = Some c /\ good c /\
    forall v u, in_operand b v -> member e u -> member_or_nan c (opR o v u) /\ (o = OpDiv -> u <> 0).
Proof.
  intros Gx Gy H. rewrite Forall_forall in Gx, Gy.
  destruct (binop_reads (py_op o) _ _ m d (keeps_py_op o) H) as (s & Hs & Sd & Wd & P). exists s.
  split; [exact Hs|]. split; [exact Sd|]. split; [exact Wd|]. intros idx Hi.
  destruct (P idx Hi) as (b & e' & c & Hb & He & Hc & G). apply op_arr_reads in He. destruct He as (e & -> & He).
  exists b, e, c. split; [assumption|]. split; [assumption|]. split; [assumption|].
  assert (Gb := Gy _ (reads_in _ _ _ Hb)). destruct b as [n|]; [|contradiction]. destruct Gb as [Sn Fn].
  destruct (py_op_num_left o n e m c (Gx _ (reads_in _ _ _ He)) Sn Fn Hc) as [Gc W]. split; [assumption|].
  intros v u -> Hu. now apply W.
Qed.
Lemma num_good l : Forall num_operand l -> Forall good_operand l.
Proof. apply Forall_impl. intros [c|X]; simpl; tauto. Qed.
Lemma all_of_indices {A} (P : A -> Prop) (d : arr A) : awf d ->
  (forall idx, in_bounds (ashape d) idx -> exists c, aget d idx = Some c /\ P c) -> Forall P (adata d).
Proof.
  intros W H. rewrite Forall_forall. intros c Hc. apply In_nth_error in Hc. destruct Hc as [k Hk].
  assert (kl : (k < size (ashape d))%nat) by (rewrite <- W; apply nth_error_Some; congruence).
  destruct (nth_flat (ashape d) k kl) as (idx & _ & F).
  assert (Hi : in_bounds (ashape d) idx) by (apply in_bounds_flat; eauto).
  destruct (H idx Hi) as (c' & Hc' & Pc). unfold aget in Hc'. rewrite F, Hk in Hc'. congruence.
Qed.
Lemma one_num : num_operand (ONum (PInt 1)). Proof. split; [simpl; lia | exact I]. Qed.
Lemma arr_rop_encl o y x m Z : Forall good (adata (adat x)) -> Forall num_operand (adata y) ->
  returns (arr_rop o y x) m Z ->
  consistent Z /\ broadcast_shape (ashape y) (ashape (adat x)) (shp Z) /\
  forall idx e b c, in_bounds (shp Z) idx -> reads (adat x) idx e -> reads y idx b -> aget (adat Z) idx = Some c ->
    forall v u, in_operand b v -> member e u -> member_or_nan c (opR o v u) /\ (o = OpDiv -> u <> 0).
Proof.
  intros Gx Gy H. assert (Gy' := num_good _ Gy).
  assert (AM : forall o', o' = OpAdd \/ o' = OpMul -> returns (arr_op o' x y) m Z ->
    consistent Z /\ broadcast_shape (ashape y) (ashape (adat x)) (shp Z) /\
    forall idx e b c, in_bounds (shp Z) idx -> reads (adat x) idx e -> reads y idx b -> aget (adat Z) idx = Some c ->
    forall v u, in_operand b v -> member e u -> member_or_nan c (opR o' v u) /\ (o' = OpDiv -> u <> 0)).
  { intros o' Ho' H'. destruct (proj1 (arr_op_elementwise o' x y m) Z H') as (s & Hs & SZ & CZ & _).
    split; [exact CZ|]. split; [rewrite (proj1 CZ), SZ; now apply broadcast_sym|].
    assert (Hd : o' = OpDiv -> Forall safe_divisor (adata y)) by (destruct Ho'; subst; discriminate).
    destruct (arr_op_encl o' x y m Z Gx Gy' Hd H') as [_ E]. intros idx e b c Hi He Hb Hc v u Hv Hu.
    destruct (E idx e b c Hi He Hb Hc u v Hu Hv) as [E1 E2]. split; [|destruct Ho'; subst; discriminate].
    destruct Ho'; subst; simpl in *; [now rewrite Rplus_comm | now rewrite Rmult_comm]. }
  destruct o; cbn [arr_rop] in H.
  - apply (AM OpAdd); auto.
  - apply lift_returns in H; [|apply keeps_binop_arr; apply keeps_py_op]. destruct H as (d & Hd & ->).
    destruct (left_binop_encl OpSub y x m d Gx Gy Hd) as (s & Hs & Sd & Wd & P).
    split; [split; [reflexivity | exact Wd]|]. cbn [shp array_interval adat]. rewrite Sd. split; [exact Hs|].
    intros idx e b c Hi He Hb Hc. destruct (P idx Hi) as (b' & e' & c' & Hb' & He' & Hc' & _ & W).
    rewrite (reads_det _ _ _ _ He' He) in *. rewrite (reads_det _ _ _ _ Hb' Hb) in *. assert (c' = c) by congruence. subst c'. exact W.
  - apply (AM OpMul); auto.
  - rewrite keeps_returns in H by (apply keeps_lift_arr, keeps_binop_arr, keeps_py_op). destruct H as (r & Hr & H).
    apply lift_returns in Hr; [|apply keeps_binop_arr; apply keeps_py_op]. destruct Hr as (d & Hd & ->).
    assert (Gone : Forall num_operand (adata (scalar (ONum (PInt 1))))) by (constructor; [exact one_num|constructor]).
    destruct (left_binop_encl OpDiv _ x m d Gx Gone Hd) as (s & Hs & Sd & Wd & P).
    apply scalar_broadcast in Hs. subst s.
    assert (Gd : Forall good (adata (adat (array_interval d)))).
    { apply all_of_indices; [exact Wd|]. cbn [adat array_interval]. rewrite <- Sd in P. intros idx Hi.
      destruct (P idx Hi) as (_ & _ & c & _ & _ & Hc & Gc & _). eauto. }
    destruct (proj1 (arr_op_elementwise OpMul (array_interval d) y m) Z H) as (s & Hs & SZ & CZ & PZ).
    cbn [adat array_interval] in *. rewrite Sd in Hs.
    split; [exact CZ|]. split; [rewrite (proj1 CZ), SZ; now apply broadcast_sym|].
    destruct (arr_op_encl OpMul (array_interval d) y m Z Gd Gy' ltac:(discriminate) H) as [_ E].
    intros idx e b c Hi He Hb Hc v u Hv Hu.
    assert (Hi' := Hi). rewrite (proj1 CZ), SZ in Hi'. destruct (PZ idx Hi') as (q & b' & c' & Hq & _ & _ & _).
    assert (Q : member_or_nan q (1 / u) /\ u <> 0 /\ good q).
    { destruct Hq as (i1 & S1 & G1). destruct He as (i2 & S2 & G2). cbn [adat array_interval] in S1. rewrite Sd in S1.
      rewrite (source_unique _ _ _ _ S1 S2) in *.
      assert (Hi2 : in_bounds (ashape (adat x)) i2) by (apply in_bounds_flat; unfold aget in G2; destruct flat; [eauto|discriminate]).
      destruct (P i2 Hi2) as (b1 & e1 & c1 & Hb1 & He1 & Hc1 & Gc1 & W1).
      assert (b1 = ONum (PInt 1)) by (eapply reads_det; [exact Hb1 | apply scalar_reads]). subst b1.
      cbn [adat array_interval] in G1. assert (c1 = q) by congruence. subst c1.
      destruct He1 as (i3 & S3 & G3).
      assert (i3 = i2). { apply (source_unique _ _ _ _ S3). split; [apply Forall2_len in Hi2; exact Hi2|]. intros j Hj.
        assert (Lj : length i2 = length (ashape (adat x))) by (apply Forall2_len in Hi2; exact Hi2).
        rewrite Lj, Nat.sub_diag. simpl. destruct (Nat.eqb_spec (nth j (ashape (adat x)) 0%nat) 1) as [E1|]; [|reflexivity].
        assert (B : (nth j i2 0 < nth j (ashape (adat x)) 0)%nat).
        { clear -Hi2 Hj. revert j Hj. induction Hi2; intros [|j] Hj; simpl in *; try lia. apply IHHi2. lia. }
        lia. }
      subst i3. assert (e1 = e) by congruence. subst e1.
      destruct (W1 1 u eq_refl Hu) as [W2 W3]. split; [exact W2|]. split; [now apply W3|exact Gc1]. }
    destruct Q as ([NQ|Q] & Nu & Gq).
    + split; [|intros _; exact Nu]. left.
      (* NaN propagates through the product *)
      destruct (PZ idx Hi') as (q2 & b2 & c2 & Hq2 & Hb2 & R2 & Hc2).
      rewrite (reads_det _ _ _ _ Hq2 Hq) in R2. rewrite (reads_det _ _ _ _ Hb2 Hb) in R2. assert (c2 = c) by congruence. subst c2.
      destruct (py_op_operand OpMul q b m c) as (_ & NN & _); auto.
      * rewrite Forall_forall in Gy'. apply Gy'. eapply reads_in; eauto.
      * discriminate.
    + destruct (E idx q b c Hi Hq Hb Hc (1 / u) v Q Hv) as [E1 _]. split; [|intros _; exact Nu].
      simpl in *. replace (v / u) with (1 / u * v) by (field; exact Nu). exact E1.
Qed.

(** numpy ufuncs *)
Lemma np_right_encl o y x m Z : Forall good (adata (adat x)) -> Forall num_operand (adata y) ->
  returns (np_arr_right o y x) m Z ->
  consistent Z /\ broadcast_shape (ashape y) (ashape (adat x)) (shp Z) /\
  forall idx e b c, in_bounds (shp Z) idx -> reads (adat x) idx e -> reads y idx b -> aget (adat Z) idx = Some c ->
    forall v u, in_operand b v -> member e u -> member_or_nan c (opR o v u) /\ (o = OpDiv -> u <> 0).
Proof.
  intros Gx Gy H. destruct o; try (apply (arr_rop_encl OpAdd y x m Z Gx Gy H)).
  all: unfold np_arr_right, arr_ufunc in H; apply lift_returns in H; [|apply keeps_binop_arr; apply keeps_py_op];
    destruct H as (d & Hd & ->);
    match type of Hd with returns (binop_arr (py_op ?oo) _ _) _ _ => destruct (left_binop_encl oo y x m d Gx Gy Hd) as (s & Hs & Sd & Wd & P) end;
    (split; [split; [reflexivity | exact Wd]|]); cbn [shp array_interval adat]; rewrite Sd; (split; [exact Hs|]);
    intros idx e b c Hi He Hb Hc; destruct (P idx Hi) as (b' & e' & c' & Hb' & He' & Hc' & _ & W);
    rewrite (reads_det _ _ _ _ He' He) in *; rewrite (reads_det _ _ _ _ Hb' Hb) in *; assert (c' = c) by congruence; subst c'; exact W.
Qed.

(** ** Endpoint arrays *)
Lemma cast_uniform x l : uniform (x :: l) -> forall v, In v (x :: l) -> cast (dtype_of x) v = Ok v.
Proof.
  intros [H|H] v Hv; rewrite Forall_forall in H.
  - destruct (H x (or_introl eq_refl)) as [f ->]. destruct (H v Hv) as [g ->]. reflexivity.
  - assert (I : forall z, (- 2 ^ 63 <= z < 2 ^ 63)%Z -> int64_ok z = true).
    { intros z Hz. unfold int64_ok. apply andb_true_intro. split; [apply Z.leb_le | apply Z.ltb_lt]; lia. }
    destruct (H x (or_introl eq_refl)) as (z & -> & Hz). destruct (H v Hv) as (z' & -> & Hz'). cbn [dtype_of].
    rewrite (I z Hz). cbn [cast rbind]. now rewrite (I z' Hz').
Qed.
Lemma cast_double_all x l : Forall is_double (x :: l) -> forall v, In v (x :: l) -> cast (dtype_of x) v = Ok v.
Proof. intro H. apply cast_uniform. now left. Qed.
Lemma mapM_ret {A} (f : A -> M A) l m : (forall v, In v l -> f v m = (Ok v, m)) -> mapM f l m = (Ok l, m).
Proof.
  induction l as [|x l IH]; intro H; [reflexivity|]. simpl. unfold mbind. rewrite H by (now left). rewrite IH by (intros; apply H; now right).
  reflexivity.
Qed.
Lemma keeps_vectorize_num {A} (f : A -> M pynum) a : (forall x, keeps_mode (f x)) -> keeps_mode (vectorize_num f a).
Proof.
  intro K. unfold vectorize_num. apply keeps_bind; [now apply keeps_vectorize|]. intro r. destruct (adata r); [apply keeps_ret|].
  apply keeps_bind; [apply keeps_mapM; intro; apply keeps_lift|]. intro. apply keeps_ret.
Qed.
Lemma vectorize_num_exact {A} (f : A -> M pynum) a m vs : (forall x, keeps_mode (f x)) ->
  Forall2 (fun x y => returns (f x) m y) (adata a) vs -> uniform vs -> vs <> [] ->
  returns (vectorize_num f a) m (mkarr (ashape a) vs).
Proof.
  intros K F U N. unfold vectorize_num, vectorize. destruct (adata a) as [|x l] eqn:E; [inversion F; subst; congruence|].
  rewrite keeps_returns by (unfold amapM; apply keeps_bind; [now apply keeps_mapM | intro; apply keeps_ret]).
  exists (mkarr (ashape a) vs). split.
  - unfold amapM. rewrite keeps_returns by now apply keeps_mapM. exists vs. rewrite E. split; [now apply mapM_returns|]. now apply returns_ret.
  - cbn [adata]. destruct vs as [|v vs]; [congruence|]. unfold returns, outcome, amapM, mbind. cbn [ashape adata].
    rewrite mapM_ret; [reflexivity|]. intros w Hw. unfold mlift. now rewrite (cast_uniform v vs U w Hw).
Qed.
Lemma endpoints_exact (f : itv -> pynum) x m : adata (adat x) <> [] -> uniform (map f (adata (adat x))) ->
  returns (vectorize_num (fun e => mret (f e)) (adat x)) m (amap f (adat x)).
Proof.
  intros N U. apply (vectorize_num_exact (fun e => mret (f e)) (adat x) m (map f (adata (adat x)))).
  - intro. apply keeps_ret.
  - clear. induction (adata (adat x)); simpl; constructor; auto. reflexivity.
  - exact U.
  - destruct (adata (adat x)); [congruence | discriminate].
Qed.
Lemma arr_ends_exact x m : adata (adat x) <> [] ->
  (uniform (map lo (adata (adat x))) -> returns (arr_a x) m (amap lo (adat x))) /\
  (uniform (map hi (adata (adat x))) -> returns (arr_b x) m (amap hi (adat x))).
Proof. intro N. split; intro U; now apply endpoints_exact. Qed.
Lemma double_fun_exact (f : itv -> M pynum) x m : (forall e, keeps_mode (f e)) ->
  (forall e v, returns (f e) m v -> is_double v) -> adata (adat x) <> [] ->
  (forall e, In e (adata (adat x)) -> exists v, returns (f e) m v) ->
  exists Z, returns (vectorize_num f (adat x)) m Z /\ ashape Z = ashape (adat x) /\
    Forall2 (fun e v => returns (f e) m v) (adata (adat x)) (adata Z).
Proof.
  intros K D N T. destruct (mapM_total f (adata (adat x)) m K T) as [vs Hvs]. apply mapM_returns in Hvs; [|exact K].
  exists (mkarr (ashape (adat x)) vs). split; [|split; [reflexivity|exact Hvs]].
  apply vectorize_num_exact; auto.
  - left. clear -Hvs D. induction Hvs; constructor; eauto.
  - intros ->. inversion Hvs. congruence.
Qed.
