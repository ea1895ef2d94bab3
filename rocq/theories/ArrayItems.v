(** Proofs about item access, deletion, transposition, reshaping, membership
    and the shape metadata. *)
From Coq Require Import ZArith Reals List Bool Arith Lia Lra Psatz.
From Flocq Require Import Core IEEE754.BinarySingleNaN.
From Verif Require Import Base PyNum Kernel Spec Expr XReal XArith KernelProofs ExprProofs KernelAlg KernelMore Witness Arrays SpecArray ArrayProofs ArrayMore ArrayMat.
Import ListNotations.
Open Scope nat_scope.

(** ** Indexing *)
Lemma norm_index_spec n z i : norm_index n z = Ok i <-> py_index n z i.
Proof.
  unfold norm_index, py_index.
  destruct (Z.leb_spec 0 z); destruct (Z.ltb_spec z (Z.of_nat n)); simpl;
  try (destruct (Z.leb_spec (- Z.of_nat n) z)); try (destruct (Z.ltb_spec z 0)); simpl; split; intro HH;
  try discriminate; try (apply (f_equal (fun r => match r with Ok v => v | Err _ => 0 end)) in HH; simpl in HH; subst);
  try (f_equal; lia); try lia.
Qed.
Lemma norm_index_err n z : (forall i, ~ py_index n z i) -> norm_index n z = Err IndexError.
Proof.
  intro H. destruct (norm_index n z) as [i|e] eqn:E; [exfalso; apply (H i); now apply norm_index_spec|].
  unfold norm_index in E. destruct ((0 <=? z)%Z && (z <? Z.of_nat n)%Z); [discriminate|].
  destruct ((- Z.of_nat n <=? z)%Z && (z <? 0)%Z); [discriminate|]. congruence.
Qed.
Lemma norm_key_spec s : forall key idx, norm_key s key = Ok idx <-> py_key s key idx.
Proof.
  induction s as [|n s IH]; intros [|z key] idx; simpl.
  - split; [intro H; inversion H; constructor | intro H; now inversion H].
  - split; [discriminate | intro H; inversion H].
  - split; [discriminate | intro H; inversion H].
  - destruct (norm_index n z) as [i|e] eqn:E; simpl.
    + destruct (norm_key s key) as [r|e] eqn:F; simpl.
      * split; intro H.
        -- inversion H; subst. constructor; [now apply norm_index_spec | now apply IH].
        -- inversion H as [|? ? ? ? ? ? HA HB]; subst. apply norm_index_spec in HA. apply IH in HB. congruence.
      * split; [discriminate|]. intro H. inversion H as [|? ? ? ? ? ? HA HB]; subst. apply IH in HB. congruence.
    + split; [discriminate|]. intro H. inversion H as [|? ? ? ? ? ? HA HB]; subst. apply norm_index_spec in HA. congruence.
Qed.
Lemma norm_key_err s : forall key, (forall idx, ~ py_key s key idx) -> norm_key s key = Err IndexError.
Proof.
  induction s as [|n s IH]; intros [|z key] H; simpl; try reflexivity.
  - exfalso. apply (H []). constructor.
  - destruct (norm_index n z) as [i|e] eqn:E; simpl.
    + rewrite IH; [reflexivity|]. intros idx Hk. apply (H (i :: idx)). constructor; [now apply norm_index_spec | assumption].
    + unfold norm_index in E. destruct ((0 <=? z)%Z && (z <? Z.of_nat n)%Z); [discriminate|].
      destruct ((- Z.of_nat n <=? z)%Z && (z <? 0)%Z); [discriminate|]. congruence.
Qed.
Lemma py_key_bounds s key idx : py_key s key idx -> in_bounds s idx.
Proof. induction 1; constructor; auto. destruct H. assumption. Qed.
Lemma getitem_spec x key : awf (adat x) ->
  (forall idx, py_key (ashape (adat x)) key idx -> exists e, getitem x key = Ok e /\ aget (adat x) idx = Some e) /\
  ((forall idx, ~ py_key (ashape (adat x)) key idx) -> getitem x key = Err IndexError).
Proof.
  intro W. unfold getitem. split.
  - intros idx Hk. assert (Hb := py_key_bounds _ _ _ Hk). apply norm_key_spec in Hk. rewrite Hk. simpl.
    apply in_bounds_flat in Hb. destruct Hb as [k F]. destruct (aget_some _ _ _ W F) as (e & G & _). rewrite G. eauto.
  - intro H. rewrite (norm_key_err _ _ H). reflexivity.
Qed.
Lemma set_nth_length {A} (v : A) : forall l k, length (set_nth k v l) = length l.
Proof. induction l as [|y l IH]; intros [|k]; simpl; auto. Qed.
Lemma set_nth_same {A} (v : A) : forall l k, k < length l -> nth_error (set_nth k v l) k = Some v.
Proof. induction l as [|y l IH]; intros [|k] H; simpl in *; try lia; [reflexivity|]. apply IH. lia. Qed.
Lemma set_nth_other {A} (v : A) : forall l k j, j <> k -> nth_error (set_nth k v l) j = nth_error l j.
Proof. induction l as [|y l IH]; intros [|k] [|j] H; simpl; auto; try congruence. Qed.
Lemma flat_inj s : forall i j k, flat s i = Some k -> flat s j = Some k -> i = j.
Proof. intros i j k Hi Hj. apply flat_nth in Hi. apply flat_nth in Hj. congruence. Qed.
(** What assignment stores. *)
Lemma setitem_spec x key v : consistent x ->
  (forall idx, py_key (ashape (adat x)) key idx -> exists y, setitem x key v = Ok y /\ consistent y /\ shp y = shp x /\
     aget (adat y) idx = Some (as_item v) /\ forall idx', idx' <> idx -> aget (adat y) idx' = aget (adat x) idx') /\
  ((forall idx, ~ py_key (ashape (adat x)) key idx) -> setitem x key v = Err IndexError).
Proof.
  intros [Cs W]. unfold setitem. split.
  - intros idx Hk. assert (Hb := py_key_bounds _ _ _ Hk). apply norm_key_spec in Hk. rewrite Hk. cbn [rbind].
    apply in_bounds_flat in Hb. destruct Hb as [k F]. rewrite F. eexists. split; [reflexivity|].
    assert (Hl := flat_lt _ _ _ F). unfold awf in W. split; [|split; [reflexivity|split]].
    + split; [exact Cs|]. unfold awf. cbn [adat ashape adata]. now rewrite set_nth_length.
    + unfold aget. cbn [adat ashape adata]. rewrite F, set_nth_same by lia. destruct v; reflexivity.
    + intros idx' N. unfold aget. cbn [adat ashape adata]. destruct (flat (ashape (adat x)) idx') as [k'|] eqn:F'; [|reflexivity].
      apply set_nth_other. intros ->. apply N. eapply flat_inj; eauto.
  - intro H. rewrite (norm_key_err _ _ H). reflexivity.
Qed.

(** ** Deletion along an axis *)
Lemma set_dim_length : forall s ax n, length (set_dim s ax n) = length s.
Proof. induction s as [|d s IH]; intros [|ax] n; simpl; auto. Qed.
Lemma set_dim_bounds : forall s ax n k idx, nth_error s ax = Some n -> k < n -> in_bounds (set_dim s ax (n - 1)) idx -> in_bounds s (skip_index ax k idx).
Proof.
  unfold skip_index. induction s as [|d s IH]; intros [|ax] n k idx Hn Hk Hb; simpl in *; try discriminate.
  - inversion Hn; subst d. inversion Hb as [|i ? idx' ? Hi Hb']; subst. simpl. constructor; [|assumption]. destruct (i <? k) eqn:E; [apply Nat.ltb_lt in E|]; lia.
  - inversion Hb as [|i ? idx' ? Hi Hb']; subst. simpl. constructor; [assumption|]. eapply IH; eauto.
Qed.
Lemma np_delete_spec a z ax n k : awf a -> nth_error (ashape a) ax = Some n -> py_index n z k ->
  exists d, np_delete a z ax = Ok d /\ ashape d = set_dim (ashape a) ax (n - 1) /\ awf d /\
    forall idx, in_bounds (ashape d) idx -> exists e, aget d idx = Some e /\ aget a (skip_index ax k idx) = Some e.
Proof.
  intros W Hn Hk. unfold np_delete. rewrite Hn. assert (kn : k < n) by apply Hk. apply norm_index_spec in Hk. rewrite Hk. cbn [rbind].
  eexists. split; [reflexivity|]. split; [reflexivity|]. split; [apply of_fun_wf|]. cbn [ashape]. intros idx Hi.
  assert (Hs := set_dim_bounds _ _ _ _ _ Hn kn Hi). apply in_bounds_flat in Hs. destruct Hs as [q Fq].
  destruct (aget_some _ _ _ W Fq) as (e & Ge & _). exists e. split; [|assumption].
  apply in_bounds_flat in Hi. destruct Hi as [p F].
  change (aget (of_fun (set_dim (ashape a) ax (n - 1)) (fun idx => match aget a (skip_index ax k idx) with Some e => e | None => mkitv Classical pn0 pn0 end)) idx = Some e).
  rewrite (of_fun_get _ _ _ _ F). now rewrite Ge.
Qed.
Lemma delitem_first x n s z k : consistent x -> shp x = n :: s -> py_index n z k ->
  exists y, delitem x (KInt z) = Ok y /\ consistent y /\ shp y = (n - 1) :: s /\
    forall i idx, in_bounds (shp y) (i :: idx) -> exists e, aget (adat y) (i :: idx) = Some e /\
      aget (adat x) ((if i <? k then i else S i) :: idx) = Some e.
Proof.
  intros [Cs W] Es Hk. rewrite Cs in Es.
  assert (Hn : nth_error (ashape (adat x)) 0 = Some n) by now rewrite Es.
  destruct (np_delete_spec (adat x) z 0 n k W Hn Hk) as (d & Hd & Sd & Wd & P). exists (array_interval d).
  unfold delitem. rewrite Hd. cbn [rbind]. split; [reflexivity|]. split; [split; [reflexivity|exact Wd]|].
  split; [cbn [shp array_interval]; rewrite Sd, Es; reflexivity|]. intros i idx Hi. cbn [shp array_interval adat] in *. exact (P _ Hi).
Qed.
Lemma delitem_tuple x zs n k : consistent x -> zs <> [] -> nth_error (shp x) (length zs - 1) = Some n -> py_index n (last zs 0%Z) k ->
  exists y, delitem x (KTuple zs) = Ok y /\ consistent y /\ shp y = set_dim (shp x) (length zs - 1) (n - 1) /\
    forall idx, in_bounds (shp y) idx -> exists e, aget (adat y) idx = Some e /\
      aget (adat x) (skip_index (length zs - 1) k idx) = Some e.
Proof.
  intros [Cs W] Nz Hn Hk. rewrite Cs in Hn. destruct (np_delete_spec (adat x) _ _ n k W Hn Hk) as (d & Hd & Sd & Wd & P).
  exists (array_interval d). split; [destruct zs; [congruence|]; unfold delitem; rewrite Hd; reflexivity|].
  split; [split; [reflexivity|exact Wd]|]. split; [cbn [shp array_interval]; now rewrite Sd, Cs|]. exact P.
Qed.

(** ** Transpose, reshape *)
Lemma nth_error_ext' {A} : forall l l' : list A, (forall k, nth_error l k = nth_error l' k) -> l = l'.
Proof.
  induction l as [|x l IH]; intros [|y l'] H; try reflexivity; try (specialize (H 0); discriminate).
  f_equal; [specialize (H 0); simpl in H; congruence|]. apply IH. intro k. exact (H (S k)).
Qed.
Lemma in_bounds_rev s idx : in_bounds s idx -> in_bounds (rev s) (rev idx).
Proof. intro H. now apply Forall2_rev'. Qed.
Lemma arr_T_spec x : consistent x -> consistent (arr_T x) /\ shp (arr_T x) = rev (shp x) /\
  forall idx, in_bounds (shp x) idx -> aget (adat (arr_T x)) (rev idx) = aget (adat x) idx.
Proof.
  intros [Cs W]. split; [split; [reflexivity | apply of_fun_wf]|]. split; [simpl; now rewrite Cs|].
  intros idx Hi. rewrite Cs in Hi. assert (Hr := in_bounds_rev _ _ Hi). apply in_bounds_flat in Hr. destruct Hr as [k F].
  unfold arr_T. cbn [adat array_interval]. rewrite (of_fun_get _ _ _ _ F), rev_involutive.
  apply in_bounds_flat in Hi. destruct Hi as [q Fq]. destruct (aget_some _ _ _ W Fq) as (e & G & _). now rewrite G.
Qed.
Lemma size_app s t : size (s ++ t) = size s * size t.
Proof. induction s as [|n s IH]; simpl; [lia|]. rewrite IH. lia. Qed.
Lemma size_rev s : size (rev s) = size s.
Proof. induction s as [|n s IH]; [reflexivity|]. simpl. rewrite size_app, IH. simpl. lia. Qed.
Lemma arr_ext {A} (a b : arr A) : awf a -> awf b -> ashape a = ashape b -> (forall idx, in_bounds (ashape a) idx -> aget a idx = aget b idx) -> a = b.
Proof.
  destruct a as [s d], b as [s' d']. unfold awf. cbn [ashape adata]. intros W W' <- H. f_equal.
  apply nth_error_ext'. intro k. destruct (Nat.lt_ge_cases k (size s)) as [L|L].
  - destruct (nth_flat s k L) as (idx & _ & F). specialize (H idx). unfold aget in H. cbn [ashape adata] in H. rewrite F in H.
    apply H. apply in_bounds_flat. eauto.
  - rewrite !(proj2 (nth_error_None _ _)) by lia. reflexivity.
Qed.
Lemma arr_T_T x : consistent x -> arr_T (arr_T x) = x.
Proof.
  intro C. destruct (arr_T_spec x C) as (C1 & S1 & E1). destruct (arr_T_spec _ C1) as (C2 & S2 & E2).
  assert (Sh : shp (arr_T (arr_T x)) = shp x) by (now rewrite S2, S1, rev_involutive).
  assert (D : adat (arr_T (arr_T x)) = adat x).
  { apply arr_ext; [apply C2 | apply C | rewrite <- (proj1 C2), <- (proj1 C); exact Sh|].
    intros idx Hi. rewrite <- (proj1 C2), Sh in Hi. rewrite <- E1 by assumption.
    assert (Hr : in_bounds (shp (arr_T x)) (rev idx)) by (rewrite S1; now apply in_bounds_rev).
    specialize (E2 (rev idx) Hr). rewrite rev_involutive in E2. exact E2. }
  destruct x as [d s], (arr_T (arr_T (mkaitv d s))) as [d' s']. cbn [shp adat] in *. congruence.
Qed.
Lemma reshape_spec x s : consistent x ->
  (size s = size (shp x) -> exists y, arr_reshape x s = Ok y /\ consistent y /\ shp y = s /\ adata (adat y) = adata (adat x)) /\
  (size s <> size (shp x) -> arr_reshape x s = Err ValueError).
Proof.
  intros [Cs W]. unfold arr_reshape. rewrite <- Cs. split; intro H.
  - apply Nat.eqb_eq in H. rewrite H. eexists. split; [reflexivity|]. split; [|split; reflexivity].
    split; [reflexivity|]. unfold awf. cbn [adat array_interval ashape adata]. unfold awf in W. rewrite <- Cs in W. rewrite W. symmetry. now apply Nat.eqb_eq.
  - apply Nat.eqb_neq in H. now rewrite H.
Qed.

(** ** Membership in an array *)
Lemma any_contains_spec l : forall last, l <> [] \/ last <> None ->
  exists b, any_contains l last = Ok b /\ (b = true <-> (exists p, In p l /\ py_contains (fst p) (snd p) = true) \/ (l = [] /\ last = Some true)).
Proof.
  induction l as [|[e o] l IH]; intros last H.
  - destruct last as [b|]; [|destruct H; congruence]. exists b. split; [reflexivity|]. split.
    + intros ->. right. auto.
    + intros [(p & [] & _)|[_ E]]. congruence.
  - simpl. destruct (py_contains e o) eqn:E.
    + exists true. split; [reflexivity|]. split; [|reflexivity]. intros _. left. exists (e, o). split; [now left | exact E].
    + assert (HS : l <> [] \/ Some false <> None) by (right; discriminate). destruct (IH (Some false) HS) as (b & Hb & P). exists b. split; [assumption|]. rewrite P. split.
      * intros [(p & Hp & Ep)|[_ X]]; [|discriminate]. left. exists p. split; [now right | exact Ep].
      * intros [(p & [Hp|Hp] & Ep)|[X _]]; [subst p; simpl in Ep; congruence | left; eauto | discriminate].
Qed.
Lemma arr_contains_scalar_spec x o : 
  (adata (adat x) = [] -> arr_contains_scalar x o = Err UnboundLocalError) /\
  (adata (adat x) <> [] -> exists b, arr_contains_scalar x o = Ok b /\ (b = true <-> exists e, In e (adata (adat x)) /\ py_contains e o = true)).
Proof.
  unfold arr_contains_scalar. split; intro H.
  - now rewrite H.
  - destruct (any_contains_spec (map (fun e => (e, o)) (adata (adat x))) None) as (b & Hb & P).
    + left. destruct (adata (adat x)); [congruence|discriminate].
    + exists b. split; [assumption|]. rewrite P. split.
      * intros [(p & Hp & Ep)|[_ X]]; [|discriminate]. apply in_map_iff in Hp. destruct Hp as (e & <- & He). eauto.
      * intros (e & He & Ee). left. exists (e, o). split; [|exact Ee]. apply in_map_iff. eauto.
Qed.

(** ** Consistency of the metadata *)
Lemma iop_consistent o x y m Z : returns (arr_iop o x y) m Z ->
  shp Z = shp x /\ awf (adat Z) /\ (consistent Z <-> broadcast_shape (ashape (adat x)) (ashape y) (shp x)).
Proof.
  unfold arr_iop. rewrite keeps_returns by (apply keeps_binop_arr, keeps_py_op). intros (d & Hd & H). apply returns_ret in H. subst Z.
  destruct (binop_reads (py_op o) _ _ m d (keeps_py_op o) Hd) as (s & Hs & Sd & Wd & _). cbn [shp adat].
  split; [reflexivity|]. split; [assumption|]. unfold consistent. cbn [shp adat]. change (ashape (op_arr x)) with (ashape (adat x)) in Hs. split.
  - intros [E _]. rewrite E, Sd. exact Hs.
  - intro B. split; [|assumption]. apply bcast_iff in B. apply bcast_iff in Hs. congruence.
Qed.
Lemma arr_map_spec f x m Z : (forall e, keeps_mode (f e)) -> returns (arr_map f x) m Z -> awf (adat x) ->
  consistent Z /\ shp Z = ashape (adat x) /\ forall idx e, aget (adat x) idx = Some e -> exists c, aget (adat Z) idx = Some c /\ returns (f e) m c.
Proof.
  intros K H W. unfold arr_map in H. apply lift_returns in H; [|now apply keeps_vectorize]. destruct H as (d & Hd & ->).
  destruct (vectorize_spec f (adat x) m d K Hd) as (Sd & F & _). split; [split; [reflexivity|]|split].
  - unfold awf in *. cbn [adat array_interval]. rewrite <- (Forall2_len _ _ _ F), W. now rewrite Sd.
  - exact Sd.
  - intros idx e G. unfold aget in *. cbn [adat array_interval]. rewrite Sd. destruct flat; [|discriminate].
    destruct (Forall2_nth _ _ _ F _ _ G) as (c & Hc & R). eauto.
Qed.
