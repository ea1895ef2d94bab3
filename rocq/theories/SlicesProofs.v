(** Proofs about keys with slices, lists and masks. *)
From Coq Require Import ZArith List Bool Arith Lia.
From Verif Require Import Base PyNum Kernel Expr Arrays Construct SpecArray ArrayProofs ArrayMore ArrayItems Slices SpecSlices.
Import ListNotations.
Open Scope nat_scope.

(** * Slices *)
Lemma clamp_up n z : (0 <= n)%Z -> clamp false n z = Z.max 0 (Z.min n (from_end n z)).
Proof.
  intro H. unfold clamp, from_end. destruct (Z.ltb_spec z 0) as [L|L]; cbv zeta iota.
  - destruct (Z.ltb_spec (z + n) 0); [lia|]. destruct (Z.leb_spec n (z + n)); lia.
  - destruct (Z.ltb_spec z 0); [lia|]. destruct (Z.leb_spec n z); lia.
Qed.
Lemma clamp_down n z : (0 <= n)%Z -> clamp true n z = Z.max (-1) (Z.min (n - 1) (from_end n z)).
Proof.
  intro H. unfold clamp, from_end. destruct (Z.ltb_spec z 0) as [L|L]; cbv zeta iota.
  - destruct (Z.ltb_spec (z + n) 0); [lia|]. destruct (Z.leb_spec n (z + n)); lia.
  - destruct (Z.ltb_spec z 0); [lia|]. destruct (Z.leb_spec n z); lia.
Qed.
Lemma count_up a b s k : (0 < s)%Z -> (0 <= k)%Z ->
  ((k < if (a <? b)%Z then (b - a - 1) / s + 1 else 0)%Z <-> (a + k * s < b)%Z).
Proof.
  intros Hs Hk. destruct (Z.ltb_spec a b) as [L|L]; [|nia]. split; intro H.
  - assert (k <= (b - a - 1) / s)%Z by lia. assert (s * ((b - a - 1) / s) <= b - a - 1)%Z by (apply Z.mul_div_le; lia). nia.
  - assert (k <= (b - a - 1) / s)%Z by (apply Z.div_le_lower_bound; lia). lia.
Qed.
Lemma nth_error_seq : forall n a k, nth_error (seq a n) k = if k <? n then Some (a + k) else None.
Proof.
  induction n as [|n IH]; intros a [|k]; simpl; try reflexivity; [now rewrite Nat.add_0_r|].
  rewrite IH. change (S k <? S n) with (k <? n). destruct (k <? n); [f_equal; lia | reflexivity].
Qed.
Lemma nth_error_progression {A} n (f : nat -> A) k i : nth_error (map f (seq 0 n)) k = Some i <-> k < n /\ i = f k.
Proof.
  rewrite nth_error_map, nth_error_seq. destruct (Nat.ltb_spec k n); simpl; split; intro H0; try discriminate; try (destruct H0; lia).
  - inversion H0. auto.
  - destruct H0 as [_ ->]. reflexivity.
Qed.
Lemma first_range n s : step_of s <> 0%Z -> (0 <= n)%Z ->
  if (0 <? step_of s)%Z then (0 <= first_of n s <= n)%Z else (-1 <= first_of n s <= n - 1)%Z.
Proof.
  intros Hs Hn. unfold first_of. destruct (Z.ltb_spec 0 (step_of s)); destruct (s_start s); lia.
Qed.
Lemma last_range n s : step_of s <> 0%Z -> (0 <= n)%Z ->
  if (0 <? step_of s)%Z then (0 <= last_of n s <= n)%Z else (-1 <= last_of n s <= n - 1)%Z.
Proof.
  intros Hs Hn. unfold last_of. destruct (Z.ltb_spec 0 (step_of s)); destruct (s_stop s); lia.
Qed.
Lemma slice_pos_lt n s k i : step_of s <> 0%Z -> slice_pos n s k i -> i < n.
Proof.
  intros Hs [E B]. assert (F := first_range (Z.of_nat n) s Hs ltac:(lia)). assert (L := last_range (Z.of_nat n) s Hs ltac:(lia)).
  destruct (Z.ltb_spec 0 (step_of s)); nia.
Qed.
Lemma slice_indices_spec n s : step_of s <> 0%Z ->
  exists l, slice_indices n s = Ok l /\ forall k i, nth_error l k = Some i <-> slice_pos n s k i.
Proof.
  intro Hs. unfold slice_indices. fold (step_of s). cbv zeta.
  destruct (Z.eqb_spec (step_of s) 0) as [E0|_]; [contradiction|].
  set (st := match s_start s with Some z => _ | None => _ end). set (sp := match s_stop s with Some z => _ | None => _ end).
  assert (Est : st = first_of (Z.of_nat n) s).
  { unfold st, first_of. destruct (Z.ltb_spec (step_of s) 0); destruct (Z.ltb_spec 0 (step_of s)); try lia; destruct (s_start s); try reflexivity;
    [apply clamp_down | apply clamp_up]; lia. }
  assert (Esp : sp = last_of (Z.of_nat n) s).
  { unfold sp, last_of. destruct (Z.ltb_spec (step_of s) 0); destruct (Z.ltb_spec 0 (step_of s)); try lia; destruct (s_stop s); try reflexivity;
    [apply clamp_down | apply clamp_up]; lia. }
  rewrite Est, Esp. clear st sp Est Esp. eexists. split; [reflexivity|]. intros k i. rewrite nth_error_progression.
  assert (F := first_range (Z.of_nat n) s Hs ltac:(lia)). assert (L := last_range (Z.of_nat n) s Hs ltac:(lia)).
  unfold slice_pos. set (a := first_of _ _) in *. set (b := last_of _ _) in *. set (d := step_of s) in *.
  destruct (Z.ltb_spec 0 d) as [P|P].
  - destruct (Z.ltb_spec d 0) as [Q|Q]; [lia|].
    assert (C := count_up a b d (Z.of_nat k) P ltac:(lia)).
    split.
    + intros [Hk ->]. assert (Hl : (a + Z.of_nat k * d < b)%Z) by (apply C; lia). split; [rewrite Z2Nat.id; nia | rewrite Z2Nat.id; nia].
    + intros [E B]. rewrite E in B. apply C in B. split; [lia|]. rewrite <- E. lia.
  - destruct (Z.ltb_spec d 0) as [Q|Q]; [|lia].
    assert (C := count_up (- a) (- b) (- d) (Z.of_nat k) ltac:(lia) ltac:(lia)).
    replace (- b - - a - 1)%Z with (a - b - 1)%Z in C by lia.
    replace (- a <? - b)%Z with (b <? a)%Z in C by (destruct (Z.ltb_spec b a); destruct (Z.ltb_spec (- a) (- b)); lia).
    split.
    + intros [Hk ->]. assert (Hl : (- a + Z.of_nat k * - d < - b)%Z) by (apply C; lia). split; [rewrite Z2Nat.id; nia | rewrite Z2Nat.id; nia].
    + intros [E B]. assert (Hl : (- a + Z.of_nat k * - d < - b)%Z) by nia. apply C in Hl. split; [lia|]. rewrite <- E. lia.
Qed.
Lemma slice_indices_zero n s : step_of s = 0%Z -> slice_indices n s = Err ValueError.
Proof. intro E. unfold slice_indices. fold (step_of s). rewrite E. reflexivity. Qed.

(** * Masks *)
Lemma nth_error_filter {A} (P : A -> bool) : forall L k x,
  nth_error (filter P L) k = Some x <-> exists q, nth_error L q = Some x /\ P x = true /\ k = length (filter P (firstn q L)).
Proof.
  induction L as [|y L IH]; intros k x; simpl.
  - split; [destruct k; discriminate|]. intros ([|q] & E & _); discriminate.
  - destruct (P y) eqn:Ey.
    + destruct k as [|k]; simpl.
      * split.
        -- intro E. inversion E; subst. exists 0. simpl. auto.
        -- intros ([|q] & E & Px & K); simpl in *; [assumption|]. rewrite Ey in K. discriminate.
      * rewrite IH. split.
        -- intros (q & E & Px & K). exists (S q). simpl. rewrite Ey. simpl. auto.
        -- intros ([|q] & E & Px & K); simpl in *; [discriminate|]. rewrite Ey in K. simpl in K. exists q. auto.
    + rewrite IH. split.
      * intros (q & E & Px & K). exists (S q). simpl. rewrite Ey. auto.
      * intros ([|q] & E & Px & K); simpl in *; [congruence|]. rewrite Ey in K. exists q. auto.
Qed.
Lemma trues_filter {A} (P : A -> bool) L : trues (map P L) = length (filter P L).
Proof.
  unfold trues. induction L as [|x L IH]; [reflexivity|]. simpl. destruct (P x); simpl; [|exact IH].
  f_equal. exact IH.
Qed.
Lemma mask_positions_spec : forall bs a k j,
  nth_error (mask_positions a bs) k = Some j <-> exists i, j = a + i /\ nth_error bs i = Some true /\ k = trues (firstn i bs).
Proof.
  unfold trues. induction bs as [|b bs IH]; intros a k j; simpl.
  - split; [destruct k; discriminate|]. intros ([|i] & _ & E & _); discriminate.
  - destruct b; simpl.
    + destruct k as [|k]; simpl.
      * split.
        -- intro E. inversion E; subst. exists 0. simpl. split; [lia|auto].
        -- intros ([|i] & -> & E & K); simpl in *; [f_equal; lia|]. destruct (bool_dec true true); [discriminate|congruence].
      * rewrite IH. split.
        -- intros (i & -> & E & K). exists (S i). simpl. split; [lia|]. split; [assumption|]. destruct (bool_dec true true); [lia|congruence].
        -- intros ([|i] & -> & E & K); simpl in *; [discriminate|]. destruct (bool_dec true true); [|congruence]. exists i. split; [lia|]. split; [assumption|lia].
    + rewrite IH. split.
      * intros (i & -> & E & K). exists (S i). simpl. split; [lia|]. split; [assumption|]. destruct (bool_dec false true); [discriminate|assumption].
      * intros ([|i] & -> & E & K); simpl in *; [discriminate|]. exists i. split; [lia|]. split; [assumption|].
        destruct (bool_dec false true); [discriminate|assumption].
Qed.

(** * One component *)
Lemma rmapl_index n : forall zs, Forall (fun z => exists i, py_index n z i) zs ->
  exists l, rmapl (norm_index n) zs = Ok l /\ Forall2 (py_index n) zs l.
Proof.
  induction zs as [|z zs IH]; intro F; [exists []; split; [reflexivity|constructor]|].
  inversion F as [|z' zs' [i Hi] F']; subst. destruct (IH F') as (l & E & Fl).
  exists (i :: l). simpl. apply norm_index_spec in Hi as Hi'. rewrite Hi'. cbn [rbind]. rewrite E. cbn [rbind]. split; [reflexivity|]. constructor; assumption.
Qed.
Lemma py_index_unique n z i j : py_index n z i -> py_index n z j -> i = j.
Proof. unfold py_index. lia. Qed.
Lemma Forall2_nth {A B} (P : A -> B -> Prop) : forall l l', Forall2 P l l' -> forall k y,
  nth_error l' k = Some y -> exists x, nth_error l k = Some x /\ P x y.
Proof. intros l l' F. induction F; intros [|k] y0 E; simpl in *; try discriminate; [inversion E; subst; eauto | eauto]. Qed.
Lemma Forall2_nth_l {A B} (P : A -> B -> Prop) : forall l l', Forall2 P l l' -> forall k x,
  nth_error l k = Some x -> exists y, nth_error l' k = Some y /\ P x y.
Proof. intros l l' F. induction F; intros [|k] y0 E; simpl in *; try discriminate; [inversion E; subst; eauto | eauto]. Qed.
(** A component that keeps the dimension. *)
Lemma axis_many n it : (forall z, it <> KI z) -> valid_item n it ->
  exists l, axis n it = Ok (Many l) /\ (forall k i, nth_error l k = Some i <-> item_pos n it k i) /\ Forall (fun i => i < n) l.
Proof.
  intros NI V. destruct it as [z|s|zs|bs]; simpl in V |- *.
  - now destruct (NI z).
  - destruct (slice_indices_spec n s V) as (l & E & P). rewrite E. exists l. split; [reflexivity|]. split; [assumption|].
    apply Forall_forall. intros i Hi. apply In_nth_error in Hi. destruct Hi as [k Hk]. apply P in Hk. exact (slice_pos_lt _ _ _ _ V Hk).
  - destruct (rmapl_index n zs V) as (l & E & F). rewrite E. exists l. split; [reflexivity|]. split.
    + intros k i. split; intro H0.
      * exact (Forall2_nth _ _ _ F _ _ H0).
      * destruct H0 as (z & Hz & Hi). destruct (Forall2_nth_l _ _ _ F _ _ Hz) as (j & Hj & Pj). now rewrite (py_index_unique _ _ _ _ Hi Pj).
    + clear -F. induction F as [|z i zs l P F IH]; constructor; [exact (proj1 P) | assumption].
  - subst n. rewrite Nat.eqb_refl. exists (mask_positions 0 bs). split; [reflexivity|]. split.
    + intros k i. rewrite mask_positions_spec. simpl. split; [intros (i' & -> & H1 & H2); auto | intros [H1 H2]; exists i; auto].
    + apply Forall_forall. intros i Hi. apply In_nth_error in Hi. destruct Hi as [k Hk]. apply mask_positions_spec in Hk.
      destruct Hk as (i' & -> & Hk & _). simpl. apply nth_error_Some. congruence.
Qed.
Lemma axis_valid n it a : axis n it = Ok a -> valid_item n it.
Proof.
  destruct it as [z|s|zs|bs]; simpl.
  - destruct (norm_index n z) as [i|] eqn:E; [|discriminate]. intros _. exists i. now apply norm_index_spec.
  - intros H0 E. rewrite (slice_indices_zero n s E) in H0. discriminate.
  - intro H0. assert (exists l, rmapl (norm_index n) zs = Ok l) as [l E] by (destruct (rmapl (norm_index n) zs); [eauto|discriminate]).
    clear H0. revert l E. induction zs as [|z zs IH]; intros l E; [constructor|]. simpl in E.
    destruct (norm_index n z) as [i|] eqn:Ei; [|discriminate]. cbn [rbind] in E.
    destruct (rmapl (norm_index n) zs) as [l'|] eqn:El; [|discriminate]. constructor; [exists i; now apply norm_index_spec | eauto].
  - destruct (Nat.eqb_spec (length bs) n); [auto|discriminate].
Qed.
Lemma axis_error n it : ~ valid_item n it -> axis n it = Err IndexError \/ axis n it = Err ValueError.
Proof.
  intro NV. destruct it as [z|s|zs|bs]; simpl in *.
  - left. rewrite norm_index_err; [reflexivity|]. intros i Hi. apply NV. eauto.
  - right. destruct (Z.eq_dec (step_of s) 0) as [E|E]; [|contradiction]. now rewrite (slice_indices_zero n s E).
  - left. assert (rmapl (norm_index n) zs = Err IndexError) as ->; [|reflexivity].
    induction zs as [|z zs IH]; [destruct NV; constructor|]. simpl.
    destruct (norm_index n z) as [i|e] eqn:Ei.
    + cbn [rbind]. rewrite IH; [reflexivity|]. intro F. apply NV. constructor; [exists i; now apply norm_index_spec | assumption].
    + rewrite norm_index_err in Ei; [inversion Ei; subst; reflexivity|]. intros i Hi. apply norm_index_spec in Hi. congruence.
  - left. destruct (Nat.eqb_spec (length bs) n); [contradiction|reflexivity].
Qed.

(** * Whole keys *)
(** A computed selection stands for a relation between indices. *)
Definition adequate (s : list nat) (c : selection) (sel : list nat -> list nat -> Prop) : Prop :=
  (forall idx p, sel idx p <-> in_bounds (sshape c) idx /\ p = ssrc c idx) /\
  (forall idx, in_bounds (sshape c) idx -> in_bounds s (ssrc c idx)) /\
  (sone c = true -> sshape c = []).
Lemma in_bounds_cons n s i idx : in_bounds (n :: s) (i :: idx) <-> i < n /\ in_bounds s idx.
Proof. unfold in_bounds. split; [intro H0; inversion H0; auto | intros [? ?]; constructor; auto]. Qed.
Lemma axes_rest : forall s, exists l, axes s [] = Ok l /\ sel_shape l = s /\ (all_one l = true <-> s = []) /\
  (forall idx p, reaches s [] idx p <-> in_bounds s idx /\ p = sel_source l idx) /\
  (forall idx, in_bounds s idx -> in_bounds s (sel_source l idx)).
Proof.
  induction s as [|n s (l & E & Sh & On & Re & Bd)].
  - exists []. simpl. split; [reflexivity|]. split; [reflexivity|]. split; [tauto|]. split.
    + intros idx p. split; [intro H0; inversion H0; split; constructor | intros [H0 ->]; inversion H0; constructor].
    + intros idx H0. inversion H0. constructor.
  - exists (Many (seq 0 n) :: l). simpl. rewrite E. split; [reflexivity|]. split; [now rewrite seq_length, Sh|].
    split; [split; discriminate|]. split.
    + intros idx p. split.
      * intro H0. inversion H0; clear H0; subst. match goal with H1 : reaches _ _ _ _ |- _ => apply Re in H1; destruct H1 as [B1 ->] end.
        split; [apply in_bounds_cons; auto|]. rewrite seq_nth by assumption. reflexivity.
      * intros [B ->]. destruct idx as [|i idx]; [inversion B|]. apply in_bounds_cons in B. destruct B as [Hi B].
        rewrite seq_nth by assumption. simpl. constructor; [assumption|]. apply Re. auto.
    + intros idx B. destruct idx as [|i idx]; [inversion B|]. apply in_bounds_cons in B. destruct B as [Hi B].
      rewrite seq_nth by assumption. apply in_bounds_cons. auto.
Qed.
Lemma axes_spec : forall s key, valid_key s key -> exists l, axes s key = Ok l /\ result_shape s key (sel_shape l) /\
  (all_one l = true <-> full_int_key s key) /\
  (forall idx p, reaches s key idx p <-> in_bounds (sel_shape l) idx /\ p = sel_source l idx) /\
  (forall idx, in_bounds (sel_shape l) idx -> in_bounds s (sel_source l idx)).
Proof.
  intros s key V. induction V as [s|n s it key Vi V (l & E & Sh & On & Re & Bd)].
  - destruct (axes_rest s) as (l & E & Sh & On & Re & Bd). exists l. rewrite Sh. split; [assumption|]. split; [constructor|]. split; [|auto].
    rewrite On. unfold full_int_key. simpl. split; [intros ->; split; [reflexivity|constructor] | intros [H0 _]; destruct s; [reflexivity|discriminate]].
  - destruct (match it with KI z => true | _ => false end) eqn:Ki.
    + destruct it as [z|?|?|?]; try discriminate. clear Ki. destruct Vi as [i Hi]. apply norm_index_spec in Hi as Ei.
      exists (One i :: l). simpl. rewrite Ei. cbn [rbind]. rewrite E. cbn [rbind]. split; [reflexivity|]. split; [constructor; assumption|]. split.
      * rewrite On. unfold full_int_key. simpl. split.
        -- intros [L F]. split; [lia|]. constructor; [eauto|assumption].
        -- intros [L F]. inversion F; subst. split; [lia|assumption].
      * split.
        -- intros idx p. split.
           ++ intro H0. inversion H0; clear H0; subst.
              ** match goal with H1 : reaches _ _ _ _ |- _ => apply Re in H1; destruct H1 as [B1 ->] end.
                 split; [assumption|]. f_equal. eapply py_index_unique; eassumption.
              ** match goal with H1 : item_pos _ _ _ _ |- _ => destruct H1 end.
           ++ intros [B ->]. constructor; [assumption|]. apply Re. auto.
        -- intros idx B. apply in_bounds_cons. split; [exact (proj1 Hi) | auto].
    + assert (NI : forall z, it <> KI z) by (intros z ->; discriminate).
      destruct (axis_many n it NI Vi) as (ps & Ea & P & F).
      exists (Many ps :: l). simpl. rewrite Ea. cbn [rbind]. rewrite E. cbn [rbind]. split; [reflexivity|].
      assert (Lt : forall k, k < length ps <-> exists i, item_pos n it k i).
      { intro k. rewrite <- nth_error_Some. split; [intro H0; destruct (nth_error ps k) as [i|] eqn:Ek; [exists i; now apply P | congruence]
        | intros [i Hi]; apply P in Hi; congruence]. }
      split; [constructor; assumption|]. split.
      * split; [discriminate|]. unfold full_int_key. intros [_ F0]. inversion F0 as [|? ? [z Ez] _]; subst. now destruct (NI z).
      * split.
        -- intros idx p. split.
           ++ intro H0. inversion H0; clear H0; subst; [now destruct (NI z)|].
              match goal with H1 : reaches _ _ _ _ |- _ => apply Re in H1; destruct H1 as [B1 ->] end.
              match goal with H1 : item_pos _ _ _ _ |- _ => assert (Hp := H1); apply P in Hp end.
              split; [apply in_bounds_cons; split; [apply Lt; eauto | assumption]|]. f_equal. symmetry. now apply nth_error_nth.
           ++ intros [B ->]. destruct idx as [|k idx]; [inversion B|]. apply in_bounds_cons in B. destruct B as [Hk B].
              apply re_many; [|apply Re; auto]. apply P. apply nth_error_nth'. assumption.
        -- intros idx B. destruct idx as [|k idx]; [inversion B|]. apply in_bounds_cons in B. destruct B as [Hk B].
           apply in_bounds_cons. split; [|auto]. rewrite Forall_forall in F. apply F. now apply nth_In.
Qed.
Lemma axes_valid : forall s key l, axes s key = Ok l -> valid_key s key.
Proof.
  induction s as [|n s IH]; intros [|it key] l; simpl; intro E; try constructor; try discriminate.
  - destruct (axis n it) as [a|] eqn:Ea; [|discriminate]. eapply axis_valid; eauto.
  - destruct (axis n it) as [a|]; [|discriminate]. cbn [rbind] in E. destruct (axes s key) as [l'|] eqn:El; [|discriminate]. eapply IH; eauto.
Qed.
Lemma simple_separate key : simple_key key -> separate key = true.
Proof.
  intros [F|(pre & it & post & -> & F1 & F2)].
  - unfold separate. assert (filter is_adv key = []) as ->; [|reflexivity].
    induction F as [|it key [[s ->]|[z ->]] F IH]; [reflexivity| |]; simpl; assumption.
  - assert (N : forall l, Forall is_slice l -> filter is_adv l = [] /\ existsb is_int l = false).
    { intros l F. induction F as [|k l [s ->] F [A B]]; [auto|]. simpl. auto. }
    destruct (N _ F1) as [A1 B1]. destruct (N _ F2) as [A2 B2]. unfold separate.
    rewrite filter_app, A1. simpl. rewrite A2. rewrite existsb_app, B1. simpl. rewrite B2.
    destruct it; simpl; reflexivity.
Qed.
Lemma valid_length s key : valid_key s key -> length key <= length s.
Proof. intro V. induction V; simpl; lia. Qed.
Lemma select_key_spec s key : valid_key s key -> simple_key key ->
  exists c, select_key s key = Ok c /\ adequate s c (reaches s key) /\ result_shape s key (sshape c) /\ (sone c = true <-> full_int_key s key).
Proof.
  intros V Sk. destruct (axes_spec s key V) as (l & E & Sh & On & Re & Bd). assert (Ln := valid_length _ _ V).
  unfold select_key, read_key. rewrite (simple_separate _ Sk). destruct (Nat.ltb_spec (length s) (length key)); [lia|]. rewrite E. cbn [rbind].
  eexists. split; [reflexivity|]. cbn [sshape ssrc sone]. split; [|auto]. unfold adequate. cbn [sshape ssrc sone]. split; [assumption|]. split; [assumption|].
  clear. induction l as [|[i|ps] l IH]; simpl; [auto|assumption|discriminate].
Qed.
Lemma select_mask_spec s m : awf m -> ashape m = s ->
  exists c, select_mask s m = Ok c /\ adequate s c (mask_reaches m) /\ sshape c = [trues (adata m)] /\ sone c = false.
Proof.
  intros W Es. unfold select_mask. destruct (list_eq_dec Nat.eq_dec (ashape m) s) as [_|]; [|contradiction].
  eexists. split; [reflexivity|]. unfold adequate. cbn [sshape ssrc sone].
  set (P := fun p => match aget m p with Some b => b | None => false end).
  assert (Em : map P (indices (ashape m)) = adata m).
  { apply nth_error_ext'. intro k. rewrite nth_error_map. destruct (Nat.lt_ge_cases k (size (ashape m))) as [L|L].
    - destruct (nth_flat _ _ L) as (idx & N & F). rewrite N. simpl. destruct (aget_some m idx k W F) as (b & G & D). unfold P. now rewrite G, D.
    - rewrite (proj2 (nth_error_None (adata m) k)) by (unfold awf in W; lia).
      rewrite (proj2 (nth_error_None (indices (ashape m)) k)) by (rewrite indices_length; lia). reflexivity. }
  assert (Cn : length (mask_indices m) = trues (adata m)) by (rewrite <- Em, trues_filter; reflexivity).
  assert (NE : forall k p, nth_error (mask_indices m) k = Some p <-> mask_reaches m [k] p).
  { intros k p. unfold mask_indices. rewrite nth_error_filter. fold P. unfold mask_reaches. split.
    - intros (q & Nq & Pp & K). assert (q < size (ashape m)) by (rewrite <- indices_length; apply nth_error_Some; congruence).
      destruct (nth_flat _ _ H) as (p' & N' & F'). assert (p' = p) by congruence. subst p'. split.
      + destruct (aget_some m p q W F') as (b & G & D). unfold P in Pp. rewrite G in Pp. now subst b.
      + exists q. split; [assumption|]. f_equal. rewrite K, <- Em, firstn_map, trues_filter. reflexivity.
    - intros [G (q & F & K)]. exists q. split; [exact (flat_nth _ _ _ F)|]. split; [unfold P; now rewrite G|].
      inversion K as [K']. rewrite <- Em, firstn_map, trues_filter. reflexivity. }
  split; [|rewrite Cn; auto]. split; [|split; [|discriminate]].
  - intros idx p. split.
    + intro R. assert (exists k, idx = [k]) as [k ->] by (destruct R as [_ (q & _ & ->)]; eauto).
      apply NE in R. split; [constructor; [apply nth_error_Some; congruence|constructor]|]. simpl. symmetry. now apply nth_error_nth.
    + intros [B ->]. inversion B as [|k n idx' s' Hk B']; subst. inversion B'; subst. simpl. apply NE. now apply nth_error_nth'.
  - intros idx B. inversion B as [|k n idx' s' Hk B']; subst. inversion B'; subst. simpl.
    assert (R : mask_reaches m [k] (nth k (mask_indices m) [])) by (apply NE; now apply nth_error_nth').
    destruct R as [_ (q & F & _)]. apply in_bounds_flat. eauto.
Qed.

(** * Reading *)
Lemma elem_get a p : awf a -> in_bounds (ashape a) p -> aget a p = Some (elem a p).
Proof.
  intros W B. apply in_bounds_flat in B. destruct B as [k F]. unfold elem. destruct (aget_some a p k W F) as (e & G & _). now rewrite G.
Qed.
Lemma get_sel_spec x c sel : consistent x -> adequate (shp x) c sel ->
  (sone c = true -> exists p e, sel [] p /\ aget (adat x) p = Some e /\ get_sel x c = RItv e) /\
  (sone c = false -> exists z, get_sel x c = RArr z /\ selected sel (sshape c) x z).
Proof.
  intros [Cs W] (Re & Bd & On). rewrite Cs in Bd. unfold get_sel. split; intro H0; rewrite H0.
  - specialize (On H0). assert (B : in_bounds (sshape c) []) by (rewrite On; constructor).
    exists (ssrc c []), (elem (adat x) (ssrc c [])). split; [apply Re; auto|]. split; [|reflexivity]. apply elem_get; auto.
  - eexists. split; [reflexivity|]. unfold selected, array_interval. split; [|split].
    + split; [reflexivity|]. cbn [adat]. apply of_fun_wf.
    + reflexivity.
    + intros idx B. exists (ssrc c idx). split; [apply Re; auto|]. exists (elem (adat x) (ssrc c idx)). split; [apply elem_get; auto|].
      cbn [adat]. apply in_bounds_flat in B. destruct B as [k F]. exact (of_fun_get _ _ _ _ F).
Qed.

(** * Writing *)
Lemma fold_write (s : list nat) (src : list nat -> list nat) (f : list nat -> itv) : forall L d, length d = size s ->
  let r := fold_left (fun d idx => match flat s (src idx) with Some k => set_nth k (f idx) d | None => d end) L d in
  length r = size s /\ forall q, q < size s ->
    (exists L1 idx L2, L = L1 ++ idx :: L2 /\ flat s (src idx) = Some q /\ nth_error r q = Some (f idx) /\ Forall (fun i => flat s (src i) <> Some q) L2) \/
    (Forall (fun i => flat s (src i) <> Some q) L /\ nth_error r q = nth_error d q).
Proof.
  induction L as [|i L IH] using rev_ind; intros d Ld; cbv zeta.
  - simpl. split; [assumption|]. intros q _. right. auto.
  - rewrite fold_left_app. simpl. destruct (IH d Ld) as [Lr Q]. cbv zeta in Lr, Q.
    set (r := fold_left _ L d) in *. destruct (flat s (src i)) as [k|] eqn:F.
    + split; [now rewrite set_nth_length|]. intros q Hq. destruct (Nat.eq_dec q k) as [->|N].
      * left. exists L, i, []. split; [reflexivity|]. split; [assumption|]. split; [|constructor]. apply set_nth_same. lia.
      * rewrite set_nth_other by assumption. destruct (Q q Hq) as [(L1 & idx & L2 & -> & F1 & N1 & A)|[A N1]].
        -- left. exists L1, idx, (L2 ++ [i]). split; [now rewrite <- app_assoc|]. split; [assumption|]. split; [assumption|].
           apply Forall_app. split; [assumption|]. constructor; [congruence|constructor].
        -- right. split; [|assumption]. apply Forall_app. split; [assumption|]. constructor; [congruence|constructor].
    + split; [assumption|]. intros q Hq. destruct (Q q Hq) as [(L1 & idx & L2 & -> & F1 & N1 & A)|[A N1]].
      * left. exists L1, idx, (L2 ++ [i]). split; [now rewrite <- app_assoc|]. split; [assumption|]. split; [assumption|].
        apply Forall_app. split; [assumption|]. constructor; [congruence|constructor].
      * right. split; [|assumption]. apply Forall_app. split; [assumption|]. constructor; [congruence|constructor].
Qed.
Lemma indices_pos r L1 idx L2 : indices r = L1 ++ idx :: L2 -> flat r idx = Some (length L1).
Proof.
  intro E. assert (L : length L1 < size r) by (rewrite <- indices_length, E, app_length; simpl; lia).
  destruct (nth_flat _ _ L) as (i' & N & F). rewrite E, nth_error_app2, Nat.sub_diag in N by lia. simpl in N. congruence.
Qed.

(** Values. *)
Lemma strip_spec : forall k s, exists j, s = repeat 1 j ++ strip k s /\ (j = 0 \/ k <= length (strip k s)).
Proof.
  intros k s. induction s as [|n s IH]; [exists 0; simpl; auto|].
  destruct n as [|[|n]]; try (exists 0; simpl; auto; fail).
  change (strip k (1 :: s)) with (if k <? length (1 :: s) then strip k s else 1 :: s).
  destruct (Nat.ltb_spec k (length (1 :: s))) as [L|L].
  - destruct IH as (j & E & D). exists (S j). simpl. split; [now f_equal|]. right. destruct D as [->|D]; [|assumption].
    simpl in E. rewrite <- E. simpl in L. lia.
  - exists 0. simpl. auto.
Qed.
Lemma strip_unique : forall j k s', (j = 0 \/ k <= length s') -> length s' <= k -> strip k (repeat 1 j ++ s') = s'.
Proof.
  induction j as [|j IH]; intros k s' D L.
  - simpl. destruct s' as [|[|[|n]] s']; try reflexivity. change (strip k (1 :: s')) with (if k <? length (1 :: s') then strip k s' else 1 :: s').
    destruct (Nat.ltb_spec k (length (1 :: s'))); [lia|reflexivity].
  - simpl repeat. change ((1 :: repeat 1 j) ++ s') with (1 :: (repeat 1 j ++ s')).
    change (strip k (1 :: (repeat 1 j ++ s'))) with (if k <? length (1 :: (repeat 1 j ++ s')) then strip k (repeat 1 j ++ s') else 1 :: (repeat 1 j ++ s')).
    destruct D as [D|D]; [discriminate|]. simpl length. rewrite app_length, repeat_length.
    destruct (Nat.ltb_spec k (S (j + length s'))); [|lia]. apply IH; auto.
Qed.
Lemma size_repeat j s : size (repeat 1 j ++ s) = size s.
Proof. induction j as [|j IH]; simpl; [reflexivity|]. lia. Qed.
Lemma fit_spec r a : awf a -> forall a', fits a r a' ->
  exists f, fit r a = Ok f /\ forall idx, in_bounds r idx -> reads a' idx (f idx).
Proof.
  intros W a' (Ed & (j & Es & D & L) & B). unfold fit. cbv zeta. rewrite Es, (strip_unique j _ _ D L).
  assert (Ea : mkarr (ashape a') (adata a) = a') by (destruct a' as [s' d']; simpl in *; now subst d'). rewrite Ea.
  apply bcast_iff in B as B'. rewrite B'. destruct (list_eq_dec Nat.eq_dec r r) as [_|]; [|contradiction].
  eexists. split; [reflexivity|]. intros idx Bi. cbv beta.
  assert (W' : awf a') by (unfold awf in *; rewrite Ed, W, Es; apply size_repeat).
  apply in_bounds_flat in Bi. destruct Bi as [k F].
  destruct (bget_some a' (of_fun r (fun _ => 0)) r idx k W' (of_fun_wf _ _) B' F) as (e & _ & G & _). rewrite G.
  apply bget_reads; [|assumption]. rewrite (flat_len _ _ _ F). assumption.
Qed.
Lemma fit_err r a : (forall a', ~ fits a r a') -> fit r a = Err ValueError.
Proof.
  intro N. unfold fit. cbv zeta. cbn [ashape]. destruct (bcast (strip (length r) (ashape a)) r) as [r'|] eqn:E; [|reflexivity].
  destruct (list_eq_dec Nat.eq_dec r' r) as [->|]; [|reflexivity]. exfalso.
  apply (N (mkarr (strip (length r) (ashape a)) (adata a))). split; [reflexivity|]. cbn [ashape]. split; [|now apply bcast_iff].
  assert (Lr := bcast_len _ _ _ E). destruct (strip_spec (length r) (ashape a)) as (j & Es & D). exists j. split; [assumption|]. split; [assumption|]. lia.
Qed.
Lemma gives_fun v r : well_formed v -> forall (c : selection), sshape c = r -> storable v r -> (sone c = true -> ~ is_array v) ->
  exists f, values c v = Ok f /\ forall idx, in_bounds r idx -> gives v r idx (f idx).
Proof.
  intros W c Er St On. destruct v as [e|a|u|a]; simpl in *.
  - eexists. split; [reflexivity|]. reflexivity.
  - destruct St as (a' & Fa). destruct (sone c); [now destruct On|]. rewrite Er. destruct (fit_spec r a W a' Fa) as (f & E & G).
    exists f. split; [assumption|]. intros idx B. exists a'. auto.
  - eexists. split; [reflexivity|]. reflexivity.
  - destruct St as (Ne & a' & Fa). destruct (adata a) as [|u0 us] eqn:Ed; [contradiction|]. rewrite <- Ed in *. destruct (sone c); [now destruct On|].
    rewrite Er. destruct (fit_spec r (amap point a) (amap_wf _ _ W) a' Fa) as (f & E & G). exists f. split; [assumption|]. intros idx B. exists a'. auto.
Qed.
Lemma values_err v r : forall (c : selection), sshape c = r -> ~ storable v r -> sone c = false -> values c v = Err ValueError.
Proof.
  intros c Er St On. destruct v as [e|a|u|a]; simpl in *; try tauto; rewrite On, Er.
  - apply fit_err. intros a' Fa. apply St. eauto.
  - destruct (adata a) as [|u0 us] eqn:Ed; [reflexivity|]. apply fit_err. intros a' Fa. apply St. split; [discriminate|]. exists a'. exact Fa.
Qed.
Lemma set_sel_spec x c sel v : consistent x -> adequate (shp x) c sel -> well_formed v -> storable v (sshape c) ->
  (sone c = true -> ~ is_array v) ->
  exists y, set_sel x c v = Ok y /\ consistent y /\ shp y = shp x /\ assigned sel (sshape c) v x y.
Proof.
  intros Cx Ad Wv St On. assert (Cx' := Cx). destruct Cx' as [Cs W]. destruct Ad as (Re & Bd & _). rewrite Cs in Bd.
  destruct (gives_fun v _ Wv c eq_refl St On) as (f & Ev & G). unfold set_sel. rewrite Ev. cbn [rbind].
  eexists. split; [reflexivity|].
  destruct (fold_write (ashape (adat x)) (ssrc c) f (indices (sshape c)) (adata (adat x)) W) as [Lr Q]. cbv zeta in Lr, Q.
  split; [split; [exact Cs | exact Lr]|]. split; [reflexivity|].
  intros p Bp. rewrite Cs in Bp. apply in_bounds_flat in Bp. destruct Bp as [q Fq]. assert (Hq := flat_lt _ _ _ Fq).
  unfold aget. cbn [adat write ashape adata]. rewrite Fq. destruct (Q q Hq) as [(L1 & idx & L2 & El & Fi & Nq & A)|[A Nq]].
  - left. exists idx, (f idx). assert (Bi : in_bounds (sshape c) idx).
    { apply in_bounds_flat. apply in_indices. rewrite El. apply in_or_app. right. now left. }
    assert (Ep : p = ssrc c idx) by exact (flat_inj _ _ _ _ Fq Fi).
    split; [apply Re; auto|]. split; [auto|]. split; [exact Nq|]. intros idx' Hi'. apply Re in Hi'. destruct Hi' as [B' E'].
    intros a b Fa Fb. rewrite (indices_pos _ _ _ _ El) in Fb. inversion Fb; subst b.
    assert (Na := flat_nth _ _ _ Fa). destruct (Nat.le_gt_cases a (length L1)) as [|Lt]; [assumption|exfalso].
    rewrite El, nth_error_app2 in Na by lia. destruct (a - length L1) as [|d] eqn:Ed; [lia|]. simpl in Na.
    apply nth_error_In in Na. rewrite Forall_forall in A. apply (A _ Na). rewrite <- E'. assumption.
  - right. split; [|exact Nq]. intros idx Hi. apply Re in Hi. destruct Hi as [Bi ->]. rewrite Forall_forall in A. apply (A idx); [|assumption].
    apply in_indices. now apply in_bounds_flat.
Qed.

(** * The entry points *)
Lemma getkey_spec x key : consistent x -> valid_key (shp x) key -> simple_key key ->
  (full_int_key (shp x) key -> exists p e, reaches (shp x) key [] p /\ aget (adat x) p = Some e /\ getkey x key = Ok (RItv e)) /\
  (~ full_int_key (shp x) key -> exists z, getkey x key = Ok (RArr z) /\ result_shape (shp x) key (shp z) /\ selected (reaches (shp x) key) (shp z) x z).
Proof.
  intros Cx V Sk. destruct (select_key_spec _ _ V Sk) as (c & E & Ad & Sh & On). unfold getkey. rewrite <- (proj1 Cx), E. cbn [rbind].
  destruct (get_sel_spec x c _ Cx Ad) as [G1 G2]. split; intro F.
  - apply On in F. destruct (G1 F) as (p & e & R & G & ->). exists p, e. auto.
  - assert (F' : sone c = false) by (destruct (sone c); [destruct F; now apply On | reflexivity]).
    destruct (G2 F') as (z & -> & Z). exists z. split; [reflexivity|]. assert (Ez := Z). destruct Ez as (_ & -> & _). split; assumption.
Qed.
Lemma getmask_spec x m : consistent x -> awf m -> ashape m = shp x ->
  exists z, getmask x m = Ok (RArr z) /\ shp z = [trues (adata m)] /\ selected (mask_reaches m) (shp z) x z.
Proof.
  intros Cx W Es. destruct (select_mask_spec _ m W Es) as (c & E & Ad & Sh & On). unfold getmask. rewrite <- (proj1 Cx), E. cbn [rbind].
  destruct (get_sel_spec x c _ Cx Ad) as [_ G2]. destruct (G2 On) as (z & -> & Z). exists z. split; [reflexivity|].
  assert (Ez := Z). destruct Ez as (_ & -> & _). auto.
Qed.
Lemma getmask_err x m : consistent x -> ashape m <> shp x -> getmask x m = Err IndexError /\ forall v, setmask x m v = Err IndexError.
Proof.
  intros [Cs _] N. unfold getmask, setmask, select_mask. rewrite <- Cs. destruct (list_eq_dec Nat.eq_dec (ashape m) (shp x)); [contradiction|]. auto.
Qed.
Lemma result_shape_unique s key : forall r r', result_shape s key r -> result_shape s key r' -> r = r'.
Proof.
  intros r r' H1. revert r'. induction H1 as [s|n s z key r H1 IH|n s it key c r NI C H1 IH]; intros r' H2; inversion H2; subst; auto.
  - match goal with H3 : forall z, KI _ <> KI z |- _ => now destruct (H3 z) end.
  - now destruct (NI z).
  - f_equal; [|auto]. match goal with H3 : forall k, k < ?d <-> _ |- _ => rename H3 into C'; rename d into c' end.
    destruct (Nat.lt_trichotomy c c') as [L|[L|L]]; [|assumption|].
    + apply C' in L. apply C in L. lia.
    + apply C in L. apply C' in L. lia.
Qed.
Lemma setkey_spec x key v r : consistent x -> valid_key (shp x) key -> simple_key key -> result_shape (shp x) key r ->
  well_formed v -> (full_int_key (shp x) key -> ~ is_array v) ->
  (storable v r -> exists y, setkey x key v = Ok y /\ consistent y /\ shp y = shp x /\ assigned (reaches (shp x) key) r v x y) /\
  (~ storable v r -> setkey x key v = Err ValueError).
Proof.
  intros Cx V Sk Rs Wv On'. destruct (select_key_spec _ _ V Sk) as (c & E & Ad & Sh & On). unfold setkey. rewrite <- (proj1 Cx), E. cbn [rbind].
  assert (Er := result_shape_unique _ _ _ _ Rs Sh). rewrite Er. split; intro St.
  - apply set_sel_spec; auto. intro O1. apply On' , On, O1.
  - unfold set_sel. rewrite (values_err v (sshape c) c eq_refl St); [reflexivity|].
    destruct (sone c) eqn:O1; [|reflexivity]. exfalso. apply (On' (proj1 On eq_refl)). destruct v; simpl in *; try exact I; apply St; exact I.
Qed.
Lemma setmask_spec x m v : consistent x -> awf m -> ashape m = shp x -> well_formed v ->
  (storable v [trues (adata m)] -> exists y, setmask x m v = Ok y /\ consistent y /\ shp y = shp x /\ assigned (mask_reaches m) [trues (adata m)] v x y) /\
  (~ storable v [trues (adata m)] -> setmask x m v = Err ValueError).
Proof.
  intros Cx W Es Wv. destruct (select_mask_spec _ m W Es) as (c & E & Ad & Sh & On). unfold setmask. rewrite <- (proj1 Cx), E. cbn [rbind]. rewrite <- Sh.
  split; intro St.
  - apply set_sel_spec; auto. congruence.
  - unfold set_sel. now rewrite (values_err v (sshape c) c eq_refl St On).
Qed.
Lemma axes_error : forall s key, length key <= length s -> ~ valid_key s key -> axes s key = Err IndexError \/ axes s key = Err ValueError.
Proof.
  induction s as [|n s IH]; intros [|it key] L NV; simpl in *.
  - destruct NV. constructor.
  - lia.
  - destruct NV. constructor.
  - destruct (axis n it) as [a|e] eqn:Ea.
    + assert (NV' : ~ valid_key s key) by (intro V; apply NV; constructor; [eapply axis_valid; eauto | assumption]).
      cbn [rbind]. destruct (IH key ltac:(lia) NV') as [-> | ->]; auto.
    + assert (Ni : ~ valid_item n it).
      { intro V. destruct it as [z|w|w|w].
        - destruct V as [i Hi]. apply norm_index_spec in Hi. simpl in Ea. rewrite Hi in Ea. discriminate.
        - destruct (axis_many n (KS w) ltac:(intros z0 Q0; discriminate Q0) V) as (l & E & _). congruence.
        - destruct (axis_many n (KL w) ltac:(intros z0 Q0; discriminate Q0) V) as (l & E & _). congruence.
        - destruct (axis_many n (KM w) ltac:(intros z0 Q0; discriminate Q0) V) as (l & E & _). congruence. }
      destruct (axis_error n it Ni) as [E|E]; rewrite E in Ea; inversion Ea; subst; auto.
Qed.
Lemma key_errors x key v : consistent x ->
  (length (shp x) < length key -> getkey x key = Err IndexError /\ setkey x key v = Err IndexError) /\
  (length key <= length (shp x) -> simple_key key -> ~ valid_key (shp x) key ->
     exists e, (e = IndexError \/ e = ValueError) /\ getkey x key = Err e /\ setkey x key v = Err e).
Proof.
  intros [Cs _]. unfold getkey, setkey, select_key, select_joint, read_key. rewrite <- Cs. split.
  - intro L. destruct (Nat.ltb_spec (length (shp x)) (length key)); [|lia]. destruct (separate key); auto.
  - intros L Sk NV. rewrite (simple_separate _ Sk). destruct (Nat.ltb_spec (length (shp x)) (length key)); [lia|].
    destruct (axes_error _ _ L NV) as [-> | ->]; eexists; (split; [|split; reflexivity]); auto.
Qed.
(** Without lists no element is reached twice. *)
Lemma reaches_inj s key idx p : reaches s key idx p -> valid_key s key -> Forall (fun it => forall zs, it <> KL zs) key ->
  forall idx', reaches s key idx' p -> idx' = idx.
Proof.
  intro R. induction R as [|n s i idx p Hi R IH|n s z key i idx p Hi R IH|n s it key k i idx p Hp R IH]; intros V F idx' R'.
  - now inversion R'.
  - inversion R'; subst. f_equal. apply IH; try assumption; constructor.
  - inversion V; subst. inversion F; subst. inversion R'; subst; [now apply IH|].
    match goal with H1 : item_pos _ (KI _) _ _ |- _ => destruct H1 end.
  - inversion V as [|? ? ? ? Vi V']; subst. inversion F as [|? ? Nl F']; subst.
    inversion R'; subst; [destruct Hp|]. f_equal; [|now apply IH].
    match goal with H1 : item_pos _ it ?a _ |- ?a = _ => rename H1 into Hp' end.
    destruct it as [z|sl|zs|bs]; simpl in *; [destruct Hp | | now destruct (Nl zs) | destruct Hp, Hp'; congruence].
    destruct Hp as [E1 _], Hp' as [E2 _]. nia.
Qed.
Lemma get_set x key v y r : consistent x -> valid_key (shp x) key -> simple_key key -> result_shape (shp x) key r ->
  Forall (fun it => forall zs, it <> KL zs) key -> well_formed v -> (full_int_key (shp x) key -> ~ is_array v) -> setkey x key v = Ok y ->
  (full_int_key (shp x) key -> exists e, gives v [] [] e /\ getkey y key = Ok (RItv e)) /\
  (~ full_int_key (shp x) key -> exists z, getkey y key = Ok (RArr z) /\ shp z = r /\ forall idx, in_bounds r idx -> exists e, gives v r idx e /\ aget (adat z) idx = Some e).
Proof.
  intros Cx V Sk Rs NL Wv On E. destruct (setkey_spec x key v r Cx V Sk Rs Wv On) as [S1 S2].
  assert (exists y', setkey x key v = Ok y' /\ consistent y' /\ shp y' = shp x /\ assigned (reaches (shp x) key) r v x y') as (y' & E' & Cy & Sy & As).
  { destruct (Classical_Prop.classic (storable v r)) as [St|St]; [auto|]. rewrite (S2 St) in E. discriminate. }
  assert (y' = y) by congruence. subst y'.
  destruct (getkey_spec y key Cy ltac:(now rewrite Sy) Sk) as [G1 G2]. rewrite Sy in G1, G2.
  assert (K : forall idx p e, reaches (shp x) key idx p -> aget (adat y) p = Some e -> gives v r idx e).
  { intros idx p e R G. assert (Bp : in_bounds (shp x) p).
    { destruct (axes_spec _ _ V) as (l & _ & _ & _ & Re & Bd). apply Re in R. destruct R as [B ->]. auto. }
    destruct (As p Bp) as [(idx' & e' & R' & Gv & Ge & _)|[N _]]; [|now destruct (N idx)].
    rewrite (reaches_inj _ _ _ _ R' V NL _ R). congruence. }
  split; intro F.
  - destruct (G1 F) as (p & e & R & G & ->). exists e. split; [|reflexivity].
    assert (Hr : r = []); [|subst r; exact (K [] p e R G)].
    clear -F Rs. destruct F as [L Fa]. induction Rs as [s|n s z key r Rs IH|n s it key c r NI C Rs IH]; simpl in *.
    + now destruct s.
    + inversion Fa; subst. apply IH; [lia|assumption].
    + inversion Fa as [|? ? [z Ez] ?]; subst. now destruct (NI z).
  - destruct (G2 F) as (z & -> & Sh & Cz & _ & Sel). assert (Ez := result_shape_unique _ _ _ _ Sh Rs). rewrite Ez in Sel.
    exists z. split; [reflexivity|]. split; [assumption|]. intros idx B. destruct (Sel idx B) as (p & R & e & G & Gz). exists e. split; [|assumption].
    exact (K idx p e R G).
Qed.

(** What the usual slices select. *)
Lemma slice_range n a b k i : a <= b <= n ->
  (slice_pos n (mkslice (Some (Z.of_nat a)) (Some (Z.of_nat b)) None) k i <-> i = a + k /\ i < b).
Proof.
  intros H. unfold slice_pos, first_of, last_of, step_of, from_end. simpl.
  destruct (Z.ltb_spec (Z.of_nat a) 0); [lia|]. destruct (Z.ltb_spec (Z.of_nat b) 0); [lia|]. lia.
Qed.
Lemma slice_all n k i : slice_pos n (mkslice None None None) k i <-> i = k /\ i < n.
Proof. unfold slice_pos, first_of, last_of, step_of. simpl. lia. Qed.
Lemma slice_reversed n k i : slice_pos n (mkslice None None (Some (-1)%Z)) k i <-> k < n /\ i = n - 1 - k.
Proof. unfold slice_pos, first_of, last_of, step_of. simpl. lia. Qed.
Lemma slice_from_end n a k i : 0 < a <= n ->
  (slice_pos n (mkslice (Some (- Z.of_nat a)%Z) None None) k i <-> i = n - a + k /\ i < n).
Proof.
  intro H. unfold slice_pos, first_of, last_of, step_of, from_end. simpl. destruct (Z.ltb_spec (- Z.of_nat a) 0); [lia|lia].
Qed.
Lemma slice_every n d k i : 0 < d ->
  (slice_pos n (mkslice None None (Some (Z.of_nat d))) k i <-> i = k * d /\ i < n).
Proof.
  intro H. unfold slice_pos, first_of, last_of, step_of. simpl. destruct (Z.ltb_spec 0 (Z.of_nat d)); [|lia]. simpl. nia.
Qed.
