(** Keys whose ints, lists and masks are run through together. *)
From Coq Require Import ZArith List Bool Arith Lia.
From Verif Require Import Base PyNum Kernel Expr Arrays Construct SpecArray ArrayProofs ArrayMore ArrayItems Slices SpecSlices SlicesProofs.
Import ListNotations.
Open Scope nat_scope.

Lemma item_cases it : {sl | it = KS sl} + {~ is_slice it}.
Proof. destruct it; [right|left; eauto|right|right]; intros [w E]; discriminate. Qed.
Lemma flag_slice it : (is_adv it || is_int it) = false <-> is_slice it.
Proof. destruct it; simpl; split; try discriminate; try (intros [w E]; discriminate); [eexists; reflexivity | reflexivity]. Qed.
Lemma flag_other it : (is_adv it || is_int it) = true <-> ~ is_slice it.
Proof. rewrite <- flag_slice. destruct (is_adv it || is_int it); split; congruence. Qed.

Lemma axis_taken n it : ~ is_slice it -> valid_item n it ->
  exists a, axis n it = Ok a /\ (forall s key ws, widths s key ws -> widths (n :: s) (it :: key) (sel_len a :: ws)) /\
    forall c k, k < c -> (sel_len a = 1 \/ sel_len a = c) -> (forall i, taken n it k i <-> i = joint_pos a k) /\ joint_pos a k < n.
Proof.
  intros NS V. destruct (match it with KI z => true | _ => false end) eqn:Ki.
  - destruct it as [z|?|?|?]; try discriminate. destruct V as [i Hi]. apply norm_index_spec in Hi as Ei.
    exists (One i). simpl. rewrite Ei. split; [reflexivity|]. split; [intros; now constructor|]. intros c k Hk _. split; [|exact (proj1 Hi)].
    intro j. split; [intro Hj; exact (py_index_unique _ _ _ _ Hj Hi) | intros ->; exact Hi].
  - assert (NI : forall z, it <> KI z) by (intros z ->; discriminate).
    destruct (axis_many n it NI V) as (ps & Ea & P & F). exists (Many ps). split; [exact Ea|].
    assert (Lt : forall k, k < length ps <-> exists i, item_pos n it k i).
    { intro k. rewrite <- nth_error_Some. split; [intro H0; destruct (nth_error ps k) as [i|] eqn:Ek; [exists i; now apply P | congruence]
      | intros [i Hi]; apply P in Hi; congruence]. }
    split; [intros s key ws W; apply w_many; assumption|]. cbn [sel_len]. intros c k Hk Hc.
    assert (T : forall i, taken n it k i <-> (item_pos n it 0 i /\ forall k', (exists i', item_pos n it k' i') -> k' = 0) \/ (item_pos n it k i /\ exists k' i', k' <> 0 /\ item_pos n it k' i')).
    { intro i. destruct it; [now destruct (NI z) | | |]; reflexivity. }
    cbn [joint_pos]. rewrite Forall_forall in F. destruct (Nat.eqb_spec (length ps) 1) as [E1|E1].
    + split; [|apply F, nth_In; lia]. intro i. rewrite T. split.
      * intros [[H1 _]|[_ (k' & i' & Nk & H1)]]; [apply P in H1; symmetry; now apply nth_error_nth|].
        assert (k' < length ps) by (apply Lt; eauto). lia.
      * intros ->. left. split; [apply P; apply nth_error_nth'; lia|]. intros k' H1. apply Lt in H1. lia.
    + destruct Hc as [Hc|Hc]; [contradiction|]. split; [|apply F, nth_In; lia]. intro i. rewrite T. split.
      * intros [[_ H1]|[H1 _]]; [|apply P in H1; symmetry; now apply nth_error_nth].
        assert (1 = 0) by (apply H1; apply Lt; lia). lia.
      * intros ->. right. split; [apply P; apply nth_error_nth'; lia|]. assert (L1 : 1 < length ps) by lia. apply Lt in L1. destruct L1 as [i' Hi']. exists 1, i'. split; [lia|exact Hi'].
Qed.
Lemma joint_rest : forall s, exists l, axes s [] = Ok l /\ slice_lens l [] = s /\
  forall k, (forall b p, together s [] k b p <-> in_bounds s b /\ p = joint_source l [] k b) /\ (forall b, in_bounds s b -> in_bounds s (joint_source l [] k b)).
Proof.
  induction s as [|n s (l & E & Sh & Q)].
  - exists []. simpl. split; [reflexivity|]. split; [reflexivity|]. intro k. split.
    + intros b p. split; [intro H0; inversion H0; split; constructor | intros [H0 ->]; inversion H0; constructor].
    + intros b H0. constructor.
  - exists (Many (seq 0 n) :: l). simpl. rewrite E. split; [reflexivity|]. split; [now rewrite seq_length, Sh|]. intro k. destruct (Q k) as [Re Bd]. split.
    + intros b p. split.
      * intro H0. inversion H0; clear H0; subst. match goal with H1 : together _ _ _ _ _ |- _ => apply Re in H1; destruct H1 as [B1 ->] end.
        split; [apply in_bounds_cons; auto|]. rewrite seq_nth by assumption. reflexivity.
      * intros [B ->]. destruct b as [|i b]; [inversion B|]. apply in_bounds_cons in B. destruct B as [Hi B].
        rewrite seq_nth by assumption. simpl. constructor; [assumption|]. apply Re. auto.
    + intros b B. destruct b as [|i b]; [inversion B|]. apply in_bounds_cons in B. destruct B as [Hi B].
      rewrite seq_nth by assumption. apply in_bounds_cons. auto.
Qed.
Lemma joint_axes : forall s key, valid_key s key -> exists l, axes s key = Ok l /\ length key <= length l /\
  widths s key (joint_lens l (joint key)) /\ slices_shape s key (slice_lens l (joint key)) /\
  forall c k, k < c -> Forall (fun m => m = 1 \/ m = c) (joint_lens l (joint key)) ->
   (forall b p, together s key k b p <-> in_bounds (slice_lens l (joint key)) b /\ p = joint_source l (joint key) k b) /\
   (forall b, in_bounds (slice_lens l (joint key)) b -> in_bounds s (joint_source l (joint key) k b)).
Proof.
  intros s key V. induction V as [s|n s it key Vi V (l & E & Ln & Wd & Sh & Q)].
  - destruct (joint_rest s) as (l & E & Sh & Q). exists l. split; [exact E|]. split; [simpl; lia|]. simpl. rewrite Sh.
    split; [destruct l as [|? ?]; constructor|]. split; [constructor|]. intros c k _ _. exact (Q k).
  - destruct (item_cases it) as [[sl ->]|NS].
    + destruct (axis_many n (KS sl) ltac:(intros z Q0; discriminate Q0) Vi) as (ps & Ea & P & F).
      assert (Lt : forall k, k < length ps <-> exists i, slice_pos n sl k i).
      { intro k. rewrite <- nth_error_Some. split; [intro H0; destruct (nth_error ps k) as [i|] eqn:Ek; [exists i; now apply P | congruence]
        | intros [i Hi]; apply (P k i) in Hi; congruence]. }
      exists (Many ps :: l). cbn [axes]. rewrite Ea. cbn [rbind]. rewrite E. cbn [rbind]. split; [reflexivity|]. split; [simpl; lia|]. cbn [joint map is_adv is_int orb joint_lens slice_lens sel_len joint_source slice_at].
      fold (joint key). split; [now constructor|]. split; [constructor; [exact Lt | exact Sh]|]. intros c k Hk Hc. destruct (Q c k Hk Hc) as [Re Bd]. rewrite Forall_forall in F. split.
      * intros b p. split.
        -- intro H0. inversion H0; clear H0; subst.
           ++ match goal with H1 : together _ _ _ _ _ |- _ => apply Re in H1; destruct H1 as [B1 ->] end.
              match goal with H1 : slice_pos _ _ _ _ |- _ => assert (Hp := H1); apply (P _ _) in Hp end.
              split; [apply in_bounds_cons; split; [apply Lt; eauto | assumption]|]. f_equal. symmetry. now apply nth_error_nth.
           ++ match goal with H1 : ~ is_slice _ |- _ => destruct H1; now exists sl end.
        -- intros [B ->]. destruct b as [|j b]; [inversion B|]. apply in_bounds_cons in B. destruct B as [Hj B].
           apply to_slice; [apply (P j); apply nth_error_nth'; assumption | apply Re; auto].
      * intros b B. destruct b as [|j b]; [inversion B|]. apply in_bounds_cons in B. destruct B as [Hj B].
        apply in_bounds_cons. split; [apply F; now apply nth_In | auto].
    + destruct (axis_taken n it NS Vi) as (a & Ea & Wa & Ta). exists (a :: l). cbn [axes]. rewrite Ea. cbn [rbind]. rewrite E. cbn [rbind]. split; [reflexivity|]. split; [simpl; lia|].
      assert (Fl := proj2 (flag_other it) NS). unfold joint. cbn [map]. rewrite Fl. cbn [joint_lens slice_lens joint_source]. fold (joint key).
      split; [now apply Wa|]. split; [now constructor|]. intros c k Hk Hc. inversion Hc as [|? ? H1 H2]; subst. destruct (Q c k Hk H2) as [Re Bd]. destruct (Ta c k Hk H1) as [T Lt]. split.
      * intros b p. split.
        -- intro H0. inversion H0; clear H0; subst; [match goal with H3 : ~ is_slice (KS ?w) |- _ => destruct H3; now exists w end|].
           match goal with H3 : together _ _ _ _ _ |- _ => apply Re in H3; destruct H3 as [B1 ->] end. split; [exact B1|]. f_equal. now apply T.
        -- intros [B ->]. apply to_taken; [exact NS | now apply T | apply Re; auto].
      * intros b B. apply in_bounds_cons. auto.
Qed.
Lemma common_joined ws c : common ws = Ok c <-> joined ws c.
Proof.
  unfold common, joined. set (g := fun k => negb (k =? 1)).
  assert (G : forall m, In m (filter g ws) <-> In m ws /\ m <> 1).
  { intro m. rewrite filter_In. unfold g. rewrite negb_true_iff, Nat.eqb_neq. reflexivity. }
  rewrite Forall_forall. destruct (filter g ws) as [|k r] eqn:Ef.
  - split.
    + intro E. inversion E; subst. split; [|now left]. intros m Hm. left. destruct (Nat.eq_dec m 1) as [|N]; [assumption|]. destruct (proj2 (G m) (conj Hm N)).
    + intros [_ [->|Hc]]; [reflexivity|]. destruct (Nat.eq_dec c 1) as [->|N]; [reflexivity|]. destruct (proj2 (G c) (conj Hc N)).
  - assert (Hk : In k ws /\ k <> 1) by (apply G; now left). destruct (forallb (Nat.eqb k) r) eqn:Er.
    + rewrite forallb_forall in Er. split.
      * intro E. inversion E; subst. split; [|right; apply Hk]. intros m Hm. destruct (Nat.eq_dec m 1) as [|N]; [now left|right].
        assert (I : In m (c :: r)) by (apply G; auto). destruct I as [->|I]; [reflexivity|]. symmetry. now apply Nat.eqb_eq, Er.
      * intros [A _]. destruct (A k (proj1 Hk)) as [H0|H0]; [now destruct Hk | now subst].
    + split; [discriminate|]. intros [A _]. exfalso. assert (Er' : forallb (Nat.eqb k) r = true); [|congruence].
      apply forallb_forall. intros m Hm. assert (Hm' : In m ws /\ m <> 1) by (apply G; now right). apply Nat.eqb_eq.
      destruct (A k (proj1 Hk)) as [H0|H0]; [now destruct Hk|]. destruct (A m (proj1 Hm')) as [H1|H1]; [now destruct Hm' | congruence].
Qed.
Lemma common_err ws : (forall c, ~ joined ws c) -> common ws = Err IndexError.
Proof.
  intro N. destruct (common ws) as [c|e] eqn:E; [exfalso; exact (N c (proj1 (common_joined ws c) E))|].
  revert E. unfold common. destruct filter; [discriminate|]. destruct forallb; [discriminate|]. congruence.
Qed.
Lemma count_unique (Q : nat -> Prop) c c' : (forall k, k < c <-> Q k) -> (forall k, k < c' <-> Q k) -> c = c'.
Proof. intros A B. destruct (Nat.lt_trichotomy c c') as [L|[L|L]]; [|assumption|]; [apply B, A in L | apply A, B in L]; lia. Qed.
Lemma widths_unique s key ws : widths s key ws -> forall ws', widths s key ws' -> ws = ws'.
Proof.
  intro W. induction W as [s|n s sl key ws W IH|n s z key ws W IH|n s it key c ws NS NI C W IH]; intros ws' W'.
  - now inversion W'.
  - inversion W'; subst; [now apply IH|]. match goal with H1 : ~ is_slice (KS ?w) |- _ => destruct H1; now exists w end.
  - inversion W'; subst; [f_equal; now apply IH|]. match goal with H1 : forall z, KI _ <> KI z |- _ => now destruct (H1 z) end.
  - inversion W'; subst; [destruct NS; eexists; reflexivity | now destruct (NI z)|]. f_equal; [|now apply IH]. match goal with H1 : forall k, k < ?d <-> _ |- c = ?d => exact (count_unique _ _ _ C H1) end.
Qed.
Lemma slices_shape_unique s key r : slices_shape s key r -> forall r', slices_shape s key r' -> r = r'.
Proof.
  intro W. induction W as [s|n s sl key c r C W IH|n s it key r NS W IH]; intros r' W'.
  - now inversion W'.
  - inversion W'; subst; [f_equal; [match goal with H1 : forall k, k < ?d <-> _ |- c = ?d => exact (count_unique _ _ _ C H1) end | now apply IH]|]. match goal with H1 : ~ is_slice (KS ?w) |- _ => destruct H1; now exists w end.
  - inversion W'; subst; [destruct NS; eexists; reflexivity|]. now apply IH.
Qed.
Lemma joined_unique ws c c' : joined ws c -> joined ws c' -> c = c'.
Proof. intros A B. apply common_joined in A, B. congruence. Qed.

(** ** Where the common dimension stands *)
Definition block (fl : list bool) (q : nat) : Prop := exists m z, fl = repeat false q ++ repeat true (S m) ++ repeat false z.
Lemma all_slices l : Forall is_slice l <-> joint l = repeat false (length l).
Proof.
  induction l as [|it l IH]; [split; [reflexivity|constructor]|]. cbn [joint map length repeat]. fold (joint l). split.
  - intro F. inversion F; subst. f_equal; [now apply flag_slice | now apply IH].
  - intro E. inversion E as [[E1 E2]]. constructor; [now apply flag_slice | apply IH; unfold joint in *; rewrite E1 in E2; exact E2].
Qed.
Lemma all_others l : Forall (fun it => ~ is_slice it) l <-> joint l = repeat true (length l).
Proof.
  induction l as [|it l IH]; [split; [reflexivity|constructor]|]. cbn [joint map length repeat]. fold (joint l). split.
  - intro F. inversion F; subst. f_equal; [now apply flag_other | now apply IH].
  - intro E. inversion E as [[E1 E2]]. constructor; [now apply flag_other | apply IH; unfold joint in *; rewrite E1 in E2; exact E2].
Qed.
Lemma joint_app a b : joint (a ++ b) = joint a ++ joint b.
Proof. apply map_app. Qed.
Lemma joint_length l : length (joint l) = length l.
Proof. apply map_length. Qed.
Lemma one_block_iff key q : one_block key q <-> block (joint key) q.
Proof.
  split.
  - intros (pre & mid & post & -> & F1 & Nm & F2 & F3 & <-). rewrite !joint_app, (proj1 (all_slices pre) F1), (proj1 (all_others mid) F2), (proj1 (all_slices post) F3).
    destruct mid as [|it mid]; [contradiction|]. exists (length mid), (length post). reflexivity.
  - intros (m & z & E). assert (L : length key = q + (S m + z)) by (rewrite <- joint_length, E, !app_length, !repeat_length; reflexivity).
    exists (firstn q key), (firstn (S m) (skipn q key)), (skipn (S m) (skipn q key)).
    assert (Ek : key = firstn q key ++ firstn (S m) (skipn q key) ++ skipn (S m) (skipn q key)) by now rewrite !firstn_skipn.
    assert (L1 : length (firstn q key) = q) by (rewrite firstn_length; lia). assert (L2 : length (firstn (S m) (skipn q key)) = S m) by (rewrite firstn_length, skipn_length; lia).
    assert (L3 : length (skipn (S m) (skipn q key)) = z) by (rewrite !skipn_length; lia).
    assert (E2 := E). rewrite Ek, !joint_app in E2.
    assert (A : forall (x x' y y' : list bool), length x = length x' -> x ++ y = x' ++ y' -> x = x' /\ y = y').
    { induction x as [|u x IH]; intros [|u' x'] y y' Lx Ex; try discriminate; [auto|]. cbn in Ex. inversion Ex; subst. inversion Lx. destruct (IH x' y y') as [-> ->]; auto. }
    apply A in E2; [|now rewrite joint_length, L1, repeat_length]. destruct E2 as [J1 E2].
    apply A in E2; [|now rewrite joint_length, L2, repeat_length]. destruct E2 as [J2 J3].
    split; [exact Ek|]. split; [apply all_slices; now rewrite L1|]. split; [intro Z; rewrite Z in L2; discriminate|]. split; [apply all_others; now rewrite L2|].
    split; [apply all_slices; now rewrite L3 | exact L1].
Qed.
Lemma run_repeat f n l : run f (repeat f n ++ negb f :: l) = n /\ run f (repeat f n) = n.
Proof. induction n as [|n [I1 I2]]; simpl; [destruct f; auto|]. rewrite eqb_reflx. auto. Qed.
Lemma run_split f l : exists t, l = repeat f (run f l) ++ t /\ skipn (run f l) l = t /\ (t = [] \/ exists t', t = negb f :: t').
Proof.
  induction l as [|g l (t & E & K & H)]; [exists []; simpl; auto|]. simpl. destruct (Bool.eqb f g) eqn:B.
  - apply eqb_prop in B. subst g. exists t. simpl. rewrite <- E. auto.
  - exists (g :: l). split; [reflexivity|]. split; [reflexivity|]. right. exists l. destruct f, g; try discriminate; reflexivity.
Qed.
Lemma existsb_repeat z : existsb (fun f => f) (repeat false z) = false.
Proof. induction z; simpl; auto. Qed.
Lemma no_true l : existsb (fun f => f) l = false -> l = repeat false (length l).
Proof. induction l as [|f l IH]; [reflexivity|]. simpl. destruct f; [discriminate|]. intro H. now rewrite <- IH. Qed.
Lemma skipn_repeat {A} (a : A) n l : skipn n (repeat a n ++ l) = l.
Proof. induction n; simpl; auto. Qed.
Lemma block_place fl q : block fl q -> place fl = q.
Proof.
  intros (m & z & ->). unfold place. cbn [repeat app]. destruct (run_repeat false q (repeat true m ++ repeat false z)) as [R _]. cbn [negb] in R. rewrite R. rewrite skipn_repeat.
  assert (R2 : run true (true :: repeat true m ++ repeat false z) = S m).
  { destruct z as [|z]; [change (run true (repeat true (S m) ++ []) = S m); rewrite app_nil_r; apply run_repeat; exact []|].
    exact (proj1 (run_repeat true (S m) (repeat false z))). }
  rewrite R2. change (true :: repeat true m ++ repeat false z) with (repeat true (S m) ++ repeat false z). rewrite skipn_repeat, existsb_repeat. reflexivity.
Qed.
Lemma place_block fl : existsb (fun f => f) fl = true -> block fl (place fl) \/ (place fl = 0 /\ forall q, ~ block fl q).
Proof.
  intro T. unfold place. destruct (run_split false fl) as (t & E & K & H). rewrite K. destruct (run_split true t) as (u & E2 & K2 & H2). rewrite K2.
  destruct (existsb (fun f => f) u) eqn:U.
  - right. split; [reflexivity|]. intros q B. assert (P := block_place fl q B). destruct B as (m & z & Eb). rewrite Eb in *. unfold place in P.
    cbn [repeat app] in *. destruct (run_repeat false q (repeat true m ++ repeat false z)) as [R _]. cbn [negb] in R. rewrite R in K. rewrite skipn_repeat in K. subst t.
    assert (R2 : run true (true :: repeat true m ++ repeat false z) = S m).
    { destruct z as [|z]; [change (run true (repeat true (S m) ++ []) = S m); rewrite app_nil_r; apply run_repeat; exact []|].
      exact (proj1 (run_repeat true (S m) (repeat false z))). }
    rewrite R2 in K2. change (true :: repeat true m ++ repeat false z) with (repeat true (S m) ++ repeat false z) in K2. rewrite skipn_repeat in K2. subst u.
    rewrite existsb_repeat in U. discriminate.
  - left. destruct H as [H|[t' H]].
    + rewrite H, app_nil_r in E. rewrite E, existsb_repeat in T. discriminate.
    + cbn [negb] in H. assert (N : run true t <> 0) by (rewrite H; simpl; lia). exists (pred (run true t)), (length u).
      rewrite E at 1. f_equal. rewrite E2 at 1. rewrite (no_true u U) at 1. f_equal. f_equal. lia.
Qed.
Lemma place_le l : forall fl, length fl <= length l -> place fl <= length (slice_lens l fl).
Proof.
  intros fl L. apply Nat.le_trans with (run false fl); [unfold place; destruct existsb; lia|]. revert fl L.
  induction l as [|a l IH]; intros [|f fl] L; simpl in *; try lia. destruct f; simpl; [lia|]. specialize (IH fl). lia.
Qed.
Lemma stands_iff key q : with_list key -> (stands_at key q <-> q = place (joint key)).
Proof.
  intros (it & In0 & NS & _). assert (T : existsb (fun f => f) (joint key) = true).
  { apply existsb_exists. exists true. split; [|reflexivity]. apply in_map_iff. exists it. split; [now apply flag_other | exact In0]. }
  unfold stands_at. split.
  - intros [B|[-> N]]; [symmetry; now apply block_place, one_block_iff|]. destruct (place_block _ T) as [B|[-> _]]; [|reflexivity].
    destruct (N (place (joint key))). now apply one_block_iff.
  - intros ->. destruct (place_block _ T) as [B|[E N]]; [left; now apply one_block_iff|]. right. split; [exact E|]. intros q' B. apply (N q'). now apply one_block_iff.
Qed.

(** ** The selection *)
Lemma in_bounds_app r1 r2 b1 b2 : length b1 = length r1 -> (in_bounds (r1 ++ r2) (b1 ++ b2) <-> in_bounds r1 b1 /\ in_bounds r2 b2).
Proof.
  revert b1. induction r1 as [|n r1 IH]; intros [|i b1] L; try discriminate; simpl.
  - split; [intro H0; split; [constructor|exact H0] | tauto].
  - rewrite !in_bounds_cons, IH by (inversion L; reflexivity). tauto.
Qed.
Lemma in_bounds_length s idx : in_bounds s idx -> length idx = length s.
Proof. unfold in_bounds. intro F. induction F; simpl; congruence. Qed.
Lemma split_idx q (idx : list nat) : q < length idx -> idx = firstn q idx ++ nth q idx 0 :: skipn (S q) idx.
Proof.
  revert idx. induction q as [|q IH]; intros [|i idx] L; simpl in *; try lia; [reflexivity|]. f_equal. apply IH. lia.
Qed.
Lemma mid_idx (b1 b2 : list nat) k : nth (length b1) (b1 ++ k :: b2) 0 = k /\ firstn (length b1) (b1 ++ k :: b2) = b1 /\ skipn (S (length b1)) (b1 ++ k :: b2) = b2.
Proof.
  split; [rewrite app_nth2 by lia; now rewrite Nat.sub_diag|]. split; [rewrite firstn_app, Nat.sub_diag, firstn_all; simpl; apply app_nil_r|].
  rewrite skipn_app. rewrite skipn_all2 by lia. replace (S (length b1) - length b1) with 1 by lia. reflexivity.
Qed.
Lemma select_joint_spec s key c : valid_key s key -> with_list key -> (exists ws, widths s key ws /\ joined ws c) ->
  exists e, select_joint s key = Ok e /\ adequate s e (joint_reaches s key) /\ joint_shape s key (sshape e) /\ sone e = false.
Proof.
  intros V Wl (ws & W & J). destruct (joint_axes s key V) as (l & E & Ln & Wd & Sh & Q). assert (Ls := valid_length _ _ V).
  assert (Ew := widths_unique _ _ _ W _ Wd). subst ws. unfold select_joint, read_key. destruct (Nat.ltb_spec (length s) (length key)); [lia|]. rewrite E. cbn [rbind].
  rewrite (proj2 (common_joined _ c) J). cbn [rbind]. eexists. split; [reflexivity|]. unfold adequate. cbn [sshape ssrc sone].
  set (q := place (joint key)). set (r := slice_lens l (joint key)) in *.
  assert (Lq : q <= length r) by (apply place_le; rewrite joint_length; exact Ln).
  assert (Er : firstn q r ++ skipn q r = r) by apply firstn_skipn. assert (L1 : length (firstn q r) = q) by (rewrite firstn_length; lia).
  assert (Inb : forall b1 k b2, length b1 = q -> (in_bounds (firstn q r ++ c :: skipn q r) (b1 ++ k :: b2) <-> k < c /\ in_bounds r (b1 ++ b2))).
  { intros b1 k b2 Lb. rewrite in_bounds_app by lia. rewrite in_bounds_cons. rewrite <- Er at 3. rewrite in_bounds_app by lia. tauto. }
  assert (Spl : forall idx, in_bounds (firstn q r ++ c :: skipn q r) idx -> exists b1 k b2, length b1 = q /\ idx = b1 ++ k :: b2).
  { intros idx B. apply in_bounds_length in B. rewrite app_length in B. simpl in B. rewrite L1 in B. exists (firstn q idx), (nth q idx 0), (skipn (S q) idx).
    split; [rewrite firstn_length; lia | apply split_idx; lia]. }
  split; [split; [|split; [|discriminate]]|split; [|reflexivity]].
  - intros idx p. split.
    + intros (ws & c' & b1 & k & b2 & W' & J' & Hk & St & -> & To). assert (Ew := widths_unique _ _ _ W' _ Wd). subst ws. assert (Ec := joined_unique _ _ _ J J'). subst c'.
      apply (stands_iff key _ Wl) in St. fold q in St. destruct (mid_idx b1 b2 k) as (M1 & M2 & M3). rewrite <- St, M1, M2, M3.
      destruct (Q c k Hk (proj1 J)) as [Re _]. apply Re in To. destruct To as [B ->]. split; [|reflexivity]. rewrite St. apply Inb; auto.
    + intros [B ->]. destruct (Spl idx B) as (b1 & k & b2 & Lb & ->). apply Inb in B; [|exact Lb]. destruct B as [Hk B].
      destruct (mid_idx b1 b2 k) as (M1 & M2 & M3). rewrite <- Lb, M1, M2, M3. destruct (Q c k Hk (proj1 J)) as [Re _].
      exists (joint_lens l (joint key)), c, b1, k, b2. split; [exact Wd|]. split; [exact J|]. split; [exact Hk|]. split; [apply stands_iff; [exact Wl | exact Lb]|]. split; [reflexivity|].
      apply Re. auto.
  - intros idx B. destruct (Spl idx B) as (b1 & k & b2 & Lb & ->). apply Inb in B; [|exact Lb]. destruct B as [Hk B].
    destruct (mid_idx b1 b2 k) as (M1 & M2 & M3). rewrite <- Lb, M1, M2, M3. destruct (Q c k Hk (proj1 J)) as [_ Bd]. now apply Bd.
  - exists (joint_lens l (joint key)), c, (firstn q r), (skipn q r). split; [exact Wd|]. split; [exact J|]. split; [apply stands_iff; [exact Wl | exact L1]|]. split; [reflexivity|]. now rewrite Er.
Qed.

(** ** The entry points *)
Lemma separate_simple key : separate key = true -> simple_key key.
Proof.
  unfold separate. destruct (filter is_adv key) as [|a [|a' l]] eqn:F; [| |discriminate].
  - intros _. left. apply Forall_forall. intros it Hi. destruct it as [z|sl|zs|bs]; [right; eauto | left; eexists; reflexivity | |];
      exfalso; match goal with Hi : In ?k key |- _ => assert (J : In k (filter is_adv key)) by (apply filter_In; split; [exact Hi|reflexivity]) end; rewrite F in J; destruct J.
  - intro N. apply negb_true_iff in N. right. assert (Ia : In a key) by (apply (proj1 (filter_In is_adv a key)); rewrite F; now left).
    destruct (in_split _ _ Ia) as (pre & post & ->). exists pre, a, post. split; [reflexivity|].
    assert (Aa : is_adv a = true) by (apply (filter_In is_adv a (pre ++ a :: post)); rewrite F; now left).
    rewrite filter_app in F. simpl in F. rewrite Aa in F. rewrite existsb_app in N. simpl in N. apply orb_false_iff in N. destruct N as [N1 N2]. apply orb_false_iff in N2. destruct N2 as [_ N2].
    assert (Lf : length (filter is_adv pre ++ a :: filter is_adv post) = 1) by now rewrite F. rewrite app_length in Lf. simpl in Lf.
    assert (K : forall l, filter is_adv l = [] -> existsb is_int l = false -> Forall is_slice l).
    { intros l E1 E2. apply Forall_forall. intros it Hi. apply flag_slice. apply orb_false_iff. split.
      - destruct (is_adv it) eqn:A; [|reflexivity]. assert (J : In it (filter is_adv l)) by (apply filter_In; auto). rewrite E1 in J. destruct J.
      - destruct (is_int it) eqn:A; [|reflexivity]. assert (J : existsb is_int l = true) by (apply existsb_exists; eauto). congruence. }
    split; apply K; auto; apply length_zero_iff_nil; lia.
Qed.
Lemma joint_with_list key : ~ simple_key key -> separate key = false /\ with_list key.
Proof.
  intro N. assert (Sp : separate key = false) by (destruct (separate key) eqn:E; [destruct (N (separate_simple _ E)) | reflexivity]). split; [exact Sp|].
  unfold separate in Sp. destruct (filter is_adv key) as [|a l] eqn:F; [discriminate|].
  assert (Ia : In a key /\ is_adv a = true) by (apply filter_In; rewrite F; now left). exists a. split; [apply Ia|]. destruct Ia as [_ Aa].
  split; [intros [w ->]; discriminate | intros z ->; discriminate].
Qed.
Lemma joint_shape_unique s key r r' : with_list key -> joint_shape s key r -> joint_shape s key r' -> r = r'.
Proof.
  intros Wl (ws & c & r1 & r2 & W & J & St & -> & Sh) (ws' & c' & r1' & r2' & W' & J' & St' & -> & Sh').
  assert (Ew := widths_unique _ _ _ W _ W'). subst ws'. assert (Ec := joined_unique _ _ _ J J'). subst c'.
  apply (stands_iff _ _ Wl) in St, St'. assert (E := slices_shape_unique _ _ _ Sh _ Sh').
  assert (A : forall (x x' y y' : list nat), length x = length x' -> x ++ y = x' ++ y' -> x = x' /\ y = y').
  { induction x as [|u x IH]; intros [|u' x'] y y' Lx Ex; try discriminate; [auto|]. cbn in Ex. inversion Ex; subst. inversion Lx. destruct (IH x' y y') as [-> ->]; auto. }
  destruct (A r1 r1' r2 r2') as [-> ->]; [congruence | exact E | reflexivity].
Qed.
Theorem joint_get x key : consistent x -> valid_key (shp x) key -> ~ simple_key key -> (exists ws c, widths (shp x) key ws /\ joined ws c) ->
  exists z, getkey x key = Ok (RArr z) /\ joint_shape (shp x) key (shp z) /\ selected (joint_reaches (shp x) key) (shp z) x z.
Proof.
  intros Cx V N (ws & c & W & J). destruct (joint_with_list key N) as [Sp Wl].
  destruct (select_joint_spec (shp x) key c V Wl ltac:(eauto)) as (e & E & Ad & Sh & On). unfold getkey, select_key. rewrite <- (proj1 Cx), Sp, E. cbn [rbind].
  destruct (get_sel_spec x e _ Cx Ad) as [_ G2]. destruct (G2 On) as (z & -> & Z). exists z. split; [reflexivity|]. assert (Ez := Z). destruct Ez as (_ & -> & _). split; assumption.
Qed.
Theorem joint_set x key v r : consistent x -> valid_key (shp x) key -> ~ simple_key key -> joint_shape (shp x) key r -> well_formed v ->
  (storable v r -> exists y, setkey x key v = Ok y /\ consistent y /\ shp y = shp x /\ assigned (joint_reaches (shp x) key) r v x y) /\
  (~ storable v r -> setkey x key v = Err ValueError).
Proof.
  intros Cx V N Rs Wv. destruct (joint_with_list key N) as [Sp Wl]. assert (Rs0 := Rs). destruct Rs0 as (ws & c & r1 & r2 & W & J & _).
  destruct (select_joint_spec (shp x) key c V Wl ltac:(eauto)) as (e & E & Ad & Sh & On). unfold setkey, select_key. rewrite <- (proj1 Cx), Sp, E. cbn [rbind].
  rewrite (joint_shape_unique _ _ _ _ Wl Rs Sh). split; intro St.
  - apply set_sel_spec; auto. intro O1. congruence.
  - unfold set_sel. rewrite (values_err v (sshape e) e eq_refl St On). reflexivity.
Qed.
Theorem joint_misfit x key v : consistent x -> valid_key (shp x) key -> ~ simple_key key -> (forall ws c, widths (shp x) key ws -> ~ joined ws c) ->
  getkey x key = Err IndexError /\ setkey x key v = Err IndexError.
Proof.
  intros Cx V N M. destruct (joint_with_list key N) as [Sp Wl]. destruct (joint_axes _ key V) as (l & E & Ln & Wd & Sh & Q). assert (Ls := valid_length _ _ V).
  unfold getkey, setkey, select_key, select_joint, read_key. rewrite <- (proj1 Cx), Sp. destruct (Nat.ltb_spec (length (shp x)) (length key)); [lia|]. rewrite E. cbn [rbind].
  rewrite (common_err _ (fun c => M _ c Wd)). auto.
Qed.
Theorem all_key_errors x key v : consistent x ->
  (length (shp x) < length key -> getkey x key = Err IndexError /\ setkey x key v = Err IndexError) /\
  (length key <= length (shp x) -> ~ valid_key (shp x) key ->
     exists e, (e = IndexError \/ e = ValueError) /\ getkey x key = Err e /\ setkey x key v = Err e).
Proof.
  intros Cx. split; [exact (proj1 (key_errors x key v Cx))|]. destruct Cx as [Cs _]. unfold getkey, setkey, select_key, select_joint, read_key. rewrite <- Cs.
  intros L NV. destruct (Nat.ltb_spec (length (shp x)) (length key)); [lia|].
  destruct (separate key); destruct (axes_error _ _ L NV) as [-> | ->]; eexists; (split; [|split; reflexivity]); auto.
Qed.
