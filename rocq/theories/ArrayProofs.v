(** Lemmas about the array model. *)
From Coq Require Import ZArith Reals List Bool Arith Lia Lra Psatz.
From Flocq Require Import Core IEEE754.BinarySingleNaN.
From Verif Require Import Base PyNum Kernel Spec Expr XReal XArith KernelProofs ExprProofs KernelAlg Witness Arrays SpecArray.
Import ListNotations.


(** ** Indices *)
Lemma flat_lt s : forall idx k, flat s idx = Some k -> (k < size s)%nat.
Proof.
  induction s as [|n s IH]; intros [|i idx] k; simpl; try discriminate.
  - intro H; inversion H; lia.
  - destruct (Nat.ltb_spec i n) as [Hi|]; [|discriminate]. destruct (flat s idx) as [r|] eqn:E; [|discriminate].
    intro H; inversion H; subst. specialize (IH _ _ E). nia.
Qed.
Lemma flat_len s : forall idx k, flat s idx = Some k -> length idx = length s.
Proof.
  induction s as [|n s IH]; intros [|i idx] k; simpl; try discriminate; [reflexivity|].
  destruct (i <? n); [|discriminate]. destruct (flat s idx) eqn:E; [|discriminate]. intros _. f_equal. eauto.
Qed.
Lemma indices_length s : length (indices s) = size s.
Proof.
  induction s as [|n s IH]; [reflexivity|]. simpl.
  assert (H : forall a k, length (flat_map (fun i => map (cons i) (indices s)) (seq a k)) = (k * size s)%nat).
  { intros a k; revert a. induction k as [|k IHk]; intro a; [reflexivity|]. simpl. rewrite app_length, map_length, IH, IHk. lia. }
  apply H.
Qed.
Lemma nth_flat_map {B} (g : nat -> list B) L : (forall i, length (g i) = L) ->
  forall n a i k, (i < n)%nat -> (k < L)%nat -> nth_error (flat_map g (seq a n)) (i * L + k) = nth_error (g (a + i)%nat) k.
Proof.
  intros HL n. induction n as [|n IH]; intros a i k Hi Hk; [lia|]. simpl.
  destruct i as [|i].
  - rewrite nth_error_app1 by (rewrite HL; lia). simpl. now rewrite Nat.add_0_r.
  - rewrite nth_error_app2 by (rewrite HL; nia). rewrite HL.
    replace (S i * L + k - L)%nat with (i * L + k)%nat by nia.
    rewrite IH by lia. f_equal. f_equal. lia.
Qed.
Lemma flat_nth s : forall idx k, flat s idx = Some k -> nth_error (indices s) k = Some idx.
Proof.
  induction s as [|n s IH]; intros [|i idx] k; simpl; try discriminate.
  - intro H; inversion H; reflexivity.
  - destruct (Nat.ltb_spec i n) as [Hi|]; [|discriminate]. destruct (flat s idx) as [r|] eqn:E; [|discriminate].
    intro H; inversion H; subst. assert (R := flat_lt _ _ _ E).
    rewrite (nth_flat_map (fun i => map (cons i) (indices s)) (size s)); try assumption.
    + rewrite nth_error_map, (IH _ _ E). reflexivity.
    + intro j. now rewrite map_length, indices_length.
Qed.
Lemma nth_flat s : forall k, (k < size s)%nat -> exists idx, nth_error (indices s) k = Some idx /\ flat s idx = Some k.
Proof.
  induction s as [|n s IH]; intros k Hk; simpl in Hk.
  - exists []. assert (k = O) by lia. subst. split; reflexivity.
  - assert (Hs : (0 < size s)%nat) by nia.
    set (i := (k / size s)%nat). set (r := (k mod size s)%nat).
    assert (Ek : k = (i * size s + r)%nat) by (unfold i, r; rewrite Nat.mul_comm; apply Nat.div_mod; lia).
    assert (Hr : (r < size s)%nat) by (apply Nat.mod_upper_bound; lia).
    assert (Hi : (i < n)%nat) by nia.
    destruct (IH r Hr) as (idx & N & F). exists (i :: idx).
    assert (FF : flat (n :: s) (i :: idx) = Some k).
    { simpl. destruct (Nat.ltb_spec i n); [|lia]. rewrite F. f_equal. lia. }
    split; [now apply flat_nth | exact FF].
Qed.
Lemma in_indices s idx : In idx (indices s) <-> exists k, flat s idx = Some k.
Proof.
  split.
  - intro H. apply In_nth_error in H. destruct H as [k Hk].
    assert (k < size s)%nat by (rewrite <- indices_length; apply nth_error_Some; congruence).
    destruct (nth_flat s k) as (idx' & N & F); [assumption|]. exists k. congruence.
  - intros [k H]. apply flat_nth in H. eapply nth_error_In; eauto.
Qed.
Lemma aget_some {A} (a : arr A) idx k : awf a -> flat (ashape a) idx = Some k -> exists x, aget a idx = Some x /\ nth_error (adata a) k = Some x.
Proof.
  intros W F. unfold aget. rewrite F. assert (H := flat_lt _ _ _ F). rewrite <- W in H.
  destruct (nth_error (adata a) k) eqn:E; [eauto|]. apply nth_error_None in E. lia.
Qed.
Lemma aget_in {A} (a : arr A) idx x : aget a idx = Some x -> In x (adata a).
Proof. unfold aget. destruct flat; [|discriminate]. apply nth_error_In. Qed.
Lemma of_fun_get {A} s (f : list nat -> A) idx k : flat s idx = Some k -> aget (of_fun s f) idx = Some (f idx).
Proof.
  intro F. unfold aget, of_fun. cbn [ashape adata]. rewrite F, nth_error_map, (flat_nth _ _ _ F). reflexivity.
Qed.
Lemma of_fun_wf {A} s (f : list nat -> A) : awf (of_fun s f).
Proof. unfold awf, of_fun. cbn [ashape adata]. now rewrite map_length, indices_length. Qed.
Lemma aget_map {A B} (f : A -> B) a idx : aget (amap f a) idx = match aget a idx with Some x => Some (f x) | None => None end.
Proof. unfold aget, amap. cbn [ashape adata]. destruct flat; [|reflexivity]. rewrite nth_error_map. destruct nth_error; reflexivity. Qed.
Lemma amap_wf {A B} (f : A -> B) a : awf a -> awf (amap f a).
Proof. unfold awf, amap. cbn [ashape adata]. now rewrite map_length. Qed.

(** ** mapM *)
Lemma keeps_mapM {A B} (f : A -> M B) l : (forall x, keeps_mode (f x)) -> keeps_mode (mapM f l).
Proof.
  intro K. induction l as [|x l IH]; [apply keeps_ret|]. simpl. apply keeps_bind; [apply K|]. intro y.
  apply keeps_bind; [exact IH|]. intro. apply keeps_ret.
Qed.
Lemma keeps_run {A} (c : M A) m : keeps_mode c -> c m = (outcome c m, m).
Proof. intro K. specialize (K m). unfold outcome. destruct (c m); simpl in *. congruence. Qed.
Lemma run_returns {A} (c : M A) m v : keeps_mode c -> returns c m v -> c m = (Ok v, m).
Proof. intros K H. rewrite (keeps_run c m K). unfold returns in H. now rewrite H. Qed.
Lemma keeps_returns {A B} (c : M A) (k : A -> M B) m z : keeps_mode c -> (returns (mbind c k) m z <-> exists a, returns c m a /\ returns (k a) m z).
Proof.
  intro K. unfold returns, outcome, mbind. assert (H := K m). destruct (c m) as [[a|e] m1]; simpl in *; subst m1.
  - split; [eauto|]. intros (a' & E & H). now inversion E; subst.
  - split; [discriminate|]. intros (a' & E & _). discriminate.
Qed.
Lemma returns_ret {A} (a b : A) m : returns (mret a) m b <-> b = a.
Proof. unfold returns, outcome. simpl. split; [congruence | now intros ->]. Qed.
Lemma mapM_returns {A B} (f : A -> M B) l m : (forall x, keeps_mode (f x)) -> forall ys,
  returns (mapM f l) m ys <-> Forall2 (fun x y => returns (f x) m y) l ys.
Proof.
  intro K. induction l as [|x l IH]; intro ys; simpl.
  - rewrite returns_ret. split; [intros ->; constructor | intro H; now inversion H].
  - rewrite keeps_returns by apply K. split.
    + intros (y & Hy & H). rewrite keeps_returns in H by now apply keeps_mapM. destruct H as (ys' & Hys & H).
      apply returns_ret in H. subst ys. constructor; [assumption|]. now apply IH.
    + intro H. inversion H; subst. eexists. split; [eassumption|]. rewrite keeps_returns by now apply keeps_mapM.
      eexists. split; [apply IH; eassumption|]. now apply returns_ret.
Qed.
Lemma Forall2_nth {A B} (R : A -> B -> Prop) l l' : Forall2 R l l' -> forall k x, nth_error l k = Some x -> exists y, nth_error l' k = Some y /\ R x y.
Proof.
  induction 1 as [|a b l l' H HF IH]; intros [|k] x E; simpl in E; try discriminate.
  - inversion E; subst. exists b. split; [reflexivity|assumption].
  - apply IH, E.
Qed.
Lemma Forall2_len {A B} (R : A -> B -> Prop) l l' : Forall2 R l l' -> length l = length l'.
Proof. induction 1; simpl; congruence. Qed.
Lemma mapM_total {A B} (f : A -> M B) l m : (forall x, keeps_mode (f x)) -> (forall x, In x l -> exists y, returns (f x) m y) ->
  exists ys, returns (mapM f l) m ys.
Proof.
  intros K H. assert (exists ys, Forall2 (fun x y => returns (f x) m y) l ys) as [ys Hys].
  { induction l as [|x l IH]; [exists []; constructor|]. destruct (H x) as [y Hy]; [now left|].
    destruct IH as [ys Hys]; [intros; apply H; now right|]. exists (y :: ys). now constructor. }
  exists ys. now apply mapM_returns.
Qed.

(** ** Broadcasting *)
Lemma bidx_rev_len s : forall idx, (length s <= length idx)%nat -> length (bidx_rev s idx) = length s.
Proof. induction s as [|n s IH]; intros [|i idx] H; simpl in *; try lia. rewrite IH; lia. Qed.
Lemma bcast_rev_same s : bcast_rev s s = Some s.
Proof. induction s as [|n s IH]; [reflexivity|]. simpl. now rewrite IH, Nat.eqb_refl. Qed.
Lemma bcast_same s : bcast s s = Some s.
Proof. unfold bcast. now rewrite bcast_rev_same, rev_involutive. Qed.
Lemma bcast_nil_r s : bcast s [] = Some s.
Proof.
  unfold bcast. assert (E : bcast_rev (rev s) [] = Some (rev s)) by (destruct (rev s); reflexivity).
  simpl rev at 2. rewrite E. now rewrite rev_involutive.
Qed.
Lemma bcast_nil_l s : bcast [] s = Some s.
Proof. unfold bcast. simpl. now rewrite rev_involutive. Qed.

(** In-bounds-ness pointwise, insensitive to reversal. *)
Lemma flat_Forall2 s idx : (exists k, flat s idx = Some k) <-> Forall2 (fun i n => (i < n)%nat) idx s.
Proof.
  revert idx. induction s as [|n s IH]; intros [|i idx]; simpl.
  - split; [constructor | intros; eauto].
  - split; [intros [k H]; discriminate | intro H; inversion H].
  - split; [intros [k H]; discriminate | intro H; inversion H].
  - destruct (Nat.ltb_spec i n) as [Hi|Hi].
    + split.
      * intros [k H]. constructor; [assumption|]. apply IH. destruct (flat s idx); [eauto|discriminate].
      * intro H. inversion H; subst. apply IH in H5. destruct H5 as [k ->]. eauto.
    + split; [intros [k H]; discriminate|]. intro H. inversion H; subst. lia.
Qed.
Lemma Forall2_rev' {A B} (R : A -> B -> Prop) l l' : Forall2 R l l' -> Forall2 R (rev l) (rev l').
Proof. induction 1; simpl; [constructor|]. apply Forall2_app; [assumption|]. constructor; [assumption|constructor]. Qed.
Lemma bidx_rev_same s : forall idx, Forall2 (fun i n => (i < n)%nat) idx s -> bidx_rev s idx = idx.
Proof.
  induction s as [|n s IH]; intros idx H; inversion H; subst; [reflexivity|]. simpl. rewrite IH by assumption. f_equal.
  destruct (Nat.eqb_spec n 1); lia.
Qed.
Lemma bidx_same s idx k : flat s idx = Some k -> bidx s idx = idx.
Proof.
  intro F. assert (H : Forall2 (fun i n => (i < n)%nat) idx s) by (apply flat_Forall2; eauto).
  unfold bidx. rewrite bidx_rev_same by now apply Forall2_rev'. apply rev_involutive.
Qed.
Lemma bidx_nil idx : bidx [] idx = [].
Proof. reflexivity. Qed.
Lemma bidx_rev_bounds s : forall t r idx, (bcast_rev s t = Some r \/ bcast_rev t s = Some r) ->
  Forall2 (fun i n => (i < n)%nat) idx r -> Forall2 (fun i n => (i < n)%nat) (bidx_rev s idx) s.
Proof.
  induction s as [|a s IH]; intros t r idx Hb Hi.
  - destruct idx; constructor.
  - destruct t as [|b t].
    + assert (r = a :: s) by (destruct Hb as [Hb|Hb]; simpl in Hb; congruence). subst r.
      inversion Hi; subst. simpl. constructor.
      * destruct (Nat.eqb_spec a 1); lia.
      * apply (IH s s); [|assumption]. left. apply bcast_rev_same.
    + assert (exists r0 c, r = c :: r0 /\ (bcast_rev s t = Some r0 \/ bcast_rev t s = Some r0) /\ (a = 1 \/ c = a)%nat) as (r0 & c & -> & Hb0 & Hc).
      { destruct Hb as [Hb|Hb]; simpl in Hb.
        - destruct (bcast_rev s t) as [r0|]; [|discriminate]. destruct (Nat.eqb_spec a b); [inversion Hb; subst; eauto 8|].
          destruct (Nat.eqb_spec a 1); [inversion Hb; subst; eauto 8|]. destruct (Nat.eqb_spec b 1); [inversion Hb; subst; eauto 8|discriminate].
        - destruct (bcast_rev t s) as [r0|]; [|discriminate]. destruct (Nat.eqb_spec b a); [inversion Hb; subst; eauto 8|].
          destruct (Nat.eqb_spec b 1); [inversion Hb; subst; eauto 8|]. destruct (Nat.eqb_spec a 1); [inversion Hb; subst; eauto 8|discriminate]. }
      inversion Hi; subst. simpl. constructor.
      * destruct (Nat.eqb_spec a 1); [lia|]. destruct Hc; lia.
      * eapply IH; eauto.
Qed.
Lemma bidx_bounds s t r idx k : (bcast s t = Some r \/ bcast t s = Some r) -> flat r idx = Some k -> exists j, flat s (bidx s idx) = Some j.
Proof.
  intros Hb F. apply flat_Forall2. unfold bidx.
  assert (H : Forall2 (fun i n => (i < n)%nat) idx r) by (apply flat_Forall2; eauto).
  rewrite <- (rev_involutive s) at 2. apply Forall2_rev'.
  unfold bcast in Hb. destruct Hb as [Hb|Hb].
  - destruct (bcast_rev (rev s) (rev t)) as [r0|] eqn:E; [|discriminate]. inversion Hb; subst r.
    eapply bidx_rev_bounds; [left; exact E|]. rewrite <- (rev_involutive r0). now apply Forall2_rev'.
  - destruct (bcast_rev (rev t) (rev s)) as [r0|] eqn:E; [|discriminate]. inversion Hb; subst r.
    eapply bidx_rev_bounds; [right; exact E|]. rewrite <- (rev_involutive r0). now apply Forall2_rev'.
Qed.
Lemma bget_some {A B} (x : arr A) (y : arr B) r idx k : awf x -> awf y -> bcast (ashape x) (ashape y) = Some r ->
  flat r idx = Some k -> exists a b, bget x idx = Some a /\ bget y idx = Some b.
Proof.
  intros Wx Wy Hb F. unfold bget.
  destruct (bidx_bounds (ashape x) (ashape y) r idx k) as [j Hj]; [now left | assumption|].
  destruct (bidx_bounds (ashape y) (ashape x) r idx k) as [j' Hj']; [now right | assumption|].
  destruct (aget_some x _ _ Wx Hj) as (a & Ha & _). destruct (aget_some y _ _ Wy Hj') as (b & Hb' & _). eauto.
Qed.

(** ** Elementwise operations *)
Section Binop.
Context {A B C : Type} (f : A -> B -> M C).
Hypothesis K : forall a b, keeps_mode (f a b).
Let body (x : arr A) (y : arr B) := fun idx => match bget x idx, bget y idx with Some a, Some b => f a b | _, _ => mraise IndexError end.
Lemma keeps_body x y idx : keeps_mode (body x y idx).
Proof. unfold body. destruct bget; [|apply keeps_raise]. destruct bget; [apply K|apply keeps_raise]. Qed.
Lemma keeps_binop_arr x y : keeps_mode (binop_arr f x y).
Proof.
  unfold binop_arr. destruct bcast; [|apply keeps_raise]. apply keeps_bind; [apply keeps_mapM; intro; apply keeps_body|]. intro. apply keeps_ret.
Qed.
Lemma binop_arr_spec x y m Z : returns (binop_arr f x y) m Z ->
  exists s, bcast (ashape x) (ashape y) = Some s /\ ashape Z = s /\ awf Z /\
    forall idx k, flat s idx = Some k -> exists a b c, bget x idx = Some a /\ bget y idx = Some b /\ returns (f a b) m c /\ aget Z idx = Some c.
Proof.
  unfold binop_arr. destruct (bcast (ashape x) (ashape y)) as [s|]; [|discriminate].
  intro H. rewrite keeps_returns in H by (apply keeps_mapM; intro; apply keeps_body).
  destruct H as (l & Hl & H). apply returns_ret in H. subst Z. exists s. split; [reflexivity|]. cbn [ashape adata].
  apply (mapM_returns (body x y)) in Hl; [|intro; apply keeps_body].
  split; [reflexivity|]. split; [unfold awf; cbn [ashape adata]; rewrite <- (Forall2_len _ _ _ Hl); apply indices_length|].
  intros idx k F. destruct (Forall2_nth _ _ _ Hl k idx (flat_nth _ _ _ F)) as (c & Hc & HR).
  unfold body in HR. destruct (bget x idx) as [a|] eqn:Ea; [|discriminate]. destruct (bget y idx) as [b|] eqn:Eb; [|discriminate].
  exists a, b, c. split; [reflexivity|]. split; [reflexivity|]. split; [assumption|]. unfold aget. cbn [ashape adata]. now rewrite F.
Qed.
Lemma binop_arr_total x y s m : awf x -> awf y -> bcast (ashape x) (ashape y) = Some s ->
  (forall idx k a b, flat s idx = Some k -> bget x idx = Some a -> bget y idx = Some b -> exists c, returns (f a b) m c) ->
  exists Z, returns (binop_arr f x y) m Z.
Proof.
  intros Wx Wy Hs H. unfold binop_arr. rewrite Hs.
  destruct (mapM_total (body x y) (indices s) m) as [l Hl].
  - intro. apply keeps_body.
  - intros idx Hi. apply in_indices in Hi. destruct Hi as [k F].
    destruct (bget_some x y s idx k Wx Wy Hs F) as (a & b & Ea & Eb). unfold body. rewrite Ea, Eb. eapply H; eauto.
  - eexists. rewrite keeps_returns by (apply keeps_mapM; intro; apply keeps_body). exists l. split; [exact Hl|]. now apply returns_ret.
Qed.
End Binop.

Lemma keeps_lift_arr c : keeps_mode c -> keeps_mode (lift_arr c).
Proof. intro K. apply keeps_bind; [assumption|]. intro. apply keeps_ret. Qed.
Lemma lift_returns c m Z : keeps_mode c -> returns (lift_arr c) m Z <-> exists d, returns c m d /\ Z = array_interval d.
Proof.
  intro K. unfold lift_arr. rewrite keeps_returns by assumption. split.
  - intros (d & Hd & H). apply returns_ret in H. eauto.
  - intros (d & Hd & ->). exists d. split; [assumption|]. now apply returns_ret.
Qed.

(** vectorize *)
Lemma vectorize_spec {A B} (f : A -> M B) a m Z : (forall x, keeps_mode (f x)) -> returns (vectorize f a) m Z ->
  ashape Z = ashape a /\ Forall2 (fun x y => returns (f x) m y) (adata a) (adata Z) /\ adata a <> [].
Proof.
  intros K. unfold vectorize. destruct (adata a) as [|x l] eqn:E; [discriminate|]. unfold amapM. rewrite E.
  rewrite keeps_returns by now apply keeps_mapM. intros (ys & Hys & H). apply returns_ret in H. subst Z. cbn [ashape adata].
  split; [reflexivity|]. split; [now apply mapM_returns | discriminate].
Qed.
Lemma keeps_vectorize {A B} (f : A -> M B) a : (forall x, keeps_mode (f x)) -> keeps_mode (vectorize f a).
Proof.
  intro K. unfold vectorize. destruct (adata a); [apply keeps_raise|]. apply keeps_bind; [now apply keeps_mapM|]. intro. apply keeps_ret.
Qed.
Lemma vectorize_total {A B} (f : A -> M B) a m : (forall x, keeps_mode (f x)) -> adata a <> [] ->
  (forall x, In x (adata a) -> exists y, returns (f x) m y) -> exists Z, returns (vectorize f a) m Z.
Proof.
  intros K N H. unfold vectorize. destruct (adata a) as [|x l] eqn:E; [contradiction|].
  destruct (mapM_total f (x :: l) m K H) as [ys Hys]. eexists. unfold amapM. rewrite keeps_returns by now apply keeps_mapM.
  rewrite E. exists ys. split; [exact Hys|]. now apply returns_ret.
Qed.
Lemma vectorize_empty {A B} (f : A -> M B) a m : adata a = [] -> raises (vectorize f a) m ValueError.
Proof. intro E. unfold vectorize. now rewrite E. Qed.
