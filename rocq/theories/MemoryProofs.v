(** Proofs about sharing of buffers. *)
From Coq Require Import ZArith List Bool Arith Lia.
From Verif Require Import Base PyNum Kernel Expr Arrays Construct SpecArray ArrayProofs ArrayMore ArrayItems Slices SpecSlices SlicesProofs Memory SpecMemory.
Import ListNotations.
Open Scope nat_scope.

Lemma nth_set_nth_same {A} (d v : A) : forall l k, k < length l -> nth k (set_nth k v l) d = v.
Proof. intros l k H. apply nth_error_nth. now apply set_nth_same. Qed.
Lemma nth_set_nth_other {A} (d v : A) : forall l k j, j <> k -> nth j (set_nth k v l) d = nth j l d.
Proof. induction l as [|y l IH]; intros [|k] [|j] H; simpl; auto; congruence. Qed.

(** * Well-formed results *)
Lemma mapM_length {A B} (f : A -> M B) : forall l m ys m', mapM f l m = (Ok ys, m') -> length ys = length l.
Proof.
  induction l as [|x l IH]; intros m ys m' H; simpl in H.
  - inversion H. reflexivity.
  - unfold mbind in H. destruct (f x m) as [[y|e] m1]; [|discriminate]. destruct (mapM f l m1) as [[ys'|e] m2] eqn:E; [|discriminate].
    inversion H; subst. simpl. f_equal. eapply IH; eauto.
Qed.
Lemma binop_wf {A B C} (f : A -> B -> M C) x y m Z m' : binop_arr f x y m = (Ok Z, m') -> awf Z.
Proof.
  unfold binop_arr. destruct bcast as [s|]; [|discriminate]. unfold mbind.
  destruct (mapM _ (indices s) m) as [[l|e] m1] eqn:E; [|discriminate]. intro H. inversion H; subst.
  unfold awf. cbn [adata ashape]. rewrite (mapM_length _ _ _ _ _ E). apply indices_length.
Qed.
Lemma vectorize_wf {A B} (f : A -> M B) a m Z m' : awf a -> vectorize f a m = (Ok Z, m') -> awf Z.
Proof.
  intros W. unfold vectorize. destruct (adata a) as [|x l] eqn:Ea; [discriminate|]. unfold amapM, mbind.
  destruct (mapM f (adata a) m) as [[l'|e] m1] eqn:E; [|discriminate]. intro H. inversion H; subst.
  unfold awf. cbn [adata ashape]. rewrite (mapM_length _ _ _ _ _ E). exact W.
Qed.
Lemma lift_fst (c : M (arr itv)) m z : fst (lift_arr c m) = Ok z -> exists d m', c m = (Ok d, m') /\ z = array_interval d.
Proof.
  unfold lift_arr, mbind. destruct (c m) as [[d|e] m1]; [|discriminate]. cbn. intro H. inversion H. eauto.
Qed.
Lemma fresh_consistent z d : z = array_interval d -> awf d -> consistent z.
Proof. intros -> W. split; [reflexivity|exact W]. Qed.
Lemma binary_wf rm o x y z : awf (adat x) -> binary rm o x y = Ok z -> consistent z.
Proof.
  intros W. destruct y as [c|e]; simpl.
  - intro H. apply lift_fst in H. destruct H as (d & m' & H & E). eapply fresh_consistent; [exact E|]. eapply binop_wf; exact H.
  - intro H. apply lift_fst in H. destruct H as (d & m' & H & E). eapply fresh_consistent; [exact E|]. destruct o.
    + eapply vectorize_wf; eauto.
    + eapply vectorize_wf; eauto.
    + eapply vectorize_wf; eauto.
    + unfold mbind in H. destruct (with_rounding FE_DOWNWARD _ rm) as [[i|?] m1]; [|discriminate].
      destruct (with_rounding FE_UPWARD _ m1) as [[v|?] m2]; [|discriminate]. eapply vectorize_wf; eauto.
Qed.
Lemma in_place_wf rm o x y z : awf (adat x) -> in_place rm o x y = Ok z -> awf (adat z).
Proof.
  intros W. destruct y as [c|e].
  - unfold in_place, arr_iop, mbind. destruct (binop_arr (py_op o) (op_arr x) c rm) as [[d|?] m1] eqn:E; [|discriminate].
    intro H. inversion H; subst. cbn [adat]. eapply binop_wf; eauto.
  - intro H. cbn [in_place] in H. destruct (fst (arr_op_itv o x e rm)) as [z'|?] eqn:E; [|discriminate]. inversion H; subst. cbn [adat].
    exact (proj2 (binary_wf rm o x (inr e) z' W E)).
Qed.
Lemma delitem_wf x key z : delitem x key = Ok z -> consistent z.
Proof.
  assert (N : forall a z ax d, np_delete a z ax = Ok d -> awf d).
  { intros a k ax d. unfold np_delete. destruct (nth_error (ashape a) ax) as [n|]; [|discriminate].
    destruct (norm_index n k) as [i|]; [|discriminate]. cbn [rbind]. cbv zeta. intro H. inversion H; subst. unfold awf. cbn [adata ashape].
    rewrite map_length, indices_length. reflexivity. }
  destruct key as [k|[|k zs]| |]; cbn [delitem]; try discriminate.
  - destruct (np_delete (adat x) k 0) as [d|] eqn:E; [|discriminate]. intro H. inversion H; subst. eapply fresh_consistent; [reflexivity|eauto].
  - match goal with |- context [np_delete ?a ?b ?c] => destruct (np_delete a b c) as [d|] eqn:E end; [|discriminate].
    intro H. inversion H; subst. eapply fresh_consistent; [reflexivity|eauto].
Qed.
Lemma call_wf f x z : awf (adat x) -> call f x = Ok (RArr z) -> consistent z.
Proof.
  intros W. destruct f as [| |s|key|k]; cbn [call].
  - intro H. inversion H; subst. split; [reflexivity|exact W].
  - intro H. inversion H; subst. split; [reflexivity|apply of_fun_wf].
  - unfold arr_reshape. destruct (Nat.eqb_spec (size s) (size (ashape (adat x)))) as [E|]; [|discriminate]. cbn [rbind].
    intro H. inversion H; subst. split; [reflexivity|]. unfold awf. cbn. rewrite E. exact W.
  - unfold getkey. destruct (select_key _ key) as [c|]; [|discriminate]. cbn [rbind]. unfold get_sel. destruct (sone c); intro H; inversion H; subst.
    split; [reflexivity|apply of_fun_wf].
  - unfold getmask. destruct (select_mask _ k) as [c|]; [|discriminate]. cbn [rbind]. unfold get_sel. destruct (sone c); intro H; inversion H; subst.
    split; [reflexivity|apply of_fun_wf].
Qed.
Lemma setkey_wf x key v z : awf (adat x) -> setkey x key v = Ok z -> awf (adat z) /\ ashape (adat z) = ashape (adat x) /\ shp z = shp x.
Proof.
  intros W. unfold setkey. destruct (select_key _ key) as [c|]; [|discriminate]. cbn [rbind]. unfold set_sel.
  destruct (values c v) as [f|]; [|discriminate]. cbn [rbind]. intro H. inversion H; subst. cbn [adat shp]. split; [|split; reflexivity].
  unfold awf, write. cbn [adata ashape]. exact (proj1 (fold_write (ashape (adat x)) (ssrc c) f (indices (sshape c)) (adata (adat x)) W)).
Qed.

(** * The invariant *)
Definition buf_of (m : mem) (o : nat) : nat := fst (nth o (objs m) (0, [])).
Definition view_ok (m : mem) (x : val) : Prop :=
  match x with
  | Obj o => o < length (objs m)
  | Elt _ => True
  | View b sh src => b < length (bufs m) /\ forall idx, in_bounds sh idx -> in_bounds (ashape (buffer m b)) (src idx)
  end.
Record inv (m : mem) : Prop := mkinv {
  inv_objs : forall o, o < length (objs m) -> buf_of m o < length (bufs m);
  inv_sep : forall o o', o < length (objs m) -> o' < length (objs m) -> buf_of m o = buf_of m o' -> o = o';
  inv_vars : forall v x, vars m v = Some x -> view_ok m x;
  inv_wf : forall b, b < length (bufs m) -> awf (buffer m b) }.
Lemma inv_start : inv start.
Proof. constructor; simpl; intros; try lia; discriminate. Qed.
Lemma object_buf m o : object m o = mkaitv (buffer m (buf_of m o)) (snd (nth o (objs m) (0, []))).
Proof. reflexivity. Qed.
Lemma object_wf m o : inv m -> o < length (objs m) -> awf (adat (object m o)).
Proof. intros I Ho. apply (inv_wf m I). now apply (inv_objs m I). Qed.

Lemma bind_inv m v x : inv m -> view_ok m x -> inv (bind m v x).
Proof.
  intros [I1 I2 I3 I4] Vx. constructor; simpl; auto.
  intros u y. destruct (u =? v); [intro H; inversion H; subst; exact Vx | apply I3].
Qed.
Lemma buffer_app m a b : b < length (bufs m) -> nth b (bufs m ++ [a]) (mkarr [] []) = buffer m b.
Proof. intro H. now apply app_nth1. Qed.
Lemma view_ok_more m a os vs x : length (objs m) <= length os -> view_ok m x -> view_ok (mkmem (bufs m ++ [a]) os vs) x.
Proof.
  intros L. destruct x as [o|e|b sh src]; simpl; [lia|auto|]. intros [Hb H]. rewrite app_length. simpl. split; [lia|].
  unfold buffer. simpl. rewrite buffer_app by assumption. exact H.
Qed.
Lemma alloc_inv m v a : inv m -> awf a -> inv (alloc m v a).
Proof.
  intros [I1 I2 I3 I4] Wa. unfold alloc. apply bind_inv.
  - constructor.
    + cbn [objs bufs]. unfold buf_of. cbn [objs]. intros o. rewrite !app_length. simpl. intro Ho. destruct (Nat.eq_dec o (length (objs m))) as [->|N].
      * rewrite app_nth2, Nat.sub_diag by lia. simpl. lia.
      * rewrite app_nth1 by lia. assert (o < length (objs m)) by lia. specialize (I1 o H). unfold buf_of in I1. lia.
    + cbn [objs bufs]. unfold buf_of. cbn [objs]. intros o o'. rewrite !app_length. simpl. intros Ho Ho'.
      assert (A : forall k, k < length (objs m) -> fst (nth k (objs m ++ [(length (bufs m), ashape a)]) (0, [])) < length (bufs m)).
      { intros k Hk. rewrite app_nth1 by assumption. now apply I1. }
      assert (B : fst (nth (length (objs m)) (objs m ++ [(length (bufs m), ashape a)]) (0, [])) = length (bufs m)).
      { rewrite app_nth2, Nat.sub_diag by lia. reflexivity. }
      intro E. destruct (Nat.eq_dec o (length (objs m))) as [->|N]; destruct (Nat.eq_dec o' (length (objs m))) as [->|N']; try reflexivity.
      * assert (Lt := A o' ltac:(lia)). lia.
      * assert (Lt := A o ltac:(lia)). lia.
      * rewrite !app_nth1 in E by lia. apply I2; [lia|lia|exact E].
    + cbn [vars]. intros u y Hu. apply view_ok_more; [rewrite app_length; lia | now apply (I3 u)].
    + cbn [bufs]. intros b. rewrite app_length. simpl. intro Hb. unfold buffer. cbn [bufs]. destruct (Nat.eq_dec b (length (bufs m))) as [->|N].
      * rewrite app_nth2, Nat.sub_diag by lia. exact Wa.
      * rewrite app_nth1 by lia. apply I4. lia.
  - simpl. rewrite app_length. simpl. lia.
Qed.
Lemma rebind_inv m o a s : inv m -> awf a -> inv (rebind m o a s).
Proof.
  intros [I1 I2 I3 I4] Wa. unfold rebind. constructor.
  - cbn [objs bufs]. unfold buf_of. cbn [objs]. intros k. rewrite set_nth_length, app_length. simpl. intro Hk. destruct (Nat.eq_dec k o) as [->|N].
    + rewrite nth_set_nth_same by assumption. simpl. lia.
    + rewrite nth_set_nth_other by assumption. specialize (I1 k Hk). unfold buf_of in I1. lia.
  - cbn [objs bufs]. unfold buf_of. cbn [objs]. intros k k'. rewrite set_nth_length. intros Hk Hk' E.
    assert (A : forall j, j < length (objs m) -> j <> o -> fst (nth j (set_nth o (length (bufs m), s) (objs m)) (0, [])) < length (bufs m)).
    { intros j Hj Nj. rewrite nth_set_nth_other by assumption. now apply I1. }
    destruct (Nat.eq_dec k o) as [->|N]; destruct (Nat.eq_dec k' o) as [->|N']; try reflexivity.
    + assert (Lt := A k' Hk' N'). rewrite nth_set_nth_same in E by assumption. simpl in E. lia.
    + assert (Lt := A k Hk N). rewrite (nth_set_nth_same _ _ _ o) in E by assumption. simpl in E. lia.
    + rewrite !nth_set_nth_other in E by assumption. apply I2; assumption.
  - cbn [vars]. intros u y Hu. apply view_ok_more; [rewrite set_nth_length; lia | now apply (I3 u)].
  - cbn [bufs]. intros b. rewrite app_length. simpl. intro Hb. unfold buffer. cbn [bufs]. destruct (Nat.eq_dec b (length (bufs m))) as [->|N].
    + rewrite app_nth2, Nat.sub_diag by lia. exact Wa.
    + rewrite app_nth1 by lia. apply I4. lia.
Qed.
Lemma store_inv m b a : inv m -> awf a -> ashape a = ashape (buffer m b) -> inv (store m b a).
Proof.
  intros [I1 I2 I3 I4] Wa Es. unfold store. constructor.
  - cbn [objs bufs]. intros o Ho. rewrite set_nth_length. exact (I1 o Ho).
  - exact I2.
  - cbn [vars]. intros u y Hu. specialize (I3 u y Hu). destruct y as [o|e|b' sh src]; simpl in *; auto.
    rewrite set_nth_length. destruct I3 as [Hb' H]. split; [assumption|]. unfold buffer. cbn [bufs]. destruct (Nat.eq_dec b' b) as [->|N].
    + rewrite nth_set_nth_same by assumption. rewrite Es. exact H.
    + rewrite nth_set_nth_other by assumption. exact H.
  - cbn [bufs]. intros b'. rewrite set_nth_length. intro Hb'. unfold buffer. cbn [bufs]. destruct (Nat.eq_dec b' b) as [->|N].
    + rewrite nth_set_nth_same by assumption. exact Wa.
    + rewrite nth_set_nth_other by assumption. now apply I4.
Qed.
Lemma get_obj_some m w o : get_obj m w = Ok o <-> vars m w = Some (Obj o).
Proof.
  unfold get_obj. destruct (vars m w) as [[o'|e|b sh src]|]; split; intro H; try discriminate; inversion H; reflexivity.
Qed.
Lemma piece_inv m v b sh src i m' : inv m -> view_ok m (View b sh src) -> piece m v b sh src i = Ok m' -> inv m'.
Proof.
  intros I [Hb H]. unfold piece. destruct sh as [|n s]; [discriminate|]. destruct (Nat.ltb_spec i n) as [L|]; [|discriminate].
  intro E. inversion E; subst. apply bind_inv; [assumption|]. destruct s as [|n' s]; [exact Logic.I|]. split; [assumption|].
  intros idx B. apply H. apply in_bounds_cons. auto.
Qed.
Lemma exec_inv rm m c m' : inv m -> given_ok c -> exec rm m c = Ok m' -> inv m'.
Proof.
  intros I G E. destruct c as [v a|v w|v w|v f w|v p w y|w key y|p w y|w key|v w|v w i|w idx e]; cbn [exec] in E.
  - inversion E; subst. now apply alloc_inv.
  - destruct (vars m w) as [x|] eqn:Ew; [|discriminate]. inversion E; subst. apply bind_inv; [assumption|]. exact (inv_vars m I w x Ew).
  - destruct (vars m w) as [[o|e|b sh src]|] eqn:Ew; [| | |discriminate]; inversion E; subst.
    + apply bind_inv; [assumption|]. exact (inv_vars m I w _ Ew).
    + apply bind_inv; [assumption|]. exact Logic.I.
    + apply alloc_inv; [assumption|]. apply of_fun_wf.
  - destruct (get_obj m w) as [o|] eqn:Eo; [|discriminate]. cbn [rbind] in E. apply get_obj_some in Eo. assert (Ho := inv_vars m I w _ Eo). simpl in Ho.
    destruct (call f (object m o)) as [r|] eqn:Er; [|discriminate]. cbn [rbind] in E. inversion E; subst. destruct r as [e|z]; simpl.
    + apply bind_inv; [assumption|exact Logic.I].
    + apply alloc_inv; [assumption|]. exact (proj2 (call_wf f _ z (object_wf m o I Ho) Er)).
  - destruct (get_obj m w) as [o|] eqn:Eo; [|discriminate]. cbn [rbind] in E. apply get_obj_some in Eo. assert (Ho := inv_vars m I w _ Eo). simpl in Ho.
    destruct (operand_of m y) as [c|]; [|discriminate]. cbn [rbind] in E. destruct (binary rm p (object m o) c) as [z|] eqn:Er; [|discriminate]. cbn [rbind] in E.
    inversion E; subst. apply alloc_inv; [assumption|]. exact (proj2 (binary_wf rm p _ c z (object_wf m o I Ho) Er)).
  - destruct (get_obj m w) as [o|] eqn:Eo; [|discriminate]. cbn [rbind] in E. apply get_obj_some in Eo. assert (Ho := inv_vars m I w _ Eo). simpl in Ho.
    destruct (setval_of m y) as [c|]; [|discriminate]. cbn [rbind] in E. destruct (setkey (object m o) key c) as [z|] eqn:Er; [|discriminate]. cbn [rbind] in E.
    inversion E; subst. destruct (setkey_wf _ key c z (object_wf m o I Ho) Er) as (Wz & Sz & _). apply store_inv; assumption.
  - destruct (get_obj m w) as [o|] eqn:Eo; [|discriminate]. cbn [rbind] in E. apply get_obj_some in Eo. assert (Ho := inv_vars m I w _ Eo). simpl in Ho.
    destruct (operand_of m y) as [c|]; [|discriminate]. cbn [rbind] in E. destruct (in_place rm p (object m o) c) as [z|] eqn:Er; [|discriminate]. cbn [rbind] in E.
    inversion E; subst. apply rebind_inv; [assumption|]. exact (in_place_wf rm p _ c z (object_wf m o I Ho) Er).
  - destruct (get_obj m w) as [o|] eqn:Eo; [|discriminate]. cbn [rbind] in E. destruct (delitem (object m o) key) as [z|] eqn:Er; [|discriminate]. cbn [rbind] in E.
    inversion E; subst. apply rebind_inv; [assumption|]. exact (proj2 (delitem_wf _ _ _ Er)).
  - destruct (get_obj m w) as [o|] eqn:Eo; [|discriminate]. cbn [rbind] in E. apply get_obj_some in Eo. assert (Ho := inv_vars m I w _ Eo). simpl in Ho.
    inversion E; subst. apply bind_inv; [assumption|]. split; [exact (inv_objs m I o Ho)|]. auto.
  - destruct (vars m w) as [[o|e|b sh src]|] eqn:Ew; try discriminate.
    + assert (Ho := inv_vars m I w _ Ew). simpl in Ho. apply (piece_inv _ _ _ _ _ _ _ I) in E; [assumption|]. split; [exact (inv_objs m I o Ho)|auto].
    + apply (piece_inv _ _ _ _ _ _ _ I) in E; [assumption|]. exact (inv_vars m I w _ Ew).
  - destruct (vars m w) as [[o|e'|b sh src]|] eqn:Ew; try discriminate. destruct (inv_vars m I w _ Ew) as [Hb _].
    destruct (flat sh idx); [|discriminate]. destruct (flat _ (src idx)) as [k|] eqn:F; [|discriminate]. inversion E; subst.
    apply store_inv; [assumption| |reflexivity]. unfold awf. cbn [adata ashape]. rewrite set_nth_length. exact (inv_wf m I b Hb).
Qed.
Lemma step_inv rm m c : inv m -> given_ok c -> inv (step rm m c).
Proof. intros I G. unfold step. destruct (exec rm m c) as [m'|] eqn:E; [eapply exec_inv; eauto | assumption]. Qed.
Lemma steps_inv rm p : forall m, inv m -> Forall given_ok p -> inv (fold_left (step rm) p m).
Proof. induction p as [|c p IH]; intros m I F; [assumption|]. inversion F; subst. simpl. apply IH; [now apply step_inv | assumption]. Qed.
Lemma run_inv rm p : Forall given_ok p -> inv (run rm p).
Proof. intro F. apply steps_inv; [apply inv_start | assumption]. Qed.

(** * What a command leaves alone *)
Definition touches (m : mem) (c : cmd) (o : nat) : Prop :=
  exists w, vars m w = Some (Obj o) /\ through c w \/
            exists idx e sh src, c = Put w idx e /\ vars m w = Some (View (buf_of m o) sh src).
Lemma object_ext m m' o : nth o (objs m') (0, []) = nth o (objs m) (0, []) -> buffer m' (buf_of m o) = buffer m (buf_of m o) -> object m' o = object m o.
Proof. intros E B. unfold object, buf_of in *. rewrite E, B. reflexivity. Qed.
Lemma alloc_old m v a o : inv m -> o < length (objs m) ->
  object (alloc m v a) o = object m o /\ buf_of (alloc m v a) o = buf_of m o.
Proof.
  intros I Ho. assert (E : nth o (objs (alloc m v a)) (0, []) = nth o (objs m) (0, [])) by (cbn; now apply app_nth1).
  split; [|unfold buf_of; now rewrite E]. apply object_ext; [exact E|]. unfold buffer. cbn. apply app_nth1. exact (inv_objs m I o Ho).
Qed.
Lemma alloc_new m v a : object (alloc m v a) (length (objs m)) = array_interval a.
Proof.
  unfold object, buffer. cbn [alloc bind objs bufs]. rewrite (app_nth2 (objs m)) by lia. rewrite Nat.sub_diag. cbn [nth fst snd].
  rewrite app_nth2 by lia. rewrite Nat.sub_diag. reflexivity.
Qed.
Lemma rebind_old m k a s o : inv m -> o < length (objs m) -> o <> k ->
  object (rebind m k a s) o = object m o /\ buf_of (rebind m k a s) o = buf_of m o.
Proof.
  intros I Ho N. assert (E : nth o (objs (rebind m k a s)) (0, []) = nth o (objs m) (0, [])) by (cbn; now apply nth_set_nth_other).
  split; [|unfold buf_of; now rewrite E]. apply object_ext; [exact E|]. unfold buffer. cbn. apply app_nth1. exact (inv_objs m I o Ho).
Qed.
Lemma rebind_new m k a s : k < length (objs m) -> object (rebind m k a s) k = mkaitv a s.
Proof.
  intro Hk. unfold object, buffer. cbn [rebind objs bufs]. rewrite nth_set_nth_same by assumption. cbn [fst snd].
  rewrite app_nth2 by lia. rewrite Nat.sub_diag. reflexivity.
Qed.
Lemma store_old m b a o : buf_of m o <> b -> object (store m b a) o = object m o.
Proof. intro N. apply object_ext; [reflexivity|]. unfold buffer. cbn. now apply nth_set_nth_other. Qed.
Lemma store_new m b a o : b < length (bufs m) -> buf_of m o = b -> object (store m b a) o = mkaitv a (shp (object m o)).
Proof. intros Hb E. unfold object, buffer, buf_of in *. cbn [store objs bufs]. rewrite E, nth_set_nth_same by assumption. reflexivity. Qed.
Lemma piece_objs m v b sh src i m' : piece m v b sh src i = Ok m' -> objs m' = objs m /\ bufs m' = bufs m.
Proof. unfold piece. destruct sh as [|n s]; [discriminate|]. destruct (i <? n); [|discriminate]. intro E. inversion E; subst. split; reflexivity. Qed.

Lemma exec_frame rm m c m' : inv m -> exec rm m c = Ok m' ->
  length (objs m) <= length (objs m') /\ length (bufs m) <= length (bufs m') /\
  forall o, o < length (objs m) ->
    (~ touches m c o -> object m' o = object m o) /\
    ((forall w, replaces c w -> vars m w <> Some (Obj o)) -> buf_of m' o = buf_of m o).
Proof.
  intros I E.
  assert (Al : forall v a, length (objs m) <= length (objs (alloc m v a)) /\ length (bufs m) <= length (bufs (alloc m v a)) /\
    forall o, o < length (objs m) -> (~ touches m c o -> object (alloc m v a) o = object m o) /\ ((forall w, replaces c w -> vars m w <> Some (Obj o)) -> buf_of (alloc m v a) o = buf_of m o)).
  { intros v a. cbn. rewrite !app_length. split; [lia|]. split; [lia|]. intros o Ho. destruct (alloc_old m v a o I Ho). auto. }
  assert (Bi : forall m', objs m' = objs m -> bufs m' = bufs m -> length (objs m) <= length (objs m') /\ length (bufs m) <= length (bufs m') /\
    forall o, o < length (objs m) -> (~ touches m c o -> object m' o = object m o) /\ ((forall w, replaces c w -> vars m w <> Some (Obj o)) -> buf_of m' o = buf_of m o)).
  { intros m1 E1 E2. rewrite E1, E2. split; [lia|]. split; [lia|]. intros o Ho. unfold object, buf_of, buffer. rewrite E1, E2. auto. }
  destruct c as [v a|v w|v w|v f w|v p w y|w key y|p w y|w key|v w|v w i|w idx e]; cbn [exec] in E.
  - inversion E; subst. apply Al.
  - destruct (vars m w) as [x|] eqn:Ew; [|discriminate]. inversion E; subst. now apply Bi.
  - destruct (vars m w) as [[o|e|b sh src]|] eqn:Ew; [| | |discriminate]; inversion E; subst; [now apply Bi|now apply Bi|apply Al].
  - destruct (get_obj m w) as [o|] eqn:Eo; [|discriminate]. cbn [rbind] in E.
    destruct (call f (object m o)) as [r|] eqn:Er; [|discriminate]. cbn [rbind] in E. inversion E; subst. destruct r as [e|z]; [apply (Bi (bind m v (Elt e))); reflexivity|apply (Al v (adat z))].
  - destruct (get_obj m w) as [o|] eqn:Eo; [|discriminate]. cbn [rbind] in E.
    destruct (operand_of m y) as [c|]; [|discriminate]. cbn [rbind] in E. destruct (binary rm p (object m o) c) as [z|] eqn:Er; [|discriminate]. cbn [rbind] in E.
    inversion E; subst. apply Al.
  - destruct (get_obj m w) as [o|] eqn:Eo; [|discriminate]. cbn [rbind] in E. apply get_obj_some in Eo. assert (Ho := inv_vars m I w _ Eo). simpl in Ho.
    destruct (setval_of m y) as [c|]; [|discriminate]. cbn [rbind] in E. destruct (setkey (object m o) key c) as [z|] eqn:Er; [|discriminate]. cbn [rbind] in E.
    inversion E; subst. cbn [store objs bufs]. rewrite set_nth_length. split; [lia|]. split; [lia|]. intros k Hk. split; [|reflexivity].
    intro T. apply store_old. fold (buf_of m o). intro Eb. apply (inv_sep m I k o Hk Ho) in Eb. subst k. apply T. exists w. left. split; [assumption|reflexivity].
  - destruct (get_obj m w) as [o|] eqn:Eo; [|discriminate]. cbn [rbind] in E. apply get_obj_some in Eo.
    destruct (operand_of m y) as [c|]; [|discriminate]. cbn [rbind] in E. destruct (in_place rm p (object m o) c) as [z|] eqn:Er; [|discriminate]. cbn [rbind] in E.
    inversion E; subst. cbn [rebind objs bufs]. rewrite set_nth_length, app_length. split; [lia|]. split; [lia|]. intros k Hk. split.
    + intro T. apply rebind_old; try assumption. intros ->. apply T. exists w. left. split; [assumption|reflexivity].
    + intro T. apply rebind_old; try assumption. intros ->. now apply (T w).
  - destruct (get_obj m w) as [o|] eqn:Eo; [|discriminate]. cbn [rbind] in E. apply get_obj_some in Eo.
    destruct (delitem (object m o) key) as [z|] eqn:Er; [|discriminate]. cbn [rbind] in E.
    inversion E; subst. cbn [rebind objs bufs]. rewrite set_nth_length, app_length. split; [lia|]. split; [lia|]. intros k Hk. split.
    + intro T. apply rebind_old; try assumption. intros ->. apply T. exists w. left. split; [assumption|reflexivity].
    + intro T. apply rebind_old; try assumption. intros ->. now apply (T w).
  - destruct (get_obj m w) as [o|] eqn:Eo; [|discriminate]. cbn [rbind] in E. inversion E; subst. now apply Bi.
  - destruct (vars m w) as [[o|e|b sh src]|] eqn:Ew; try discriminate; apply piece_objs in E; destruct E; now apply Bi.
  - destruct (vars m w) as [[o|e'|b sh src]|] eqn:Ew; try discriminate.
    destruct (flat sh idx); [|discriminate]. destruct (flat _ (src idx)) as [k|] eqn:F; [|discriminate]. inversion E; subst.
    cbn [store objs bufs]. rewrite set_nth_length. split; [lia|]. split; [lia|]. intros o Ho. split; [|reflexivity].
    intro T. apply store_old. intro Eb. apply T. exists w. right. exists idx, e, sh, src. split; [reflexivity|]. now rewrite Eb.
Qed.
Lemma exec_vars rm m c m' v : exec rm m c = Ok m' -> target c <> Some v -> vars m' v = vars m v.
Proof.
  intros E T.
  assert (Bi : forall m0 u x, vars m0 = vars m -> Some u <> Some v -> vars (bind m0 u x) v = vars m v).
  { intros m0 u x E0 N. cbn. destruct (Nat.eqb_spec v u) as [->|]; [congruence|]. now rewrite E0. }
  destruct c as [u a|u w|u w|u f w|u p w y|w key y|p w y|w key|u w|u w i|w idx e]; cbn [exec target] in E, T.
  - inversion E; subst. now apply Bi.
  - destruct (vars m w) as [x|]; [|discriminate]. inversion E; subst. now apply Bi.
  - destruct (vars m w) as [[o|e|b sh src]|]; [| | |discriminate]; inversion E; subst; now apply Bi.
  - destruct (get_obj m w) as [o|]; [|discriminate]. cbn [rbind] in E. destruct (call f (object m o)) as [r|]; [|discriminate]. cbn [rbind] in E.
    inversion E; subst. destruct r as [e|z]; now apply Bi.
  - destruct (get_obj m w) as [o|]; [|discriminate]. cbn [rbind] in E. destruct (operand_of m y) as [c|]; [|discriminate]. cbn [rbind] in E.
    destruct (binary rm p (object m o) c) as [z|]; [|discriminate]. cbn [rbind] in E. inversion E; subst. now apply Bi.
  - destruct (get_obj m w) as [o|]; [|discriminate]. cbn [rbind] in E. destruct (setval_of m y) as [c|]; [|discriminate]. cbn [rbind] in E.
    destruct (setkey (object m o) key c) as [z|]; [|discriminate]. cbn [rbind] in E. inversion E; subst. reflexivity.
  - destruct (get_obj m w) as [o|]; [|discriminate]. cbn [rbind] in E. destruct (operand_of m y) as [c|]; [|discriminate]. cbn [rbind] in E.
    destruct (in_place rm p (object m o) c) as [z|]; [|discriminate]. cbn [rbind] in E. inversion E; subst. reflexivity.
  - destruct (get_obj m w) as [o|]; [|discriminate]. cbn [rbind] in E. destruct (delitem (object m o) key) as [z|]; [|discriminate]. cbn [rbind] in E. inversion E; subst. reflexivity.
  - destruct (get_obj m w) as [o|]; [|discriminate]. cbn [rbind] in E. inversion E; subst. now apply Bi.
  - assert (Pi : forall b sh src, piece m u b sh src i = Ok m' -> vars m' v = vars m v).
    { intros b sh src. unfold piece. destruct sh as [|n s]; [discriminate|]. destruct (i <? n); [|discriminate]. intro E1. inversion E1; subst. now apply Bi. }
    destruct (vars m w) as [[o|e|b sh src]|]; try discriminate; eapply Pi; eassumption.
  - destruct (vars m w) as [[o|e'|b sh src]|]; try discriminate.
    destruct (flat sh idx); [|discriminate]. destruct (flat _ (src idx)) as [k|]; [|discriminate]. inversion E; subst. reflexivity.
Qed.

(** * Every object has a value of its own *)
Definition val_rel (x : option val) (y : option thing) : Prop :=
  match x, y with
  | Some (Obj o), Some (TObj o') => o = o'
  | Some (Elt e), Some (TElt e') => e = e'
  | None, None => True
  | _, _ => False
  end.
Record refines (m : mem) (w : world) : Prop := mkref {
  ref_len : length (objs m) = length (things w);
  ref_val : forall o, o < length (objs m) -> object m o = thing_at w o;
  ref_env : forall v, val_rel (vars m v) (names w v) }.
Lemma ref_bind m w v x y : refines m w -> val_rel (Some x) (Some y) -> refines (bind m v x) (name w v y).
Proof.
  intros [L V N] R. constructor; [exact L|exact V|]. intro u. cbn. destruct (u =? v); [exact R|apply N].
Qed.
Lemma ref_alloc m w v a z : inv m -> refines m w -> z = array_interval a -> refines (alloc m v a) (add w v z).
Proof.
  intros I [L V N] Ez. constructor.
  - cbn. rewrite !app_length. simpl. lia.
  - intros o Ho. cbn in Ho. rewrite app_length in Ho. simpl in Ho. destruct (Nat.eq_dec o (length (objs m))) as [->|Ne].
    + rewrite alloc_new. unfold thing_at. cbn. rewrite L, app_nth2, Nat.sub_diag by lia. symmetry. exact Ez.
    + destruct (alloc_old m v a o I ltac:(lia)) as [-> _]. rewrite V by lia. unfold thing_at. cbn. rewrite app_nth1 by lia. reflexivity.
  - intro u. cbn. destruct (u =? v); [exact L|apply N].
Qed.
Lemma ref_change m m' w o z : refines m w -> objs m' = objs m \/ length (objs m') = length (objs m) -> o < length (objs m) -> vars m' = vars m ->
  object m' o = z -> (forall k, k < length (objs m) -> k <> o -> object m' k = object m k) -> refines m' (change w o z).
Proof.
  intros [L V N] E Ho Ev Ez Ek. assert (El : length (objs m') = length (objs m)) by (destruct E as [->|]; congruence). constructor.
  - cbn. rewrite set_nth_length. lia.
  - intros k Hk. unfold thing_at. cbn. destruct (Nat.eq_dec k o) as [->|Ne].
    + rewrite nth_set_nth_same by lia. exact Ez.
    + rewrite nth_set_nth_other by assumption. rewrite Ek by lia. apply V. lia.
  - intro v. rewrite Ev. apply N.
Qed.
Lemma ref_find m w v : refines m w -> get_obj m v = find w v.
Proof.
  intros [_ _ N]. specialize (N v). unfold get_obj, find. destruct (vars m v) as [[o|e|b sh src]|]; destruct (names w v) as [[o'|e']|]; simpl in N; try contradiction; congruence.
Qed.
Lemma ref_operand m w y : inv m -> refines m w -> operand_of m y = w_operand w y.
Proof.
  intros I [_ V N]. destruct y as [u|c]; [|reflexivity]. specialize (N u). cbn [operand_of w_operand setval_of w_setval]. assert (Iv := inv_vars m I u).
  destruct (vars m u) as [[o|e|b sh src]|]; destruct (names w u) as [[o'|e']|]; simpl in N; try contradiction; subst; try reflexivity.
  rewrite V; [reflexivity|]. exact (Iv _ eq_refl).
Qed.
Lemma ref_setval m w y : inv m -> refines m w -> setval_of m y = w_setval w y.
Proof.
  intros I [_ V N]. destruct y as [u|c]; [|reflexivity]. specialize (N u). cbn [operand_of w_operand setval_of w_setval]. assert (Iv := inv_vars m I u).
  destruct (vars m u) as [[o|e|b sh src]|]; destruct (names w u) as [[o'|e']|]; simpl in N; try contradiction; subst; try reflexivity.
  rewrite V; [reflexivity|]. exact (Iv _ eq_refl).
Qed.
Lemma consistent_fresh z : consistent z -> z = array_interval (adat z).
Proof. destruct z as [a s]. intros [E _]. simpl in *. now subst s. Qed.
Lemma exec_refines rm m w c : inv m -> refines m w -> pure_cmd c ->
  match exec rm m c, w_exec rm w c with
  | Ok m', Ok w' => refines m' w'
  | Err e, Err e' => e = e'
  | _, _ => False
  end.
Proof.
  intros I R P. destruct c as [v a|v u|v u|v f u|v p u y|u key y|p u y|u key|v u|v u i|u idx e]; try contradiction; cbn [exec w_exec].
  - now apply ref_alloc.
  - assert (N := ref_env m w R u). destruct (vars m u) as [x|]; destruct (names w u) as [x'|]; simpl in N; try contradiction.
    + now apply ref_bind.
    + destruct x; contradiction.
    + reflexivity.
  - assert (N := ref_env m w R u). destruct (vars m u) as [[o|e|b sh src]|]; destruct (names w u) as [[o'|e']|]; simpl in N; try contradiction; try reflexivity; now apply ref_bind.
  - rewrite (ref_find m w u R). destruct (find w u) as [o|] eqn:Eo; [|reflexivity]. cbn [rbind]. rewrite <- (ref_find m w u R) in Eo. apply get_obj_some in Eo.
    assert (Ho := inv_vars m I u _ Eo). simpl in Ho. rewrite <- (ref_val m w R o Ho).
    destruct (call f (object m o)) as [r|] eqn:Er; [|reflexivity]. cbn [rbind]. destruct r as [e|z]; simpl.
    + now apply ref_bind.
    + apply ref_alloc; try assumption. apply consistent_fresh. exact (call_wf f _ z (object_wf m o I Ho) Er).
  - rewrite (ref_find m w u R). destruct (find w u) as [o|] eqn:Eo; [|reflexivity]. cbn [rbind]. rewrite <- (ref_find m w u R) in Eo. apply get_obj_some in Eo.
    assert (Ho := inv_vars m I u _ Eo). simpl in Ho. rewrite <- (ref_val m w R o Ho). rewrite (ref_operand m w y I R).
    destruct (w_operand w y) as [c|]; [|reflexivity]. cbn [rbind]. destruct (binary rm p (object m o) c) as [z|] eqn:Er; [|reflexivity]. cbn [rbind].
    apply ref_alloc; try assumption. apply consistent_fresh. exact (binary_wf rm p _ c z (object_wf m o I Ho) Er).
  - rewrite (ref_find m w u R). destruct (find w u) as [o|] eqn:Eo; [|reflexivity]. cbn [rbind]. rewrite <- (ref_find m w u R) in Eo. apply get_obj_some in Eo.
    assert (Ho := inv_vars m I u _ Eo). simpl in Ho. rewrite <- (ref_val m w R o Ho). rewrite (ref_setval m w y I R).
    destruct (w_setval w y) as [c|]; [|reflexivity]. cbn [rbind]. destruct (setkey (object m o) key c) as [z|] eqn:Er; [|reflexivity]. cbn [rbind].
    destruct (setkey_wf _ key c z (object_wf m o I Ho) Er) as (Wz & Sz & Hz). fold (buf_of m o).
    apply (ref_change m); auto.
    + rewrite store_new; [|exact (inv_objs m I o Ho)|reflexivity]. rewrite <- Hz. now destruct z.
    + intros k Hk Nk. apply store_old. intro Eb. apply Nk. exact (inv_sep m I k o Hk Ho Eb).
  - rewrite (ref_find m w u R). destruct (find w u) as [o|] eqn:Eo; [|reflexivity]. cbn [rbind]. rewrite <- (ref_find m w u R) in Eo. apply get_obj_some in Eo.
    assert (Ho := inv_vars m I u _ Eo). simpl in Ho. rewrite <- (ref_val m w R o Ho). rewrite (ref_operand m w y I R).
    destruct (w_operand w y) as [c|]; [|reflexivity]. cbn [rbind]. destruct (in_place rm p (object m o) c) as [z|] eqn:Er; [|reflexivity]. cbn [rbind].
    apply (ref_change m); auto.
    + right. cbn. apply set_nth_length.
    + rewrite rebind_new by assumption. now destruct z.
    + intros k Hk Nk. now apply rebind_old.
  - rewrite (ref_find m w u R). destruct (find w u) as [o|] eqn:Eo; [|reflexivity]. cbn [rbind]. rewrite <- (ref_find m w u R) in Eo. apply get_obj_some in Eo.
    assert (Ho := inv_vars m I u _ Eo). simpl in Ho. rewrite <- (ref_val m w R o Ho).
    destruct (delitem (object m o) key) as [z|] eqn:Er; [|reflexivity]. cbn [rbind].
    apply (ref_change m); auto.
    + right. cbn. apply set_nth_length.
    + rewrite rebind_new by assumption. now destruct z.
    + intros k Hk Nk. now apply rebind_old.
Qed.
Lemma steps_refine rm : forall p m w, inv m -> refines m w -> Forall pure_cmd p -> Forall given_ok p ->
  refines (fold_left (step rm) p m) (fold_left (w_step rm) p w) /\ outcomes rm m p = w_outcomes rm w p.
Proof.
  induction p as [|c p IH]; intros m w I R P G; [auto|]. inversion P; subst. inversion G; subst. simpl.
  assert (E := exec_refines rm m w c I R ltac:(assumption)).
  assert (I' := step_inv rm m c I ltac:(assumption)).
  assert (R' : refines (step rm m c) (w_step rm w c)).
  { unfold step, w_step. destruct (exec rm m c) as [m'|]; destruct (w_exec rm w c) as [w'|]; try contradiction; assumption. }
  destruct (IH _ _ I' R' ltac:(assumption) ltac:(assumption)) as [A B]. split; [exact A|]. rewrite B. f_equal.
  destruct (exec rm m c) as [m'|]; destruct (w_exec rm w c) as [w'|]; try contradiction; simpl; congruence.
Qed.
Lemma objects_have_values rm p : Forall pure_cmd p -> Forall given_ok p ->
  (forall v, show (run rm p) v = w_show (w_run rm p) v) /\
  (forall v u, is_same (run rm p) v u <-> w_is_same (w_run rm p) v u) /\
  outcomes rm start p = w_outcomes rm no_world p.
Proof.
  intros P G. assert (R0 : refines start no_world) by (constructor; simpl; intros; [reflexivity|lia|exact Logic.I]).
  destruct (steps_refine rm p start no_world inv_start R0 P G) as [R O]. fold (run rm p) in R. fold (w_run rm p) in R.
  assert (I := run_inv rm p G). split; [|split; [|exact O]].
  - intro v. assert (N := ref_env _ _ R v). unfold show, w_show. assert (Iv := inv_vars _ I v).
    destruct (vars (run rm p) v) as [[o|e|b sh src]|]; destruct (names (w_run rm p) v) as [[o'|e']|]; simpl in N; try contradiction; subst; try reflexivity.
    rewrite (ref_val _ _ R); [reflexivity|]. exact (Iv _ eq_refl).
  - intros v u. assert (Nv := ref_env _ _ R v). assert (Nu := ref_env _ _ R u). unfold is_same, w_is_same. split; intros (o & Hv & Hu).
    + rewrite Hv in Nv. rewrite Hu in Nu. destruct (names (w_run rm p) v) as [[ov|]|]; simpl in Nv; try contradiction.
      destruct (names (w_run rm p) u) as [[ou|]|]; simpl in Nu; try contradiction. exists o. now subst.
    + rewrite Hv in Nv. rewrite Hu in Nu. destruct (vars (run rm p) v) as [[ov|?|? ? ?]|]; simpl in Nv; try contradiction.
      destruct (vars (run rm p) u) as [[ou|?|? ? ?]|]; simpl in Nu; try contradiction. exists o. now subst.
Qed.

(** * Numpy arrays that share a buffer *)
Lemma put_spec rm m h b sh src idx e : inv m -> vars m h = Some (View b sh src) -> in_bounds sh idx ->
  exists m', exec rm m (Put h idx e) = Ok m' /\ vars m' = vars m /\ objs m' = objs m /\
    (forall o, o < length (objs m) -> buf_of m o = b ->
       shp (object m' o) = shp (object m o) /\ ashape (adat (object m' o)) = ashape (adat (object m o)) /\
       aget (adat (object m' o)) (src idx) = Some e /\
       forall p, p <> src idx -> aget (adat (object m' o)) p = aget (adat (object m o)) p) /\
    (forall o, buf_of m o <> b -> object m' o = object m o).
Proof.
  intros I Hv B. destruct (inv_vars m I h _ Hv) as [Hb Hs]. cbn [exec]. rewrite Hv.
  assert (F1 := proj1 (in_bounds_flat _ _) B). destruct F1 as [k1 F1]. rewrite F1.
  assert (F2 := proj1 (in_bounds_flat _ _) (Hs idx B)). destruct F2 as [k F2]. rewrite F2.
  eexists. split; [reflexivity|]. split; [reflexivity|]. split; [reflexivity|]. split.
  - intros o Ho Eb. rewrite store_new by assumption. cbn [shp adat]. split; [reflexivity|].
    assert (Ea : adat (object m o) = buffer m b) by (rewrite object_buf, Eb; reflexivity). rewrite Ea. split; [reflexivity|].
    assert (W := inv_wf m I b Hb). unfold awf in W. split.
    + unfold aget. cbn [ashape adata]. rewrite F2. apply set_nth_same. rewrite W. exact (flat_lt _ _ _ F2).
    + intros p Np. unfold aget. cbn [ashape adata]. destruct (flat (ashape (buffer m b)) p) as [k'|] eqn:F3; [|reflexivity].
      apply set_nth_other. intros ->. apply Np. exact (flat_inj _ _ _ _ F3 F2).
  - intros o N. now apply store_old.
Qed.
Lemma put_untouched rm m h idx e b sh src o : vars m h = Some (View b sh src) -> buf_of m o <> b ->
  object (step rm m (Put h idx e)) o = object m o.
Proof.
  intros Hv N. unfold step. cbn [exec]. rewrite Hv. destruct (flat sh idx); [|reflexivity]. destruct (flat _ (src idx)); [|reflexivity]. now apply store_old.
Qed.
Lemma keeps_buf rm : forall q m o, inv m -> Forall given_ok q -> o < length (objs m) -> not_replaced rm m q o ->
  buf_of (fold_left (step rm) q m) o = buf_of m o /\ o < length (objs (fold_left (step rm) q m)).
Proof.
  induction q as [|c q IH]; intros m o I G Ho NR; [auto|]. inversion G; subst. destruct NR as [N1 N2]. simpl.
  assert (A : buf_of (step rm m c) o = buf_of m o /\ o < length (objs (step rm m c))).
  { unfold step. destruct (exec rm m c) as [m'|] eqn:E; [|auto]. destruct (exec_frame rm m c m' I E) as (L & _ & Fr). destruct (Fr o Ho) as [_ Fb]. split; [auto|lia]. }
  destruct A as [A1 A2]. destruct (IH _ o (step_inv rm m c I ltac:(assumption)) ltac:(assumption) A2 N2) as [B1 B2]. split; [congruence|assumption].
Qed.
(** Shapes of buffers never change. *)
Lemma exec_buf_shape rm m c m' b : inv m -> exec rm m c = Ok m' -> b < length (bufs m) -> ashape (buffer m' b) = ashape (buffer m b) /\ b < length (bufs m').
Proof.
  intros I E Hb.
  assert (Al : forall v a, ashape (buffer (alloc m v a) b) = ashape (buffer m b) /\ b < length (bufs (alloc m v a))).
  { intros v a. unfold buffer. cbn. rewrite app_nth1, app_length by assumption. split; [reflexivity|simpl; lia]. }
  assert (Rb : forall o a s, ashape (buffer (rebind m o a s) b) = ashape (buffer m b) /\ b < length (bufs (rebind m o a s))).
  { intros o a s. unfold buffer. cbn. rewrite app_nth1, app_length by assumption. split; [reflexivity|simpl; lia]. }
  assert (St : forall b' a, ashape a = ashape (buffer m b') -> ashape (buffer (store m b' a) b) = ashape (buffer m b) /\ b < length (bufs (store m b' a))).
  { intros b' a Ea. unfold buffer. cbn. rewrite set_nth_length. split; [|assumption]. destruct (Nat.eq_dec b b') as [->|N].
    - now rewrite nth_set_nth_same.
    - now rewrite nth_set_nth_other. }
  assert (Bi : forall m', bufs m' = bufs m -> ashape (buffer m' b) = ashape (buffer m b) /\ b < length (bufs m')).
  { intros m1 E1. unfold buffer. rewrite E1. auto. }
  destruct c as [v a|v w|v w|v f w|v p w y|w key y|p w y|w key|v w|v w i|w idx e]; cbn [exec] in E.
  - inversion E; subst. apply Al.
  - destruct (vars m w) as [x|]; [|discriminate]. inversion E; subst. now apply Bi.
  - destruct (vars m w) as [[o|e|b' sh src]|]; [| | |discriminate]; inversion E; subst; [now apply Bi|now apply Bi|apply Al].
  - destruct (get_obj m w) as [o|]; [|discriminate]. cbn [rbind] in E. destruct (call f (object m o)) as [r|]; [|discriminate]. cbn [rbind] in E.
    inversion E; subst. destruct r as [e|z]; [now apply Bi|apply Al].
  - destruct (get_obj m w) as [o|]; [|discriminate]. cbn [rbind] in E. destruct (operand_of m y) as [c|]; [|discriminate]. cbn [rbind] in E.
    destruct (binary rm p (object m o) c) as [z|]; [|discriminate]. cbn [rbind] in E. inversion E; subst. apply Al.
  - destruct (get_obj m w) as [o|] eqn:Eo; [|discriminate]. cbn [rbind] in E. apply get_obj_some in Eo. assert (Ho := inv_vars m I w _ Eo). simpl in Ho.
    destruct (setval_of m y) as [c|]; [|discriminate]. cbn [rbind] in E.
    destruct (setkey (object m o) key c) as [z|] eqn:Er; [|discriminate]. cbn [rbind] in E. inversion E; subst. apply St.
    exact (proj1 (proj2 (setkey_wf _ key c z (object_wf m o I Ho) Er))).
  - destruct (get_obj m w) as [o|]; [|discriminate]. cbn [rbind] in E. destruct (operand_of m y) as [c|]; [|discriminate]. cbn [rbind] in E.
    destruct (in_place rm p (object m o) c) as [z|]; [|discriminate]. cbn [rbind] in E. inversion E; subst. apply Rb.
  - destruct (get_obj m w) as [o|]; [|discriminate]. cbn [rbind] in E. destruct (delitem (object m o) key) as [z|]; [|discriminate]. cbn [rbind] in E. inversion E; subst. apply Rb.
  - destruct (get_obj m w) as [o|]; [|discriminate]. cbn [rbind] in E. inversion E; subst. now apply Bi.
  - destruct (vars m w) as [[o|e|b' sh src]|]; try discriminate; apply piece_objs in E; destruct E; now apply Bi.
  - destruct (vars m w) as [[o|e'|b' sh src]|]; try discriminate.
    destruct (flat sh idx); [|discriminate]. destruct (flat _ (src idx)) as [k|]; [|discriminate]. inversion E; subst. now apply St.
Qed.
Lemma steps_buf_shape rm : forall q m b, inv m -> Forall given_ok q -> b < length (bufs m) ->
  ashape (buffer (fold_left (step rm) q m) b) = ashape (buffer m b) /\ b < length (bufs (fold_left (step rm) q m)).
Proof.
  induction q as [|c q IH]; intros m b I G Hb; [auto|]. inversion G; subst. simpl.
  assert (A : ashape (buffer (step rm m c) b) = ashape (buffer m b) /\ b < length (bufs (step rm m c))).
  { unfold step. destruct (exec rm m c) as [m'|] eqn:E; [|auto]. eapply exec_buf_shape; eauto. }
  destruct A as [A1 A2]. destruct (IH _ b (step_inv rm m c I ltac:(assumption)) ltac:(assumption) A2) as [B1 B2]. split; [congruence|assumption].
Qed.
(** A buffer that no object uses is never used again. *)
Definition unowned (m : mem) (b : nat) : Prop := b < length (bufs m) /\ forall o, o < length (objs m) -> buf_of m o <> b.
Lemma exec_unowned rm m c m' b : inv m -> exec rm m c = Ok m' -> unowned m b -> unowned m' b.
Proof.
  intros I E [Hb U]. split; [exact (proj2 (exec_buf_shape rm m c m' b I E Hb))|].
  assert (Al : forall v a o, o < length (objs (alloc m v a)) -> buf_of (alloc m v a) o <> b).
  { intros v a o Ho. cbn in Ho. rewrite app_length in Ho. simpl in Ho. destruct (Nat.eq_dec o (length (objs m))) as [->|N].
    - unfold buf_of. cbn. rewrite app_nth2, Nat.sub_diag by lia. simpl. lia.
    - destruct (alloc_old m v a o I ltac:(lia)) as [_ ->]. apply U. lia. }
  assert (Rb : forall k a s o, o < length (objs (rebind m k a s)) -> buf_of (rebind m k a s) o <> b).
  { intros k a s o Ho. cbn in Ho. rewrite set_nth_length in Ho. destruct (Nat.eq_dec o k) as [->|N].
    - unfold buf_of. cbn. rewrite nth_set_nth_same by assumption. simpl. lia.
    - destruct (rebind_old m k a s o I Ho N) as [_ ->]. now apply U. }
  assert (Bi : forall m', objs m' = objs m -> forall o, o < length (objs m') -> buf_of m' o <> b).
  { intros m1 E1 o Ho. unfold buf_of. rewrite E1 in *. now apply U. }
  destruct c as [v a|v w|v w|v f w|v p w y|w key y|p w y|w key|v w|v w i|w idx e]; cbn [exec] in E.
  - inversion E; subst. apply Al.
  - destruct (vars m w) as [x|]; [|discriminate]. inversion E; subst. now apply Bi.
  - destruct (vars m w) as [[o|e|b' sh src]|]; [| | |discriminate]; inversion E; subst; [now apply Bi|now apply Bi|apply Al].
  - destruct (get_obj m w) as [o|]; [|discriminate]. cbn [rbind] in E. destruct (call f (object m o)) as [r|]; [|discriminate]. cbn [rbind] in E.
    inversion E; subst. destruct r as [e|z]; [now apply Bi|apply Al].
  - destruct (get_obj m w) as [o|]; [|discriminate]. cbn [rbind] in E. destruct (operand_of m y) as [c|]; [|discriminate]. cbn [rbind] in E.
    destruct (binary rm p (object m o) c) as [z|]; [|discriminate]. cbn [rbind] in E. inversion E; subst. apply Al.
  - destruct (get_obj m w) as [o|]; [|discriminate]. cbn [rbind] in E. destruct (setval_of m y) as [c|]; [|discriminate]. cbn [rbind] in E.
    destruct (setkey (object m o) key c) as [z|]; [|discriminate]. cbn [rbind] in E. inversion E; subst. now apply Bi.
  - destruct (get_obj m w) as [o|]; [|discriminate]. cbn [rbind] in E. destruct (operand_of m y) as [c|]; [|discriminate]. cbn [rbind] in E.
    destruct (in_place rm p (object m o) c) as [z|]; [|discriminate]. cbn [rbind] in E. inversion E; subst. apply Rb.
  - destruct (get_obj m w) as [o|]; [|discriminate]. cbn [rbind] in E. destruct (delitem (object m o) key) as [z|]; [|discriminate]. cbn [rbind] in E. inversion E; subst. apply Rb.
  - destruct (get_obj m w) as [o|]; [|discriminate]. cbn [rbind] in E. inversion E; subst. now apply Bi.
  - destruct (vars m w) as [[o|e|b' sh src]|]; try discriminate; apply piece_objs in E; destruct E; now apply Bi.
  - destruct (vars m w) as [[o|e'|b' sh src]|]; try discriminate.
    destruct (flat sh idx); [|discriminate]. destruct (flat _ (src idx)) as [k|]; [|discriminate]. inversion E; subst. now apply Bi.
Qed.
Lemma steps_unowned rm : forall q m b, inv m -> Forall given_ok q -> unowned m b -> unowned (fold_left (step rm) q m) b.
Proof.
  induction q as [|c q IH]; intros m b I G U; [assumption|]. inversion G; subst. simpl. apply IH; [now apply step_inv|assumption|].
  unfold step. destruct (exec rm m c) as [m'|] eqn:E; [|assumption]. eapply exec_unowned; eauto.
Qed.

(** * For whole histories *)
Lemma others_unchanged rm p c w o v o' : Forall given_ok p -> through c w ->
  vars (run rm p) w = Some (Obj o) -> vars (run rm p) v = Some (Obj o') -> o' <> o ->
  show (step rm (run rm p) c) v = show (run rm p) v.
Proof.
  intros G T Hw Hv N. assert (I := run_inv rm p G). set (m := run rm p) in *. unfold step.
  destruct (exec rm m c) as [m'|] eqn:E; [|reflexivity]. assert (Ho := inv_vars m I v _ Hv). simpl in Ho.
  unfold show. rewrite (exec_vars rm m c m' v E) by (destruct c; try contradiction; discriminate). rewrite Hv.
  destruct (exec_frame rm m c m' I E) as (_ & _ & Fr). destruct (Fr o' Ho) as [F1 _]. rewrite F1; [reflexivity|].
  intros (u & [(Hu & Tu)|(idx & e & sh & src & -> & _)]); [|contradiction].
  destruct c as [| | | | |x key y|q x y|x key| | |]; try contradiction; simpl in T, Tu; subst; congruence.
Qed.
Lemma readers_change_nothing rm p c v : Forall given_ok p -> (forall w, ~ through c w) -> (forall w idx e, c <> Put w idx e) -> target c <> Some v ->
  show (step rm (run rm p) c) v = show (run rm p) v.
Proof.
  intros G T NP Tv. assert (I := run_inv rm p G). set (m := run rm p) in *. unfold step.
  destruct (exec rm m c) as [m'|] eqn:E; [|reflexivity]. unfold show. rewrite (exec_vars rm m c m' v E Tv).
  destruct (vars m v) as [[o|e|b sh src]|] eqn:Hv; try reflexivity. assert (Ho := inv_vars m I v _ Hv). simpl in Ho.
  destruct (exec_frame rm m c m' I E) as (_ & _ & Fr). destruct (Fr o Ho) as [F1 _]. rewrite F1; [reflexivity|].
  intros (u & [(Hu & Tu)|(idx & e & sh & src & Ec & _)]); [exact (T u Tu) | exact (NP _ _ _ Ec)].
Qed.
Lemma of_fun_self a : awf a -> of_fun (ashape a) (fun idx => elem a idx) = a.
Proof.
  intro W. apply arr_ext; [apply of_fun_wf|assumption|reflexivity|]. intros idx B. cbn [of_fun ashape] in B.
  destruct (proj1 (in_bounds_flat _ _) B) as [k F]. rewrite (of_fun_get _ _ _ _ F). symmetry. now apply elem_get.
Qed.
(** Through a handle with buffer [b] while object [o] owns [b]. *)
Lemma handle_writes rm m h b sh src o : inv m -> vars m h = Some (View b sh src) -> o < length (objs m) -> buf_of m o = b ->
  forall idx e, in_bounds sh idx -> exists m', exec rm m (Put h idx e) = Ok m' /\
    shp (object m' o) = shp (object m o) /\ aget (adat (object m' o)) (src idx) = Some e /\
    (forall p, p <> src idx -> aget (adat (object m' o)) p = aget (adat (object m o)) p) /\
    (forall v o', vars m v = Some (Obj o') -> o' <> o -> show m' v = show m v).
Proof.
  intros I Hh Ho Eb idx e B. destruct (put_spec rm m h b sh src idx e I Hh B) as (m' & E & Ev & Eo & P1 & P2).
  exists m'. split; [assumption|]. destruct (P1 o Ho Eb) as (A1 & A2 & A3 & A4). split; [assumption|]. split; [assumption|]. split; [assumption|].
  intros v o' Hv N. unfold show. rewrite Ev, Hv, P2; [reflexivity|]. intro Eb'. apply N. apply (inv_sep m I); try assumption; [|congruence].
  exact (inv_vars m I v _ Hv).
Qed.
Lemma data_live rm p q w h o : Forall given_ok p -> Forall given_ok q -> vars (run rm p) w = Some (Obj o) ->
  let m1 := step rm (run rm p) (Data h w) in let m2 := fold_left (step rm) q m1 in
  not_replaced rm m1 q o -> vars m2 h = vars m1 h ->
  (exists b sh src, vars m2 h = Some (View b sh src) /\ view_value m2 b sh src = adat (object m2 o)) /\
  forall idx e, in_bounds (ashape (adat (object m2 o))) idx -> exists m3, exec rm m2 (Put h idx e) = Ok m3 /\
    shp (object m3 o) = shp (object m2 o) /\ aget (adat (object m3 o)) idx = Some e /\
    (forall p, p <> idx -> aget (adat (object m3 o)) p = aget (adat (object m2 o)) p) /\
    (forall v o', vars m2 v = Some (Obj o') -> o' <> o -> show m3 v = show m2 v).
Proof.
  intros G Gq Hw m1 m2 NR Hh. assert (I := run_inv rm p G). set (m := run rm p) in *.
  assert (Ho := inv_vars m I w _ Hw). simpl in Ho.
  assert (E1 : m1 = bind m h (View (buf_of m o) (ashape (buffer m (buf_of m o))) (fun idx => idx))).
  { unfold m1, step. cbn [exec]. rewrite (proj2 (get_obj_some m w o) Hw). reflexivity. }
  assert (I1 : inv m1) by (apply step_inv; [assumption|exact Logic.I]).
  assert (I2 : inv m2) by now apply steps_inv.
  assert (H1 : vars m1 h = Some (View (buf_of m o) (ashape (buffer m (buf_of m o))) (fun idx => idx))) by (rewrite E1; cbn; now rewrite Nat.eqb_refl).
  rewrite H1 in Hh.
  assert (B1 : buf_of m1 o = buf_of m o) by (rewrite E1; reflexivity).
  assert (L1 : o < length (objs m1)) by (rewrite E1; exact Ho).
  destruct (keeps_buf rm q m1 o I1 Gq L1 NR) as [B2 L2]. fold m2 in B2, L2.
  assert (Hb : buf_of m o < length (bufs m1)) by (rewrite E1; exact (inv_objs m I o Ho)).
  destruct (steps_buf_shape rm q m1 (buf_of m o) I1 Gq Hb) as [S2 _]. fold m2 in S2.
  assert (S1 : ashape (buffer m1 (buf_of m o)) = ashape (buffer m (buf_of m o))) by (rewrite E1; reflexivity).
  assert (B3 : buf_of m2 o = buf_of m o) by congruence.
  assert (Ea : adat (object m2 o) = buffer m2 (buf_of m o)) by (rewrite object_buf, B3; reflexivity).
  split.
  - eexists _, _, _. split; [exact Hh|]. rewrite Ea. unfold view_value. rewrite <- S1, <- S2. apply of_fun_self.
    rewrite <- Ea. exact (object_wf m2 o I2 L2).
  - intros idx e B. rewrite Ea in B. rewrite S2, S1 in B. exact (handle_writes rm m2 h _ _ _ o I2 Hh L2 B3 idx e B).
Qed.
Lemma data_detached rm p q r w h c u : Forall given_ok p -> Forall given_ok q -> Forall given_ok r ->
  forall o, vars (run rm p) w = Some (Obj o) ->
  let m1 := step rm (run rm p) (Data h w) in let m2 := fold_left (step rm) q m1 in
  not_replaced rm m1 q o -> replaces c u -> vars m2 u = Some (Obj o) -> forall m3, exec rm m2 c = Ok m3 ->
  let m4 := fold_left (step rm) r m3 in vars m4 h = vars m1 h ->
  forall idx e v, show (step rm m4 (Put h idx e)) v = show m4 v.
Proof.
  intros G Gq Gr o Hw m1 m2 NR Rc Hu m3 E3 m4 Hh idx e v. assert (I := run_inv rm p G). set (m := run rm p) in *.
  assert (Ho := inv_vars m I w _ Hw). simpl in Ho.
  assert (E1 : m1 = bind m h (View (buf_of m o) (ashape (buffer m (buf_of m o))) (fun idx => idx))).
  { unfold m1, step. cbn [exec]. rewrite (proj2 (get_obj_some m w o) Hw). reflexivity. }
  assert (I1 : inv m1) by (apply step_inv; [assumption|exact Logic.I]).
  assert (I2 : inv m2) by now apply steps_inv.
  assert (H1 : vars m1 h = Some (View (buf_of m o) (ashape (buffer m (buf_of m o))) (fun idx => idx))) by (rewrite E1; cbn; now rewrite Nat.eqb_refl).
  rewrite H1 in Hh.
  assert (B1 : buf_of m1 o = buf_of m o) by (rewrite E1; reflexivity).
  assert (L1 : o < length (objs m1)) by (rewrite E1; exact Ho).
  destruct (keeps_buf rm q m1 o I1 Gq L1 NR) as [B2 L2]. fold m2 in B2, L2.
  assert (B3 : buf_of m2 o = buf_of m o) by congruence.
  assert (Hb2 : buf_of m o < length (bufs m2)) by (rewrite <- B3; exact (inv_objs m2 I2 o L2)).
  assert (Gc : given_ok c) by (destruct c; try contradiction; exact Logic.I).
  assert (I3 : inv m3) by exact (exec_inv rm m2 c m3 I2 Gc E3).
  assert (U3 : unowned m3 (buf_of m o)).
  { assert (Rb : forall a s, m3 = rebind m2 o a s -> unowned m3 (buf_of m o)).
    { intros a s ->. split; [cbn; rewrite app_length; lia|]. intros k Hk. cbn in Hk. rewrite set_nth_length in Hk. destruct (Nat.eq_dec k o) as [->|Nk].
      - unfold buf_of at 1. cbn. rewrite nth_set_nth_same by assumption. simpl. lia.
      - destruct (rebind_old m2 o a s k I2 Hk Nk) as [_ ->]. intro Eb. apply Nk. apply (inv_sep m2 I2); try assumption. congruence. }
    destruct c as [| | | | | |q' x y|x key| | |]; try contradiction; simpl in Rc; subst x; cbn [exec] in E3; rewrite (proj2 (get_obj_some m2 u o) Hu) in E3; cbn [rbind] in E3.
    - destruct (operand_of m2 y) as [c|]; [|discriminate]. cbn [rbind] in E3. destruct (in_place rm q' (object m2 o) c) as [z|]; [|discriminate].
      cbn [rbind] in E3. inversion E3; subst. eapply Rb; reflexivity.
    - destruct (delitem (object m2 o) key) as [z|]; [|discriminate]. cbn [rbind] in E3. inversion E3; subst. eapply Rb; reflexivity. }
  assert (U4 := steps_unowned rm r m3 _ I3 Gr U3). fold m4 in U4. assert (I4 : inv m4) by now apply steps_inv.
  assert (Ev : vars (step rm m4 (Put h idx e)) = vars m4).
  { unfold step. cbn [exec]. rewrite Hh. destruct (flat _ idx); [|reflexivity]. destruct (flat _ idx); reflexivity. }
  unfold show. rewrite Ev. destruct (vars m4 v) as [[o'|e'|b sh src]|] eqn:Hv; try reflexivity.
  rewrite (put_untouched rm m4 h idx e _ _ _ o' Hh); [reflexivity|]. apply (proj2 U4). exact (inv_vars m4 I4 v _ Hv).
Qed.
Lemma piece_live rm p w h o n n' s i : Forall given_ok p -> vars (run rm p) w = Some (Obj o) ->
  ashape (adat (object (run rm p) o)) = n :: n' :: s -> i < n ->
  exists m1, exec rm (run rm p) (Piece h w i) = Ok m1 /\
  forall idx e, in_bounds (n' :: s) idx -> exists m2, exec rm m1 (Put h idx e) = Ok m2 /\
    shp (object m2 o) = shp (object (run rm p) o) /\ aget (adat (object m2 o)) (i :: idx) = Some e /\
    (forall p', p' <> i :: idx -> aget (adat (object m2 o)) p' = aget (adat (object (run rm p) o)) p') /\
    (forall v o', v <> h -> vars (run rm p) v = Some (Obj o') -> o' <> o -> show m2 v = show (run rm p) v).
Proof.
  intros G Hw Es Hi. assert (I := run_inv rm p G). set (m := run rm p) in *.
  assert (Ho := inv_vars m I w _ Hw). simpl in Ho. rewrite object_buf in Es. cbn [adat] in Es.
  assert (E : exec rm m (Piece h w i) = Ok (bind m h (View (buf_of m o) (n' :: s) (fun idx => i :: idx)))).
  { cbn [exec]. rewrite Hw. fold (buf_of m o). unfold piece. rewrite Es. destruct (Nat.ltb_spec i n); [reflexivity|lia]. }
  eexists. split; [exact E|]. assert (I1 := exec_inv rm m (Piece h w i) _ I Logic.I E). set (m1 := bind m h _) in *.
  assert (H1 : vars m1 h = Some (View (buf_of m o) (n' :: s) (fun idx => i :: idx))) by (unfold m1; cbn; now rewrite Nat.eqb_refl).
  intros idx e B. destruct (handle_writes rm m1 h _ _ _ o I1 H1 Ho eq_refl idx e B) as (m2 & E2 & A1 & A2 & A3 & A4).
  exists m2. split; [assumption|]. split; [assumption|]. split; [assumption|]. split; [assumption|]. intros v o' Nv Hv N.
  assert (Hv1 : vars m1 v = Some (Obj o')) by (unfold m1; cbn; destruct (Nat.eqb_spec v h); [contradiction|assumption]).
  rewrite (A4 v o' Hv1 N). unfold show. rewrite Hv1, Hv. reflexivity.
Qed.

Lemma numpy_value_raises rm p h u w o o' key : vars (run rm p) u = Some (Obj o) -> w <> h -> vars (run rm p) w = Some (Obj o') ->
  let m1 := step rm (run rm p) (Data h u) in let y := adat (object (run rm p) o) in
  exec rm m1 (SetItem w key (SV h)) = Err (if size (ashape y) =? 0 then ValueError else AssertionError) /\
  step rm m1 (SetItem w key (SV h)) = m1.
Proof.
  intros Hu Nw Hw m1 y.
  assert (E : exec rm m1 (SetItem w key (SV h)) = Err (if size (ashape y) =? 0 then ValueError else AssertionError)).
  { assert (Eh : m1 = bind (run rm p) h (View (fst (nth o (objs (run rm p)) (0, []))) (ashape y) (fun i => i))).
    { unfold m1, step. cbn [exec]. rewrite (proj2 (get_obj_some _ _ _) Hu). reflexivity. }
    assert (Ew : get_obj m1 w = Ok o').
    { apply get_obj_some. rewrite Eh. cbn [bind vars]. destruct (Nat.eqb_spec w h); [contradiction|exact Hw]. }
    cbn [exec]. rewrite Ew. cbn [rbind]. unfold setval_of. rewrite Eh. cbn [bind vars]. rewrite Nat.eqb_refl. reflexivity. }
  split; [exact E|]. unfold step at 1. now rewrite E.
Qed.
