(** Proofs about elementary functions and powers of interval arrays. *)
From Coq Require Import ZArith Reals List Bool Arith Lia Lra.
From Flocq Require Import Core IEEE754.BinarySingleNaN.
From Verif Require Import Base PyNum Kernel Spec SpecElem Expr Arrays Construct SpecArray XReal XArith KernelProofs KernelMore ExprProofs
  ArrayProofs ArrayMore ArrayItems ElemProofs PowProofs TrigProofs ElemRefute ConstructProofs ConstructSys ConstructUtil ArrayElem SpecArrayElem.
Import ListNotations.
Open Scope R_scope.

Lemma keeps_elem L f e : keeps_mode (elem_itv L f e).
Proof. destruct f; [apply keeps_sqrt | apply keeps_exp | apply keeps_log | apply keeps_sin | apply keeps_cos | apply keeps_lift]. Qed.
Lemma arr_elem_map L f x : f <> FOther -> arr_elem L f x = arr_map (elem_itv L f) x.
Proof. destruct f; [reflexivity..|congruence]. Qed.

(** Element by element, in both directions. *)
Lemma elem_elementwise L f x m Z : f <> FOther -> consistent x -> returns (arr_elem L f x) m Z ->
  consistent Z /\ shp Z = shp x /\
  forall idx e, aget (adat x) idx = Some e -> exists c, aget (adat Z) idx = Some c /\ returns (elem_itv L f e) m c.
Proof.
  intros F [Sx Wx] H. rewrite arr_elem_map in H by exact F.
  destruct (arr_map_spec _ x m Z (keeps_elem L f) H Wx) as (C & S' & P). split; [exact C|]. split; [congruence | exact P].
Qed.
Lemma arr_map_total (f : itv -> M itv) x m : (forall e, keeps_mode (f e)) -> adata (adat x) <> [] ->
  (forall e, In e (adata (adat x)) -> exists c, returns (f e) m c) -> exists Z, returns (arr_map f x) m Z.
Proof.
  intros K N H. destruct (vectorize_total f (adat x) m K N H) as [d Hd]. exists (array_interval d).
  unfold arr_map. apply lift_returns; [now apply keeps_vectorize|]. eauto.
Qed.
Lemma mapM_raises {A B} (f : A -> M B) (K : forall a, keeps_mode (f a)) l m ex : raises (mapM f l) m ex ->
  exists pre a post, l = pre ++ a :: post /\ Forall (fun b => exists c, returns (f b) m c) pre /\ raises (f a) m ex.
Proof.
  induction l as [|a l IH]; [discriminate|]. cbn [mapM]. intro H.
  unfold raises, outcome, mbind in H.
  destruct (f a m) as [[c|e] m1] eqn:E.
  - assert (m1 = m) by (assert (T := K a m); rewrite E in T; exact T). subst m1.
    destruct (mapM f l m) as [[cs|e] m2] eqn:E2; [discriminate|]. cbn in H.
    destruct IH as (pre & b & post & -> & F & R). { unfold raises, outcome. now rewrite E2. }
    exists (a :: pre), b, post. split; [reflexivity|]. split; [|exact R]. constructor; [|exact F].
    exists c. unfold returns, outcome. now rewrite E.
  - exists [], a, l. split; [reflexivity|]. split; [constructor|]. unfold raises, outcome. rewrite E. cbn in *. congruence.
Qed.

Lemma elem_raises L f x m ex : f <> FOther -> raises (arr_elem L f x) m ex ->
  (adata (adat x) = [] /\ ex = ValueError) \/
  exists pre e post, adata (adat x) = pre ++ e :: post /\ Forall (fun b => exists c, returns (elem_itv L f b) m c) pre /\ raises (elem_itv L f e) m ex.
Proof.
  intros F H. rewrite arr_elem_map in H by exact F. unfold arr_map, lift_arr in H. unfold raises, outcome, mbind in H.
  destruct (vectorize (elem_itv L f) (adat x) m) as [[d|e] m1] eqn:E; [discriminate|]. cbn in H. assert (e = ex) by congruence. subst e. clear H.
  unfold vectorize in E. destruct (adata (adat x)) as [|a l] eqn:D; [left; split; [reflexivity|]; inversion E; reflexivity|]. right.
  unfold amapM, mbind in E. rewrite D in E.
  apply (mapM_raises _ (keeps_elem L f)). unfold raises, outcome.
  destruct (mapM (elem_itv L f) (a :: l) m) as [[d|e] m2] eqn:E2; cbn in *; [discriminate E | inversion E; reflexivity].
Qed.
Lemma elem_sound L f X m : library_ok L f -> entry_ok f X ->
  exists Z, returns (elem_itv L f X) m Z /\ forall x, member X x -> defined_at f x -> member Z (real_fun f x).
Proof.
  destruct f; cbn [library_ok entry_ok defined_at real_fun elem_itv]; intros HL HX.
  - destruct HL as (L1 & L2 & L3), HX as (H1 & H2 & H3 & H4). exact (sqrt_encl L X m L1 L2 L3 H1 H2 H3 H4).
  - destruct HX as (H1 & H2 & H3 & H4). destruct (exp_encl L X m HL H1 H2 H3 H4) as (Z & HZ & P). exists Z. auto.
  - destruct HX as (H1 & H2). exact (log_encl L X m HL H1 H2).
  - destruct HX as (H1 & H2 & H3 & H4). destruct (sin_encl L X m HL H1 H2 (conj H3 H4)) as (Z & HZ & P). exists Z. auto.
  - destruct HX as (H1 & H2 & H3 & H4). destruct (cos_encl L X m HL H1 H2 (conj H3 H4)) as (Z & HZ & P). exists Z. auto.
  - contradiction.
Qed.
Lemma elem_array_encloses L f x m : consistent x -> adata (adat x) <> [] -> library_ok L f -> Forall (entry_ok f) (adata (adat x)) ->
  exists Z, returns (arr_elem L f x) m Z /\ consistent Z /\ shp Z = shp x /\
    forall idx X, aget (adat x) idx = Some X -> exists W, aget (adat Z) idx = Some W /\
      forall r, member X r -> defined_at f r -> member W (real_fun f r).
Proof.
  intros C N HL HX. assert (F : f <> FOther) by (intros ->; exact HL). rewrite Forall_forall in HX.
  destruct (arr_map_total (elem_itv L f) x m (keeps_elem L f) N) as [Z HZ].
  { intros e He. destruct (elem_sound L f e m HL (HX e He)) as (c & Hc & _). eauto. }
  rewrite <- arr_elem_map in HZ by exact F. exists Z. split; [exact HZ|].
  destruct (elem_elementwise L f x m Z F C HZ) as (CZ & SZ & P). split; [exact CZ|]. split; [exact SZ|].
  intros idx X G. destruct (P idx X G) as (W & GW & HW). exists W. split; [exact GW|].
  destruct (elem_sound L f X m HL) as (W' & HW' & Q); [apply HX; eapply aget_in; exact G|].
  assert (W' = W) by (unfold returns in *; congruence). subst W'. exact Q.
Qed.
Lemma keeps_as_itv o : keeps_mode (as_itv o).
Proof. destruct o; [apply keeps_single | apply keeps_ret]. Qed.
Lemma keeps_asinterval a : keeps_mode (asinterval a).
Proof.
  assert (TE : forall A (c : M A), keeps_mode c -> keeps_mode (as_type_error c)).
  { intros A c K m. specialize (K m). unfold as_type_error. destruct (c m) as [[v|e] m1]; exact K. }
  assert (T : forall t : nested operand, keeps_mode (as_type_error
      (data <- mlift (np_array t) ;; vals <- mlift (promote_ops (adata data)) ;;
       d <- amapM as_itv (mkarr (ashape data) vals) ;; mret (RArr (array_interval d))))).
  { intro t. apply TE. apply keeps_bind; [apply keeps_lift|]. intro. apply keeps_bind; [apply keeps_lift|]. intro. apply keeps_bind; [|intro; apply keeps_ret].
    unfold amapM. apply keeps_bind; [apply keeps_mapM, keeps_as_itv | intro; apply keeps_ret]. }
  destruct a as [e|x|t| |]; try apply keeps_ret; try apply keeps_lift. unfold asinterval.
  destruct t as [[c|e]|l]; [apply keeps_bind; [apply keeps_single | intro; apply keeps_ret] | apply keeps_ret | apply T].
Qed.
Lemma iv_elem_spec L f m :
  (forall e, iv_elem L f (SItv e) m = np_elem L f (RItv e) m) /\ (forall x, iv_elem L f (SArr x) m = np_elem L f (RArr x) m) /\
  (forall a r, returns (asinterval a) m r -> iv_elem L f a m = np_elem L f r m) /\
  (forall a ex, raises (asinterval a) m ex -> raises (iv_elem L f a) m ex).
Proof.
  split; [reflexivity|]. split; [reflexivity|]. split.
  - intros a r H. assert (K := keeps_asinterval a). unfold iv_elem, mbind. unfold returns, outcome in H. specialize (K m). destruct (asinterval a m) as [[v|?] m1]; cbn in *; [|discriminate].
    subst m1. congruence.
  - intros a ex H. unfold iv_elem, raises, outcome, mbind in *. destruct (asinterval a m) as [[v|?] m1]; cbn in *; [discriminate|]. congruence.
Qed.

Lemma iv_elem_number L f c m : library_ok L f -> entry_ok f (mkitv Classical c c) -> finite_num c ->
  exists Z, returns (iv_elem L f (SNest (NLeaf (ONum c)))) m (RItv Z) /\ (defined_at f (num_val c) -> member Z (real_fun f (num_val c))).
Proof.
  intros HL HE Fc. destruct (elem_sound L f _ m HL HE) as (Z & HZ & P). exists Z. split.
  - assert (R : returns (asinterval (SNest (NLeaf (ONum c)))) m (RItv (mkitv Classical c c))).
    { destruct (asinterval_spec m) as (_ & _ & Q & _). apply Q. apply finite_num_x in Fc. destruct (is_nan_num c) eqn:E; [|reflexivity]. apply is_nan_num_x in E. congruence. }
    destruct (iv_elem_spec L f m) as (_ & _ & Q & _). unfold returns, outcome. rewrite (Q _ _ R). unfold np_elem.
    change (returns (z <- elem_itv L f (mkitv Classical c c) ;; mret (RItv z)) m (RItv Z)). rewrite keeps_returns by apply keeps_elem. exists Z. split; [exact HZ | reflexivity].
  - intro D. apply P; [|exact D]. apply finite_num_x in Fc. apply member_x. cbn [lo hi]. rewrite Fc. split; cbn; lra.
Qed.

(** Powers. *)
Lemma pow_elementwise L x n m :
  (forall Z, returns (arr_pow L x n) m Z -> consistent Z /\ broadcast_shape (ashape (adat x)) (ashape n) (shp Z) /\
     forall idx, in_bounds (shp Z) idx -> exists e k c, reads (adat x) idx e /\ reads n idx k /\ returns (itv_pow L e k) m c /\ aget (adat Z) idx = Some c) /\
  ((~ exists s, broadcast_shape (ashape (adat x)) (ashape n) s) -> raises (arr_pow L x n) m ValueError).
Proof.
  assert (K : forall a b, keeps_mode (itv_pow L a b)) by (intros; apply keeps_pow). unfold arr_pow. split.
  - intros Z H. destruct (bcast (ashape (adat x)) (ashape n)) as [s|] eqn:B; [|discriminate]. destruct (size s =? 0); [discriminate|].
    apply lift_returns in H; [|now apply keeps_binop_arr]. destruct H as (d & Hd & ->).
    destruct (binop_reads _ _ _ m d K Hd) as (s' & Hs & Sd & Wd & P). cbn [adat shp array_interval]. rewrite Sd.
    split; [split; [reflexivity|exact Wd]|]. split; [exact Hs | exact P].
  - intro H. destruct (bcast (ashape (adat x)) (ashape n)) as [s|] eqn:B; [|reflexivity]. destruct H. exists s. now apply bcast_iff.
Qed.
Lemma pow_array_int L x n m s : consistent x -> awf n -> broadcast_shape (ashape (adat x)) (ashape n) s -> size s <> 0%nat ->
  Forall (fun X => kd X = Classical /\ int_ends X) (adata (adat x)) -> Forall (fun k => exists j, k = PInt (Z.of_nat j)) (adata n) ->
  exists Z, returns (arr_pow L x n) m Z /\ consistent Z /\ shp Z = s /\
    forall idx, in_bounds s idx -> exists X j W, reads (adat x) idx X /\ reads n idx (PInt (Z.of_nat j)) /\ aget (adat Z) idx = Some W /\
      (forall r, member X r -> member W (r ^ j)) /\
      ((0 < j)%nat -> (exists r, member X r) ->
        (exists r, member X r /\ num_val (lo W) = r ^ j) /\ (exists r, member X r /\ num_val (hi W) = r ^ j)).
Proof.
  intros [Sx Wx] Wn Hs N HX Hn. rewrite Forall_forall in HX, Hn.
  assert (K : forall a b, keeps_mode (itv_pow L a b)) by (intros; apply keeps_pow).
  assert (B := proj2 (bcast_iff _ _ _) Hs).
  destruct (binop_arr_total (itv_pow L) K (adat x) n s m Wx Wn B) as [d Hd].
  { intros idx k a b _ Ha Hb. destruct (Hn b) as [j ->]; [eapply aget_in; exact Hb|].
    destruct (HX a) as [K1 K2]; [eapply aget_in; exact Ha|]. destruct (pow_int_all L j a m K1 K2) as (Z & HZ & _). eauto. }
  assert (HZ : returns (arr_pow L x n) m (array_interval d)).
  { unfold arr_pow. rewrite B. destruct (Nat.eqb_spec (size s) 0); [contradiction|]. apply lift_returns; [now apply keeps_binop_arr|]. eauto. }
  exists (array_interval d). split; [exact HZ|]. destruct (proj1 (pow_elementwise L x n m) _ HZ) as (C & S' & P). split; [exact C|].
  assert (E : shp (array_interval d) = s).
  { apply bcast_iff in S'. congruence. }
  split; [exact E|]. rewrite E in P. intros idx Hi. destruct (P idx Hi) as (X & k & W & RX & Rk & HW & G).
  destruct (Hn k) as [j ->]. { destruct Rk as (i & _ & Gk). eapply aget_in. exact Gk. }
  exists X, j, W. split; [exact RX|]. split; [exact Rk|]. split; [exact G|].
  destruct (HX X) as [K1 K2]. { destruct RX as (i & _ & GX). eapply aget_in. exact GX. }
  destruct (pow_int_all L j X m K1 K2) as (W' & HW' & Q). assert (W' = W) by (unfold returns in *; congruence). subst W'. exact Q.
Qed.
