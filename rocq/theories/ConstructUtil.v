(** Proofs about conversion, sign, comparison matrices, arrays combined with
    scalar intervals, and histories of updates. *)
From Coq Require Import ZArith Reals List Bool Arith Lia Lra Psatz Floats.SpecFloat.
From Flocq Require Import Core IEEE754.BinarySingleNaN.
From Verif Require Import Base PyNum Kernel Spec Expr XReal XArith KernelProofs ExprProofs KernelAlg KernelMore Witness Arrays Construct SpecArray ArrayProofs ArrayMore ArrayMat ArrayItems ConstructProofs ConstructMore ConstructSys.
Import ListNotations.
Open Scope nat_scope.

(** ** asinterval *)
Definition same_operand (o o' : operand) : Prop :=
  match o, o' with OItv a, OItv b => b = a | ONum a, ONum b => xval b = xval a | _, _ => False end.
Lemma rmapl_cons {A B} (f : A -> res B) x l y ys : f x = Ok y -> rmapl f l = Ok ys -> rmapl f (x :: l) = Ok (y :: ys).
Proof. intros H1 H2. simpl. now rewrite H1, H2. Qed.
Lemma promote_ops_values l : Forall medium_operand l -> exists l', promote_ops l = Ok l' /\ Forall2 same_operand l l'.
Proof.
  intro H. unfold promote_ops. destruct (forallb is_num l && existsb _ l).
  - induction H as [|c l Hc Hl (l' & E & F)]; [exists []; split; [reflexivity | constructor]|]. destruct c as [c|e].
    + destruct Hc as [Hc _]. destruct (medium_exact c Hc) as (f & Ef & Xf). exists (ONum (PFlt f) :: l'). split; [|constructor; [exact Xf|exact F]].
      apply rmapl_cons; [|exact E]. cbn [cast]. rewrite Ef. reflexivity.
    + exists (OItv e :: l'). split; [|constructor; [reflexivity|exact F]]. apply rmapl_cons; [reflexivity|exact E].
  - exists l. split; [reflexivity|]. clear H. induction l as [|[|]]; constructor; simpl; auto.
Qed.
Lemma point_spec c m : is_nan_num c = false -> single_interval c c false false m = (Ok (mkitv Classical c c), m).
Proof. intro H. apply run_single, unsorted_le. rewrite num_le_x. apply xleb_refl. intro E. apply is_nan_num_x in E. congruence. Qed.
Lemma keeps_as_itv o : keeps_mode (as_itv o).
Proof. destruct o; [apply keeps_single | apply keeps_ret]. Qed.
Lemma as_itv_spec o o' m : medium_operand o -> same_operand o o' -> exists e, returns (as_itv o') m e /\ as_point o e.
Proof.
  intros Ho S. destruct o as [c|e], o' as [c'|e']; try contradiction.
  - destruct Ho as [_ N]. cbn [as_itv]. simpl in S. assert (N' : is_nan_num c' = false).
    { destruct (is_nan_num c') eqn:E; [|reflexivity]. apply is_nan_num_x in E. rewrite S in E. apply is_nan_num_x in E. congruence. }
    exists (mkitv Classical c' c'). split; [unfold returns, outcome; now rewrite (point_spec c' m N')|]. simpl. repeat split; now apply same_num_x.
  - simpl in S. subst e'. exists e. split; reflexivity.
Qed.
Lemma asinterval_spec m :
  (forall e, returns (asinterval (SItv e)) m (RItv e)) /\
  (forall x, returns (asinterval (SArr x)) m (RArr x)) /\
  (forall c, is_nan_num c = false -> returns (asinterval (SNest (NLeaf (ONum c)))) m (RItv (mkitv Classical c c))) /\
  (forall t n s, regular (n :: s) t -> Forall medium_operand (leaves t) ->
     exists x, returns (asinterval (SNest t)) m (RArr x) /\ consistent x /\ shp x = n :: s /\
       forall idx, in_bounds (n :: s) idx -> exists o e, tget t idx = Some o /\ aget (adat x) idx = Some e /\ as_point o e).
Proof.
  split; [reflexivity|]. split; [reflexivity|]. split.
  - intros c N. unfold returns, outcome. cbn [asinterval]. rewrite (bind_ok _ _ _ _ _ (point_spec c m N)). reflexivity.
  - intros t n s R M. destruct (promote_ops_values _ M) as (vs & PE & PF). assert (L := leaves_length _ _ R). assert (Lv := Forall2_len _ _ _ PF).
    assert (T : forall o, In o vs -> exists e, returns (as_itv o) m e).
    { intros o' Ho. apply In_nth_error in Ho. destruct Ho as [k Hk]. destruct (Forall2_nth_r _ _ _ PF _ _ Hk) as (o & Ho & S).
      rewrite Forall_forall in M. destruct (as_itv_spec o o' m (M _ (nth_error_In _ _ Ho)) S) as (e & He & _). eauto. }
    destruct (mapM_total as_itv vs m keeps_as_itv T) as [es Hes]. assert (F := proj1 (mapM_returns as_itv vs m keeps_as_itv es) Hes).
    assert (Le := Forall2_len _ _ _ F).
    exists (array_interval (mkarr (n :: s) es)). split; [|split; [apply array_consistent; unfold awf; cbn [adata ashape]; congruence|split; [reflexivity|]]].
    + destruct (regular_inv_cons _ _ _ R) as (l & -> & _).
      assert (RN : (data <- mlift (np_array (NList l)) ;; vals <- mlift (promote_ops (adata data)) ;;
       d <- amapM as_itv (mkarr (ashape data) vals) ;; mret (RArr (array_interval d))) m = (Ok (RArr (array_interval (mkarr (n :: s) es))), m)).
      { assert (N1 : mlift (np_array (NList l)) m = (Ok (mkarr (n :: s) (leaves (NList l))), m)) by (unfold mlift; now rewrite (np_array_regular _ _ R)).
        rewrite (bind_ok _ _ _ _ _ N1). cbn [adata ashape].
        assert (N2 : mlift (promote_ops (leaves (NList l))) m = (Ok vs, m)) by (unfold mlift; now rewrite PE).
        rewrite (bind_ok _ _ _ _ _ N2). 
        assert (N3 : amapM as_itv (mkarr (n :: s) vs) m = (Ok (mkarr (n :: s) es), m)).
        { unfold amapM. cbn [adata ashape]. rewrite (bind_ok _ _ _ _ _ (run_returns _ _ _ (keeps_mapM _ _ keeps_as_itv) Hes)). reflexivity. }
        rewrite (bind_ok _ _ _ _ _ N3). reflexivity. }
      unfold returns, outcome. cbn [asinterval]. unfold as_type_error. rewrite RN. reflexivity.
    + intros idx Hi. apply in_bounds_flat in Hi. destruct Hi as [k Fl]. assert (Hk := flat_lt _ _ _ Fl).
      destruct (nth_error (leaves t) k) as [o|] eqn:Eo; [|apply nth_error_None in Eo; lia].
      destruct (Forall2_nth _ _ _ PF _ _ Eo) as (o' & Eo' & S). destruct (Forall2_nth _ _ _ F _ _ Eo') as (e & Ee & Re).
      exists o, e. rewrite <- (leaves_nth _ _ _ _ R Fl). split; [exact Eo|]. split; [unfold aget; cbn [adat array_interval ashape adata]; now rewrite Fl|].
      rewrite Forall_forall in M. destruct (as_itv_spec o o' m (M _ (nth_error_In _ _ Eo)) S) as (e' & He' & P).
      unfold returns in *. assert (e' = e) by congruence. now subst e'.
Qed.
(** Applying it again changes nothing. *)
Lemma asinterval_idem a m r : returns (asinterval a) m r -> returns (asinterval (as_again r)) m r.
Proof. intros _. destruct r; reflexivity. Qed.

(** ** sign *)
Open Scope R_scope.
Lemma member_neg X r : member X r -> num_lt (lo X) (PInt 0) = true -> exists x, member X x /\ x < 0 /\ x <= r.
Proof.
  rewrite num_lt_x, member_x. cbn [xval]. intros [L H] N. destruct (xval (lo X)) as [| | |a] eqn:E; try discriminate.
  - exists (Rmin r (-1)). rewrite member_x, E. split; [split; [exact I|eapply R_xle_trans; [exact H|apply Rmin_l]]|].
    assert (A := Rmin_l r (-1)). assert (B := Rmin_r r (-1)). lra.
  - simpl in L. apply xltb_fin in N. exists a. rewrite member_x, E. split; [split; [simpl; lra | eapply R_xle_trans; [exact H|exact L]]|]. lra.
Qed.
Lemma member_pos X r : member X r -> num_lt (PInt 0) (hi X) = true -> exists x, member X x /\ 0 < x.
Proof.
  rewrite num_lt_x, member_x. cbn [xval]. intros [L H] N. destruct (xval (hi X)) as [| | |a] eqn:E; try discriminate.
  - exists (Rmax r 1). rewrite member_x, E. split; [split; [eapply xle_R_trans; [exact L|apply Rmax_l]|exact I]|].
    assert (B := Rmax_r r 1). lra.
  - simpl in H. apply xltb_fin in N. exists a. rewrite member_x, E. split; [split; [eapply xle_R_trans; [exact L|exact H] | simpl; lra]|]. lra.
Qed.
Lemma hull_ok X a b x1 x2 m (l h : Z) : IZR l = a -> IZR h = b -> (l <= h)%Z -> member X x1 -> sign_of x1 a -> member X x2 -> sign_of x2 b ->
  (forall x s, member X x -> sign_of x s -> a <= s <= b) ->
  exists Z, returns (single_interval (PInt l) (PInt h) false false) m Z /\ sign_hull X Z.
Proof.
  intros <- <- Hlh M1 S1 M2 S2 H. exists (mkitv Classical (PInt l) (PInt h)). split.
  - apply unsorted_le. rewrite num_le_x. now apply xleb_fin, IZR_le.
  - split; [reflexivity|]. split; [split; exact I|]. cbn [lo hi num_val]. split; [eauto|]. split; [eauto|]. exact H.
Qed.
Lemma xltb_false_fin a r : xltb a (XFin 0) = false -> xle_R a r -> (a = XFin 0 \/ xltb (XFin 0) a = true).
Proof.
  destruct a as [| | |v]; simpl; intros H L; try contradiction; try discriminate.
  destruct (Rtotal_order v 0) as [N|[->|P]]; [exfalso; apply xltb_fin in N; congruence | now left | right; now apply xltb_fin].
Qed.
Lemma sign_spec X m : (exists r, member X r) -> exists Z, returns (sign_itv X) m Z /\ sign_hull X Z.
Proof.
  intros (r & Mr). assert (Mr' := Mr). apply member_x in Mr'. destruct Mr' as [Lr Hr].
  assert (UP : forall x, member X x -> R_xle x (xval (hi X))) by (intros x Mx; apply member_x in Mx; tauto).
  assert (LO : forall x, member X x -> xle_R (xval (lo X)) x) by (intros x Mx; apply member_x in Mx; tauto).
  unfold sign_itv. cbv zeta.
  destruct (num_lt (hi X) (PInt 0)) eqn:E1.
  { assert (NEG : forall x, member X x -> x < 0).
    { intros x Mx. specialize (UP x Mx). rewrite num_lt_x in E1. cbn [xval] in E1. destruct (xval (hi X)); simpl in UP; try contradiction; try discriminate.
      apply xltb_fin in E1. lra. }
    apply (hull_ok X (-1) (-1) r r m (-1) (-1)); try reflexivity; try lia; auto; try (left; split; [auto|reflexivity]).
    intros x s Mx Sx. specialize (NEG x Mx). destruct Sx as [[_ ->]|[[? _]|[? _]]]; lra. }
  destruct (num_lt (lo X) (PInt 0)) eqn:E2.
  - destruct (member_neg X r Mr E2) as (xn & Mn & Hn & _). cbn [andb].
    destruct (num_eq (hi X) (PInt 0)) eqn:E3.
    + rewrite num_eq_x in E3. cbn [xval] in E3. destruct (xval (hi X)) as [| | |b] eqn:Eb; try discriminate. apply xeqb_fin in E3. subst b.
      assert (M0 : member X 0).
      { apply member_x. rewrite Eb. split; [|simpl; lra]. eapply xle_R_trans; [exact (LO xn Mn)|lra]. }
      apply (hull_ok X (-1) 0 xn 0 m (-1) 0); try reflexivity; try lia; auto; [left; auto | right; left; auto|].
      intros x s Mx Sx. specialize (UP x Mx). simpl in UP. destruct Sx as [[_ ->]|[[_ ->]|[? _]]]; lra.
    + assert (E4 : num_lt (PInt 0) (hi X) = true).
      { rewrite num_lt_x in *. rewrite num_eq_x in E3. cbn [xval] in *. destruct (xval (hi X)) as [| | |b] eqn:Eb; simpl in Hr; try contradiction; try reflexivity.
        apply xltb_fin. destruct (Rtotal_order b 0) as [N|[->|P]]; [exfalso; apply xltb_fin in N; congruence | exfalso; assert (T : xeqb (XFin 0) (XFin 0) = true) by (apply xeqb_fin; reflexivity); rewrite T in *; discriminate | exact P]. }
      rewrite E4. destruct (member_pos X r Mr E4) as (xp & Mp & Hp).
      apply (hull_ok X (-1) 1 xn xp m (-1) 1); try reflexivity; try lia; auto; [left; auto | right; right; auto|].
      intros x s Mx Sx. destruct Sx as [[_ ->]|[[_ ->]|[_ ->]]]; lra.
  - cbn [andb]. assert (E2' := E2). rewrite num_lt_x in E2'. cbn [xval] in E2'. 
    assert (PP : forall x, member X x -> num_eq (lo X) (PInt 0) = true \/ 0 < x).
    { intros x Mx. specialize (LO x Mx). destruct (xltb_false_fin _ _ E2' LO) as [E|E].
      - left. rewrite num_eq_x, E. now apply xeqb_fin.
      - right. destruct (xval (lo X)); simpl in LO; try contradiction; try discriminate. apply xltb_fin in E. lra. }
    assert (NN : forall x, member X x -> 0 <= x).
    { intros x Mx. specialize (LO x Mx). destruct (xltb_false_fin _ _ E2' LO) as [E|E]; [rewrite E in LO; simpl in LO; lra|].
      destruct (xval (lo X)); simpl in LO; try contradiction; try discriminate. apply xltb_fin in E. lra. }
    destruct (num_eq (lo X) (PInt 0)) eqn:E3.
    + assert (E0 : xval (lo X) = XFin 0).
      { rewrite num_eq_x in E3. cbn [xval] in E3. destruct (xval (lo X)) as [| | |a]; try discriminate. apply xeqb_fin in E3. now subst a. }
      assert (M0 : member X 0).
      { apply member_x. rewrite E0. split; [simpl; lra|]. eapply R_xle_trans; [exact Hr|]. exact (NN r Mr). }
      cbn [andb]. destruct (num_eq (hi X) (PInt 0)) eqn:E4.
      * rewrite num_eq_x in E4. cbn [xval] in E4. destruct (xval (hi X)) as [| | |b] eqn:Eb; try discriminate. apply xeqb_fin in E4. subst b.
        apply (hull_ok X 0 0 0 0 m 0 0); try reflexivity; try lia; auto; try (right; left; auto).
        intros x s Mx Sx. specialize (UP x Mx). specialize (NN x Mx). simpl in UP. destruct Sx as [[? _]|[[_ ->]|[? _]]]; lra.
      * assert (E5 : num_lt (PInt 0) (hi X) = true).
        { rewrite num_lt_x in *. rewrite num_eq_x in E4. cbn [xval] in *. destruct (xval (hi X)) as [| | |b] eqn:Eb; simpl in Hr; try contradiction; try reflexivity.
          apply xltb_fin. destruct (Rtotal_order b 0) as [N|[->|P]]; [exfalso; apply xltb_fin in N; congruence | exfalso; assert (T : xeqb (XFin 0) (XFin 0) = true) by (apply xeqb_fin; reflexivity); rewrite T in *; discriminate | exact P]. }
        rewrite E5. destruct (member_pos X r Mr E5) as (xp & Mp & Hp).
        apply (hull_ok X 0 1 0 xp m 0 1); try reflexivity; try lia; auto; [right; left; auto | right; right; auto|].
        intros x s Mx Sx. specialize (NN x Mx). destruct Sx as [[? _]|[[_ ->]|[_ ->]]]; lra.
    + cbn [andb]. assert (POS : forall x, member X x -> 0 < x) by (intros x Mx; destruct (PP x Mx); [congruence | assumption]).
      apply (hull_ok X 1 1 r r m 1 1); try reflexivity; try lia; auto; try (right; right; auto).
      intros x s Mx Sx. specialize (POS x Mx). destruct Sx as [[? _]|[[? _]|[_ ->]]]; lra.
Qed.

(** ** compmat *)
Lemma mag_double e m : small_itv e -> exists v, returns (v <- mag e ;; mret (PFlt v)) m v.
Proof. intro S. destruct (mag_run e m S) as (f & Hf & _). exists (PFlt f). unfold returns, outcome. rewrite (bind_ok _ _ _ _ _ Hf). reflexivity. Qed.
Lemma mig_double e m : small_itv e -> exists v, returns (v <- mig e ;; mret (PFlt v)) m v.
Proof. intro S. destruct (mig_run e m S) as (f & Hf & _). exists (PFlt f). unfold returns, outcome. rewrite (bind_ok _ _ _ _ _ Hf). reflexivity. Qed.
Lemma keeps_flt (c : M flt) : keeps_mode c -> keeps_mode (v <- c ;; mret (PFlt v)).
Proof. intro K. apply keeps_bind; [exact K|]. intro. apply keeps_ret. Qed.
Lemma flt_is_double (c : M flt) m v : keeps_mode c -> returns (v <- c ;; mret (PFlt v)) m v -> exists f, returns c m f /\ v = PFlt f.
Proof. intros K H. apply keeps_returns in H; [|exact K]. destruct H as (f & Hf & E). apply returns_ret in E. eauto. Qed.
Lemma mag_array A m : adata (adat A) <> [] -> Forall small_itv (adata (adat A)) ->
  exists Z, returns (arr_mag A) m Z /\ ashape Z = ashape (adat A) /\ Forall2 (fun e v => exists f, v = PFlt f /\ returns (mag e) m f) (adata (adat A)) (adata Z).
Proof.
  intros N S. rewrite Forall_forall in S. destruct (double_fun_exact (fun e => v <- mag e ;; mret (PFlt v)) A m) as (Z & HZ & SZ & F); auto.
  - intro. apply keeps_flt, keeps_mag.
  - intros e v H. apply flt_is_double in H; [|apply keeps_mag]. destruct H as (f & _ & ->). now exists f.
  - intros e He. apply mag_double, S, He.
  - exists Z. split; [exact HZ|]. split; [exact SZ|]. clear - F. induction F; constructor; auto. apply flt_is_double in H; [|apply keeps_mag]. destruct H as (f & ? & ->). eauto.
Qed.
Lemma mig_array A m : adata (adat A) <> [] -> Forall small_itv (adata (adat A)) ->
  exists Z, returns (arr_mig A) m Z /\ ashape Z = ashape (adat A) /\ Forall2 (fun e v => exists f, v = PFlt f /\ returns (mig e) m f) (adata (adat A)) (adata Z).
Proof.
  intros N S. rewrite Forall_forall in S. destruct (double_fun_exact (fun e => v <- mig e ;; mret (PFlt v)) A m) as (Z & HZ & SZ & F); auto.
  - intro. apply keeps_flt, keeps_mig.
  - intros e v H. apply flt_is_double in H; [|apply keeps_mig]. destruct H as (f & _ & ->). now exists f.
  - intros e He. apply mig_double, S, He.
  - exists Z. split; [exact HZ|]. split; [exact SZ|]. clear - F. induction F; constructor; auto. apply flt_is_double in H; [|apply keeps_mig]. destruct H as (f & ? & ->). eauto.
Qed.
Lemma keeps_vnum {A} (f : A -> M pynum) a : (forall e, keeps_mode (f e)) -> keeps_mode (vectorize_num f a).
Proof. apply keeps_vectorize_num. Qed.
Lemma compmat_spec A r c m : consistent A -> shp A = [r; c] -> (r * c <> 0)%nat -> Forall small_itv (adata (adat A)) -> Forall proper_fin (adata (adat A)) ->
  exists C, returns (compmat A) m C /\ ashape C = [r; c] /\
    forall i j e, (i < r)%nat -> (j < c)%nat -> aget (adat A) [i; j] = Some e ->
      exists v, aget C [i; j] = Some v /\ finite_num v /\ (i = j -> least_abs e (num_val v)) /\ (i <> j -> greatest_abs e (- num_val v)).
Proof.
  intros CA SA N Sm Pf. assert (NE : adata (adat A) <> []) by (apply nonempty_size; [exact CA | rewrite SA; simpl; lia]).
  destruct (mag_array A m NE Sm) as (G & HG & SG & FG). destruct (mig_array A m NE Sm) as (H & HH & SH & FH).
  destruct CA as [CA WA]. assert (Sd : ashape (adat A) = [r; c]) by congruence.
  assert (GET : forall (Z : arr pynum) (R : itv -> pynum -> Prop) idx, ashape Z = ashape (adat A) -> Forall2 R (adata (adat A)) (adata Z) -> in_bounds [r; c] idx ->
     exists e v, aget (adat A) idx = Some e /\ aget Z idx = Some v /\ R e v).
  { intros Z R idx SZ F B. rewrite <- Sd in B. apply in_bounds_flat in B. destruct B as [k Fl]. destruct (aget_some _ _ _ WA Fl) as (e & Ge & Ne).
    destruct (Forall2_nth _ _ _ F k e Ne) as (v & Nv & Rv). exists e, v. split; [exact Ge|]. split; [unfold aget; now rewrite SZ, Fl | exact Rv]. }
  set (f := fun idx => if (nth 0 idx 0 =? nth 1 idx 0)%nat
             then match aget H idx with Some v => mret v | None => mraise IndexError end
             else match aget G idx with Some v => mret (num_neg v) | None => mraise IndexError end).
  assert (Kf : forall idx, keeps_mode (f idx)).
  { intro idx. unfold f. destruct (nth 0 idx 0 =? nth 1 idx 0)%nat; [destruct (aget H idx) | destruct (aget G idx)]; first [apply keeps_ret | apply keeps_raise]. }
  assert (Tf : forall idx, In idx (indices [r; c]) -> exists v, returns (f idx) m v).
  { intros idx Hi. apply in_indices in Hi. destruct Hi as [k Fl]. assert (B : in_bounds [r; c] idx) by (apply in_bounds_flat; eauto).
    unfold f. destruct (nth 0 idx 0 =? nth 1 idx 0)%nat.
    - destruct (GET H _ idx SH FH B) as (e & v & _ & -> & _). eexists; reflexivity.
    - destruct (GET G _ idx SG FG B) as (e & v & _ & -> & _). eexists; reflexivity. }
  destruct (mapM_total f (indices [r; c]) m Kf Tf) as [l Hl]. assert (Fl := proj1 (mapM_returns f _ m Kf l) Hl).
  exists (mkarr [r; c] l). split; [|split; [reflexivity|]].
  - unfold compmat, returns, outcome.
    rewrite (bind_ok _ _ _ _ _ (run_returns _ _ _ (keeps_vnum _ _ (fun e => keeps_flt _ (keeps_mag e))) HG)).
    rewrite (bind_ok _ _ _ _ _ (run_returns _ _ _ (keeps_vnum _ _ (fun e => keeps_flt _ (keeps_mig e))) HH)).
    rewrite SA. fold f. rewrite (bind_ok _ _ _ _ _ (run_returns _ _ _ (keeps_mapM f _ Kf) Hl)). reflexivity.
  - intros i j e Hi Hj Ge. assert (B := ib2 _ _ _ _ Hi Hj). assert (B' := B). apply in_bounds_flat in B'. destruct B' as [k Fk].
    destruct (Forall2_nth _ _ _ Fl k [i; j] (flat_nth _ _ _ Fk)) as (v & Nv & Rv).
    exists v. split; [unfold aget; cbn [ashape adata]; now rewrite Fk|].
    rewrite Forall_forall in Sm, Pf. assert (Se := Sm e (aget_in _ _ _ Ge)). assert (Pe := Pf e (aget_in _ _ _ Ge)).
    unfold f in Rv. cbn [nth] in Rv. destruct (Nat.eqb_spec i j) as [E|E].
    + destruct (GET H _ [i; j] SH FH B) as (e' & w & Ge' & Gw & (fl & -> & Rf)). assert (e' = e) by congruence. subst e'. rewrite Gw in Rv.
      apply returns_ret in Rv. subst v. destruct (mig_exact e m Se Pe) as (g & Hg & Fg & At & Bd). unfold returns in *. assert (g = fl) by congruence. subst g.
      split; [exact Fg|]. split; [intros _; split; assumption | contradiction].
    + destruct (GET G _ [i; j] SG FG B) as (e' & w & Ge' & Gw & (fl & -> & Rf)). assert (e' = e) by congruence. subst e'. rewrite Gw in Rv.
      apply returns_ret in Rv. subst v. destruct (mag_exact e m Se Pe) as (g & Hg & Fg & At & Bd). unfold returns in *. assert (g = fl) by congruence. subst g.
      split; [now apply finite_neg|]. split; [contradiction|]. intros _. rewrite num_val_neg, Ropp_involutive. cbn [num_val]. split; assumption.
Qed.

(** ** mid, rad, inf, sup, mag of a number *)
Lemma u_number c m : medium_num c -> finite_num c ->
  (exists v, returns (u_mid (ONum c)) m v /\ same_num v c) /\ (exists v, returns (u_inf (ONum c)) m v /\ same_num v c) /\
  (exists v, returns (u_sup (ONum c)) m v /\ same_num v c) /\ (exists v, returns (u_rad (ONum c)) m v /\ num_val v = 0 /\ finite_num v) /\
  (exists v, returns (u_mag (ONum c)) m v /\ finite_num v /\ num_val v = Rabs (num_val c)) /\
  (exists v, returns (u_wid (ONum c)) m v /\ same_num v c).
Proof.
  intros Md F. destruct (medium_exact c Md) as (f & Ef & Xf).
  assert (G : forall (k : M pynum), k = (f <- mlift (to_double c) ;; mret (PFlt f)) -> exists v, returns k m v /\ same_num v c).
  { intros k ->. exists (PFlt f). split; [unfold returns, outcome, mbind, mlift; now rewrite Ef | now apply same_num_x]. }
  repeat split; try (apply G; reflexivity).
  - exists (PFlt f0). repeat split.
  - assert (Ma : medium_num (num_abs c)) by (destruct c; simpl in *; auto; now rewrite Z.abs_involutive).
    destruct (medium_exact (num_abs c) Ma) as (g & Eg & Xg). exists (PFlt g). split; [unfold returns, outcome, u_mag, mbind, mlift; now rewrite Eg|].
    assert (V : xflt g = XFin (Rabs (num_val c))).
    { rewrite Xg. destruct c as [z|h]; cbn [num_abs xval num_val]; [now rewrite abs_IZR|]. rewrite xflt_abs. simpl in F. apply is_finite_x in F. now rewrite F. }
    apply xval_num_val. exact V.
Qed.

(** ** Arrays combined with one interval *)
Lemma neg_good S : good S -> good (neg S).
Proof.
  intro G. assert (W := neg_sound S). destruct G as (k & s & H). apply good_of_wsound1 with (fun x => Some (- x)) S; auto.
  - split; [assumption|split; assumption].
  - destruct s. split; simpl; now apply small_neg.
Qed.
Lemma map_op_encl (x : aitv) (o : binop) (m : rmode) (Y : itv) :
  adata (adat x) <> [] -> awf (adat x) -> Forall good (adata (adat x)) -> good Y -> o = OpAdd \/ o = OpMul ->
  exists Z, returns (lift_arr (vectorize (fun e => py_op o (OItv e) (OItv Y)) (adat x))) m Z /\ consistent Z /\ shp Z = ashape (adat x) /\ Forall good (adata (adat Z)) /\
    forall idx e, aget (adat x) idx = Some e -> exists c, aget (adat Z) idx = Some c /\ forall u v, member e u -> member Y v -> member_or_nan c (opR o u v).
Proof.
  intros N W G GY Ho. rewrite Forall_forall in G.
  assert (K : forall e, keeps_mode (py_op o (OItv e) (OItv Y))) by (intro e; exact (keeps_py_op o (OItv e) (OItv Y))).
  assert (T : forall e, In e (adata (adat x)) -> exists c, returns (py_op o (OItv e) (OItv Y)) m c).
  { intros e He. destruct (G e He) as (ke & se & _). destruct GY as (kY & sY & _). destruct Ho as [-> | ->].
    - destruct (add_encl e Y m se sY) as (Z & HZ & _). exists Z. exact HZ.
    - destruct (mul_encl e Y m se sY ke kY) as (Z & HZ & _). exists Z. exact HZ. }
  destruct (arr_map_total _ x m K N T) as [Z HZ]. exists Z. split; [exact HZ|].
  destruct (arr_map_spec _ x m Z K HZ W) as (CZ & SZ & P).
  assert (Q : forall idx e, aget (adat x) idx = Some e -> exists c, aget (adat Z) idx = Some c /\ good c /\ forall u v, member e u -> member Y v -> member_or_nan c (opR o u v)).
  { intros idx e Ge. destruct (P idx e Ge) as (c & Gc & Rc). exists c. split; [exact Gc|].
    assert (Gd := G e (aget_in _ _ _ Ge)). destruct (py_op_itv o e Y m c Gd GY Rc) as (kc & sc & Ws).
    split; [eapply good_of_wsound2; [exact Gd|exact GY|exact kc|exact sc|exact Ws]|].
    intros u v Mu Mv. destruct Ws as [_ Ws]. destruct (Ws u v Mu Mv) as (r & Er & Mr). destruct Ho as [-> | ->]; simpl in Er; inversion Er; subst; exact Mr. }
  split; [exact CZ|]. split; [exact SZ|]. split; [|intros idx e Ge; destruct (Q idx e Ge) as (c & ? & _ & ?); eauto].
  destruct CZ as [CZ WZ]. apply all_of_indices; [exact WZ|]. intros idx Hi.
  assert (Hx : in_bounds (ashape (adat x)) idx) by (rewrite <- SZ, CZ; exact Hi).
  apply in_bounds_flat in Hx. destruct Hx as [j Fj]. destruct (aget_some _ _ _ W Fj) as (e & Ge & _).
  destruct (Q idx e Ge) as (c & Gc & Gd & _). eauto.
Qed.
Lemma bind_run_eq {A B} (c c' : M A) (k : A -> M B) m : c m = c' m -> (x <- c ;; k x) m = (x <- c' ;; k x) m.
Proof. intro H. unfold mbind. now rewrite H. Qed.
Lemma recip_good Y m : good Y -> ~ member Y 0 ->
  exists i u, with_rounding FE_DOWNWARD (as_double (div_ (PInt 1) (hi Y))) m = (Ok i, m) /\
    with_rounding FE_UPWARD (as_double (div_ (PInt 1) (lo Y))) m = (Ok u, m) /\
    good (mkitv (kd Y) (PFlt i) (PFlt u)) /\ forall y, member Y y -> y <> 0 /\ member (mkitv (kd Y) (PFlt i) (PFlt u)) (1 / y).
Proof.
  intros G N0. apply contains0_false in N0. assert (O := good_ordered Y G). destruct (zero_ends Y N0 O) as [N1 N2].
  destruct G as (kY & [sl sh] & HY).
  assert (S1 : small_num (PInt 1)) by (unfold small_num; lia). destruct (div_run mode_DN (PInt 1) (hi Y) S1 sh N2) as (i & Hi & Hxi). destruct (div_run mode_UP (PInt 1) (lo Y) S1 sl N1) as (u & Hu & Hxu).
  cbn [xval] in Hxi, Hxu. exists i, u. split; [exact (with_rounding_ok FE_DOWNWARD _ m _ _ Hi)|].
  split; [exact (with_rounding_ok FE_UPWARD _ m _ _ Hu)|].
  assert (E : forall y, member Y y -> y <> 0 /\ member (mkitv (kd Y) (PFlt i) (PFlt u)) (1 / y)).
  { intros y My. assert (Z := not_zero_end Y y N0 My). apply member_x in My. destruct My as [Ha Hb]. split; [exact (no_zero_nz _ _ _ Ha Hb Z)|].
    destruct (recip_encl _ _ _ Ha Hb Z) as [R1 R2]. apply member_x. cbn [lo hi xval]. rewrite Hxi, Hxu. now split. }
  split; [|exact E]. split; [exact kY|]. split; [split; exact I|]. destruct HY as [HN|[y My]].
  - left. apply nan_itv_x in HN. destruct HN as [NL NH]. apply nan_itv_x. cbn [lo hi xval]. rewrite Hxi, Hxu, NL, NH. split; reflexivity.
  - right. exists (1 / y). now apply E.
Qed.
(** Array op scalar interval. *)
Lemma arr_op_itv_encl o x S m : consistent x -> adata (adat x) <> [] -> Forall good (adata (adat x)) -> good S -> (o = OpDiv -> ~ member S 0) ->
  exists Z, returns (arr_op_itv o x S) m Z /\ consistent Z /\ shp Z = shp x /\ Forall good (adata (adat Z)) /\
    forall idx e, aget (adat x) idx = Some e -> exists c, aget (adat Z) idx = Some c /\
      forall u v, member e u -> member S v -> (o = OpDiv -> v <> 0) /\ member_or_nan c (opR o u v).
Proof.
  intros [Cs W] N G GS D. rewrite Cs. destruct o.
  - destruct (map_op_encl x OpAdd m S N W G GS (or_introl eq_refl)) as (Z & HZ & CZ & SZ & GZ & P).
    exists Z. split; [exact HZ|]. split; [exact CZ|]. split; [exact SZ|]. split; [exact GZ|]. intros idx e Ge. destruct (P idx e Ge) as (c & Gc & H).
    exists c. split; [exact Gc|]. intros u v Mu Mv. split; [discriminate|]. now apply H.
  - destruct (map_op_encl x OpAdd m (neg S) N W G (neg_good S GS) (or_introl eq_refl)) as (Z & HZ & CZ & SZ & GZ & P).
    exists Z. split; [exact HZ|]. split; [exact CZ|]. split; [exact SZ|]. split; [exact GZ|]. intros idx e Ge. destruct (P idx e Ge) as (c & Gc & H).
    exists c. split; [exact Gc|]. intros u v Mu Mv. split; [discriminate|]. destruct (neg_sound S) as [_ NS]. destruct (NS v Mv) as (r & Er & [Nr|Mr]); inversion Er; subst r.
    + exfalso. apply nan_itv_x in Nr. destruct Nr as [N1 _]. cbn [lo neg] in N1. rewrite num_neg_x in N1. apply member_x in Mv. destruct Mv as [_ Mv].
      destruct (xval (hi S)); simpl in Mv, N1; try contradiction; discriminate.
    + exact (H u (- v) Mu Mr).
  - destruct (map_op_encl x OpMul m S N W G GS (or_intror eq_refl)) as (Z & HZ & CZ & SZ & GZ & P).
    exists Z. split; [exact HZ|]. split; [exact CZ|]. split; [exact SZ|]. split; [exact GZ|]. intros idx e Ge. destruct (P idx e Ge) as (c & Gc & H).
    exists c. split; [exact Gc|]. intros u v Mu Mv. split; [discriminate|]. now apply H.
  - destruct (recip_good S m GS (D eq_refl)) as (i & u0 & Hi & Hu & GR & E).
    destruct (map_op_encl x OpMul m _ N W G GR (or_intror eq_refl)) as (Z & HZ & CZ & SZ & GZ & P).
    exists Z. split.
    { unfold returns, outcome in *. rewrite <- HZ. unfold arr_op_itv, lift_arr. apply (f_equal fst). apply bind_run_eq.
      rewrite (bind_ok _ _ _ _ _ Hi), (bind_ok _ _ _ _ _ Hu). reflexivity. }
    split; [exact CZ|]. split; [exact SZ|]. split; [exact GZ|]. intros idx e Ge. destruct (P idx e Ge) as (c & Gc & H).
    exists c. split; [exact Gc|]. intros u v Mu Mv. destruct (E v Mv) as [Nz Mi]. split; [auto|].
    replace (opR OpDiv u v) with (opR OpMul u (1 / v)) by (simpl; field; exact Nz). now apply H.
Qed.

(** ** Histories *)
Open Scope nat_scope.
Lemma broadcast_scalar s : broadcast_shape s [] s.
Proof. apply bcast_iff, bcast_nil_r. Qed.
Lemma setitem_consistent x key v y : consistent x -> setitem x key v = Ok y -> consistent y /\ shp y = shp x.
Proof.
  intros C H. destruct (norm_key (ashape (adat x)) key) as [idx|e] eqn:E.
  - apply norm_key_spec in E. destruct (proj1 (setitem_spec x key v C) idx E) as (y' & Hy & Cy & Sy & _). rewrite H in Hy. apply Ok_inj in Hy. now subst y'.
  - unfold setitem in H. rewrite E in H. discriminate.
Qed.
Lemma np_delete_wf d z ax d' : awf d -> np_delete d z ax = Ok d' -> awf d'.
Proof.
  intros W H. assert (H' := H). unfold np_delete in H'. destruct (nth_error (ashape d) ax) as [n|] eqn:E; [|discriminate].
  destruct (norm_index n z) as [k|e] eqn:K; [|discriminate]. apply norm_index_spec in K.
  destruct (np_delete_spec d z ax n k W E K) as (d2 & H2 & _ & W2 & _). rewrite H in H2. apply Ok_inj in H2. now subst d2.
Qed.
Lemma delitem_consistent x key y : consistent x -> delitem x key = Ok y -> consistent y.
Proof.
  intros [C W] H. destruct key as [z|[|z zs]| |]; try discriminate; unfold delitem in H.
  - destruct (np_delete (adat x) z 0) as [d|] eqn:E; [|discriminate]. apply Ok_inj in H. subst y. split; [reflexivity|]. exact (np_delete_wf _ _ _ _ W E).
  - destruct (np_delete (adat x) (last (z :: zs) 0%Z) (length (z :: zs) - 1)) as [d|] eqn:E; [|discriminate]. apply Ok_inj in H. subst y. split; [reflexivity|]. exact (np_delete_wf _ _ _ _ W E).
Qed.
Lemma history_consistent m x l y : history m x l y -> consistent x -> Forall scalar_update l -> consistent y.
Proof.
  intros H. induction H; intros C F; try (inversion F; subst); auto.
  - apply IHhistory; auto. now apply (setitem_consistent x key v y).
  - apply IHhistory; auto. now apply (delitem_consistent x key y).
  - apply IHhistory; auto. destruct (iop_consistent o x other m y H) as (_ & _ & I). apply I. simpl in *. destruct C as [C _].
    match goal with E : ashape other = [] |- _ => rewrite E end. rewrite C. apply broadcast_scalar.
Qed.
