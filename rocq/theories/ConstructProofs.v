(** Proofs about construction, conversion and intersection. *)
From Coq Require Import ZArith Reals List Bool Arith Lia Lra Psatz.
From Flocq Require Import Core IEEE754.BinarySingleNaN.
From Verif Require Import Base PyNum Kernel Spec Expr XReal XArith KernelProofs ExprProofs KernelAlg KernelMore Witness Arrays Construct SpecArray ArrayProofs ArrayMore ArrayMat ArrayItems.
Import ListNotations.
Open Scope nat_scope.

(** ** SingleInterval *)
Lemma keeps_single l r s q : keeps_mode (single_interval l r s q).
Proof.
  unfold single_interval. apply keeps_bind.
  - destruct q; [|apply keeps_ret]. destruct (num_ge r (PInt 0)); [|apply keeps_raise].
    apply keeps_bind; [apply keeps_prim|]. intro. apply keeps_bind; [apply keeps_prim|]. intro. apply keeps_ret.
  - intros [? ?]. apply keeps_ret.
Qed.
Lemma nan_num_cmp x y : num_le x y = false -> num_gt x y = false -> is_nan_num x = true \/ is_nan_num y = true.
Proof.
  unfold num_gt. rewrite num_le_x, num_lt_x, !is_nan_num_x. intros H1 H2.
  destruct (xval x) eqn:Ex; destruct (xval y) eqn:Ey; auto; exfalso; try discriminate; 
  match goal with A : xleb ?u ?v = false, B : xltb ?v ?u = false |- _ =>
    assert (N : xleb u v = true) by (apply xltb_false_xleb; [discriminate|discriminate|exact B]); congruence end.
Qed.
Lemma single_sorted l r m :
  exists Z, returns (single_interval l r true false) m Z /\ kd Z = Classical /\
    ((lo Z = l /\ hi Z = r) \/ (lo Z = r /\ hi Z = l)) /\
    (is_nan_num l = false -> is_nan_num r = false -> num_le (lo Z) (hi Z) = true).
Proof.
  unfold single_interval. destruct (num_gt l r) eqn:E.
  - exists (mkitv Classical r l). split; [unfold returns, outcome, mbind; simpl; now rewrite E|]. split; [reflexivity|]. split; [right; auto|].
    intros _ _. simpl. unfold num_gt in E. rewrite num_lt_x in E. rewrite num_le_x. now apply xltb_xleb.
  - exists (mkitv Classical l r). split; [unfold returns, outcome, mbind; simpl; now rewrite E|]. split; [reflexivity|]. split; [left; auto|].
    intros Nl Nr. simpl. destruct (num_le l r) eqn:F; [reflexivity|]. destruct (nan_num_cmp l r F E); congruence.
Qed.
Lemma single_unsorted l r m :
  exists Z, returns (single_interval l r false false) m Z /\ lo Z = l /\ hi Z = r /\ (kd Z = Classical <-> num_le l r = true).
Proof.
  unfold single_interval. destruct (num_le l r) eqn:E.
  - exists (mkitv Classical l r). split; [unfold returns, outcome, mbind; simpl; now rewrite E|]. simpl. tauto.
  - exists (mkitv Kaucher l r). split; [unfold returns, outcome, mbind; simpl; now rewrite E|]. simpl. split; [auto|]. split; [auto|]. split; discriminate.
Qed.
Lemma single_midrad_neg c r s m : num_le (PInt 0) r = false -> raises (single_interval c r s true) m AssertionError.
Proof. intro H. unfold single_interval, raises, outcome, mbind, num_ge. now rewrite H. Qed.

Open Scope R_scope.
Lemma num_sub_x m a b : exact_num a -> exact_num b -> is_flt a || is_flt b = true ->
  exists v, num_sub m a b = Ok (PFlt v) /\ xflt v = xsub m (xval a) (xval b).
Proof.
  intros Ha Hb F. destruct (to_double_exact a Ha) as (f & Hf & Xf). destruct (to_double_exact b Hb) as (g & Hg & Xg).
  exists (fsub m f g). unfold num_sub, arith2.
  destruct a, b; simpl in F; try discriminate; rewrite Hf, Hg; cbn [rbind]; (split; [reflexivity|]); rewrite fsub_x; now rewrite Xf, Xg.
Qed.
Lemma num_add_x m a b : exact_num a -> exact_num b -> is_flt a || is_flt b = true ->
  exists v, num_add m a b = Ok (PFlt v) /\ xflt v = xadd m (xval a) (xval b).
Proof.
  intros Ha Hb F. destruct (to_double_exact a Ha) as (f & Hf & Xf). destruct (to_double_exact b Hb) as (g & Hg & Xg).
  exists (fadd m f g). unfold num_add, arith2.
  destruct a, b; simpl in F; try discriminate; rewrite Hf, Hg; cbn [rbind]; (split; [reflexivity|]); rewrite fadd_x; now rewrite Xf, Xg.
Qed.
(** Rounding is monotone in every mode. *)
Lemma rnd_mono m a b : a <= b -> rnd m a <= rnd m b.
Proof. intro H. apply round_le; [apply fexp_correct; reflexivity | apply valid_rnd_round_mode | exact H]. Qed.
Lemma rnd_0 m : rnd m 0 = 0.
Proof. apply round_0. apply valid_rnd_round_mode. Qed.
Lemma xround_mono m a b : a <= b -> xleb (xround m a) (xround m b) = true.
Proof.
  intro H. assert (R := rnd_mono m a b H). assert (B := bpow_gt_0 radix2 1024). assert (F := fmaxR_pos). unfold xround.
  destruct (Rlt_bool_spec (Rabs (rnd m a)) (bpow radix2 1024)) as [La|La]; destruct (Rlt_bool_spec (Rabs (rnd m b)) (bpow radix2 1024)) as [Lb|Lb].
  - now apply xleb_fin.
  - assert (Ga := generic_lt_max _ (gen_rnd m a) La). apply Rabs_def2 in La. apply Rabs_le_inv in Ga.
    destruct (Rlt_bool_spec b 0) as [Hb|Hb].
    + exfalso. assert (N := rnd_mono m b 0 (Rlt_le _ _ Hb)). rewrite rnd_0 in N. rewrite Rabs_left1 in Lb by assumption. lra.
    + destruct (overflow_to_inf m false); [reflexivity|]. apply xleb_fin. lra.
  - assert (Gb := generic_lt_max _ (gen_rnd m b) Lb). apply Rabs_def2 in Lb. apply Rabs_le_inv in Gb.
    destruct (Rlt_bool_spec a 0) as [Ha|Ha].
    + destruct (overflow_to_inf m true); [reflexivity|]. apply xleb_fin. lra.
    + exfalso. assert (N := rnd_mono m 0 a Ha). rewrite rnd_0 in N. rewrite Rabs_pos_eq in La by assumption. lra.
  - destruct (Rlt_bool_spec a 0) as [Ha|Ha]; destruct (Rlt_bool_spec b 0) as [Hb|Hb]; try lra;
    destruct (overflow_to_inf m true), (overflow_to_inf m false); try reflexivity; apply xleb_fin; lra.
Qed.
Lemma xround_le_dbl m x g : is_dbl (XFin g) -> x <= g -> xleb (xround m x) (XFin g) = true.
Proof. intros D H. rewrite <- (xround_dbl_id m g D). now apply xround_mono. Qed.
Lemma xround_ge_dbl m x g : is_dbl (XFin g) -> g <= x -> xleb (XFin g) (xround m x) = true.
Proof. intros D H. rewrite <- (xround_dbl_id m g D). now apply xround_mono. Qed.
Lemma fin_dbl (f : flt) : is_finite f = true -> is_dbl (XFin (B2R f)).
Proof. intro H. exists f. now apply is_finite_x. Qed.

Lemma single_midrad c r s m : is_finite c = true -> is_finite r = true -> 0 <= B2R r ->
  exists Z, returns (single_interval (PFlt c) (PFlt r) s true) m Z /\ kd Z = Classical /\
    xval (lo Z) = xround m (B2R c - B2R r) /\ xval (hi Z) = xround m (B2R c + B2R r) /\ member Z (B2R c).
Proof.
  intros Fc Fr Hr. apply is_finite_x in Fc as Xc. apply is_finite_x in Fr as Xr.
  assert (G : num_ge (PFlt r) (PInt 0) = true).
  { unfold num_ge. rewrite num_le_x. simpl. rewrite Xr. now apply xleb_fin. }
  destruct (num_sub_x m (PFlt c) (PFlt r) I I eq_refl) as (l & Hl & Xl).
  destruct (num_add_x m (PFlt c) (PFlt r) I I eq_refl) as (h & Hh & Xh).
  cbn [xval] in Xl, Xh. rewrite Xc, Xr in Xl, Xh. unfold xsub in Xl. cbn [xopp xadd] in Xl, Xh. fold (B2R c - B2R r) in Xl.
  assert (L1 : xleb (xflt l) (XFin (B2R c)) = true) by (rewrite Xl; apply xround_le_dbl; [now apply fin_dbl | lra]).
  assert (L2 : xleb (XFin (B2R c)) (xflt h) = true) by (rewrite Xh; apply xround_ge_dbl; [now apply fin_dbl | lra]).
  assert (O : num_le (PFlt l) (PFlt h) = true) by (rewrite num_le_x; cbn [xval]; eapply xleb_trans; eauto).
  assert (NG : num_gt (PFlt l) (PFlt h) = false).
  { unfold num_gt. rewrite num_lt_x. rewrite num_le_x in O. destruct (xltb (xval (PFlt h)) (xval (PFlt l))) eqn:E; [|reflexivity].
    assert (E' := xltb_xleb _ _ E). assert (EQ := xleb_antisym _ _ O E'). rewrite EQ in E. unfold xltb, xcmp in E.
    destruct (xval (PFlt h)); try discriminate. rewrite Rcompare_Eq in E by reflexivity. discriminate. }
  exists (mkitv Classical (PFlt l) (PFlt h)). split; [|split; [reflexivity|]].
  - unfold returns, outcome, single_interval, mbind, sub_, add_, mprim. rewrite G, Hl, Hh. unfold mret. cbn [fst]. destruct s; [rewrite NG | rewrite O]; reflexivity.
  - cbn [lo hi xval]. split; [exact Xl|]. split; [exact Xh|]. apply member_x. cbn [lo hi xval]. split.
    + apply (xleb_xle_R _ _ _ L1). simpl. lra.
    + apply (R_xle_xleb (XFin (B2R c)) _ _); [simpl; lra | exact L2].
Qed.

(** ** Nested data *)
Open Scope nat_scope.
Lemma shape_eqb_eq s : forall t, shape_eqb s t = true <-> s = t.
Proof.
  induction s as [|a s IH]; intros [|b t]; simpl; try (split; [discriminate | congruence]); [tauto|].
  rewrite andb_true_iff, Nat.eqb_eq, IH. split; [intros [-> ->]; reflexivity | intro H; inversion H; auto].
Qed.
Lemma regular_inv_nil {A} (t : nested A) : regular [] t -> exists a, t = NLeaf a.
Proof. intro H. inversion H; subst; eauto. Qed.
Lemma regular_inv_cons {A} n s (t : nested A) : regular (n :: s) t ->
  exists l, t = NList l /\ length l = n /\ Forall (regular s) l /\ (l = [] -> s = []).
Proof.
  intro H. inversion H; subst.
  - exists []. repeat split; auto.
  - exists l. repeat split; auto. intro. congruence.
Qed.
Lemma nshape_regular {A} s : forall t : nested A, regular s t -> nshape t = Ok s.
Proof.
  induction s as [|n s IH]; intros t H.
  - apply regular_inv_nil in H. destruct H as [a ->]. reflexivity.
  - apply regular_inv_cons in H. destruct H as (l & -> & L & F & E).
    assert (EM : map nshape l = map (fun _ => Ok s) l).
    { apply map_ext_in. intros t Ht. rewrite Forall_forall in F. apply IH, F, Ht. }
    cbn [nshape]. rewrite EM. destruct l as [|t l]; [simpl in L; subst; rewrite E by reflexivity; reflexivity|].
    cbn [map]. assert (FB : forallb (fun r : res (list nat) => match r with Ok s' => shape_eqb s s' | Err _ => false end) (map (fun _ => Ok s) l) = true).
    { apply forallb_forall. intros r Hr. apply in_map_iff in Hr. destruct Hr as (? & <- & _). now apply shape_eqb_eq. }
    rewrite FB. now subst n.
Qed.
Lemma flat_map_length' {A B} (f : A -> list B) k l : (forall x, In x l -> length (f x) = k) -> length (flat_map f l) = length l * k.
Proof.
  induction l as [|x l IH]; intro H; [reflexivity|]. simpl. rewrite app_length, H by (now left). rewrite IH; [lia|]. intros; apply H; now right.
Qed.
Lemma leaves_length {A} s : forall t : nested A, regular s t -> length (leaves t) = size s.
Proof.
  induction s as [|n s IH]; intros t H.
  - apply regular_inv_nil in H. destruct H as [a ->]. reflexivity.
  - apply regular_inv_cons in H. destruct H as (l & -> & L & F & _). simpl. rewrite (flat_map_length' leaves (size s)); [now subst|].
    intros t Ht. rewrite Forall_forall in F. apply IH, F, Ht.
Qed.
Lemma leaves_nth {A} s : forall (t : nested A) idx k, regular s t -> flat s idx = Some k -> nth_error (leaves t) k = tget t idx.
Proof.
  induction s as [|n s IH]; intros t idx k H Fl.
  - apply regular_inv_nil in H. destruct H as [a ->]. destruct idx; [|discriminate]. simpl in Fl. inversion Fl. reflexivity.
  - apply regular_inv_cons in H. destruct H as (l & -> & L & F & _). destruct idx as [|i idx]; [discriminate|]. simpl in Fl.
    destruct (Nat.ltb_spec i n) as [Hi|]; [|discriminate]. destruct (flat s idx) as [p|] eqn:E; [|discriminate]. inversion Fl; subst k.
    assert (Hp := flat_lt _ _ _ E). cbn [leaves tget].
    destruct (nth_error l i) as [t'|] eqn:Et; [|apply nth_error_None in Et; lia].
    rewrite Forall_forall in F. rewrite <- (IH t' idx p (F _ (nth_error_In _ _ Et)) E).
    rewrite flat_map_concat_map. apply (nth_concat _ (size s)); [|now rewrite nth_error_map, Et|assumption].
    intros r Hr. apply in_map_iff in Hr. destruct Hr as (t'' & <- & Ht'). apply leaves_length. now apply F.
Qed.
Lemma np_array_regular {A} s (t : nested A) : regular s t -> np_array t = Ok (mkarr s (leaves t)).
Proof. intro H. unfold np_array. now rewrite (nshape_regular s t H). Qed.
Lemma np_array_get {A} s (t : nested A) idx : regular s t -> in_bounds s idx -> aget (mkarr s (leaves t)) idx = tget t idx.
Proof. intros H Hi. apply in_bounds_flat in Hi. destruct Hi as [k F]. unfold aget. cbn [ashape adata]. rewrite F. now apply (leaves_nth s). Qed.

(** numpy's promotion keeps the values. *)
Lemma medium_exact c : medium_num c -> exists f, to_double c = Ok f /\ xflt f = xval c.
Proof. apply medium_double. Qed.
Lemma promote_values l : Forall medium_num l -> exists l', promote l = Ok l' /\ Forall2 (fun c c' => xval c' = xval c) l l'.
Proof.
  intro H. unfold promote. destruct (existsb is_flt l).
  - induction H as [|c l Hc Hl (l' & E & F)]; [exists []; split; [reflexivity | constructor]|].
    destruct (medium_exact c Hc) as (f & Ef & Xf). exists (PFlt f :: l'). split; [|constructor; [exact Xf|exact F]].
    cbn [rmapl cast]. rewrite Ef. cbn [rbind]. now rewrite E.
  - exists l. split; [reflexivity|]. clear H. induction l; constructor; auto.
Qed.
Lemma num_cmp_same a a' b b' : xval a' = xval a -> xval b' = xval b -> num_le a' b' = num_le a b /\ num_gt a' b' = num_gt a b.
Proof. intros Ha Hb. unfold num_gt. now rewrite !num_le_x, !num_lt_x, Ha, Hb. Qed.
Lemma single_made s l r l' r' m : xval l' = xval l -> xval r' = xval r ->
  forall e, returns (single_interval l' r' s false) m e -> made_of s l r e.
Proof.
  intros El Er e H. destruct s; simpl.
  - destruct (single_sorted l' r' m) as (Z & HZ & K & E & O). unfold returns in *. assert (Z = e) by congruence. subst Z.
    split; [exact K|]. split.
    + destruct E as [[-> ->]|[-> ->]]; [left|right]; split; now apply same_num_x.
    + intros Nl Nr. apply O; apply not_true_is_false; intro Q; apply is_nan_num_x in Q.
      * rewrite El in Q. apply is_nan_num_x in Q. congruence.
      * rewrite Er in Q. apply is_nan_num_x in Q. congruence.
  - destruct (single_unsorted l' r' m) as (Z & HZ & E1 & E2 & K). unfold returns in *. assert (Z = e) by congruence. subst Z.
    rewrite E1, E2. split; [now apply same_num_x|]. split; [now apply same_num_x|]. rewrite K. destruct (num_cmp_same l l' r r' El Er) as [-> _]. tauto.
Qed.
Lemma nth_combine {A B} (l : list A) (l' : list B) k x y : nth_error l k = Some x -> nth_error l' k = Some y -> nth_error (combine l l') k = Some (x, y).
Proof.
  revert l' k. induction l as [|a l IH]; intros [|b l'] [|k] Hx Hy; simpl in *; try discriminate; [congruence|]. now apply IH.
Qed.
Lemma single_total l r s m : exists e, returns (single_interval l r s false) m e.
Proof. destruct s; [destruct (single_sorted l r m) as (Z & H & _) | destruct (single_unsorted l r m) as (Z & H & _)]; eauto. Qed.
Lemma build_spec s ls rs sq m : length ls = size s -> length rs = size s -> size s <> 0 ->
  exists x, returns (build s ls rs sq false) m (RArr x) /\ consistent x /\ shp x = s /\
    forall idx k l r, flat s idx = Some k -> nth_error ls k = Some l -> nth_error rs k = Some r ->
      exists e, aget (adat x) idx = Some e /\ returns (single_interval l r sq false) m e.
Proof.
  intros Ll Lr Ns. set (f := fun p : pynum * pynum => single_interval (fst p) (snd p) sq false).
  assert (K : forall p, keeps_mode (f p)) by (intro; apply keeps_single).
  assert (CL : length (combine ls rs) = size s) by (rewrite combine_length; lia).
  destruct (vectorize_total f (mkarr s (combine ls rs)) m K) as [d Hd].
  - cbn [adata]. intro E. rewrite E in CL. simpl in CL. lia.
  - intros p _. apply single_total.
  - destruct (vectorize_spec f _ m d K Hd) as (Sd & F & _). cbn [ashape adata] in *.
    exists (array_interval d). split; [|split; [split; [reflexivity|]|split]].
    + unfold build. rewrite keeps_returns by (apply keeps_lift_arr, keeps_vectorize, K). exists (array_interval d). split; [|now apply returns_ret].
      apply lift_returns; [apply keeps_vectorize, K|]. eauto.
    + unfold awf. cbn [adat array_interval]. rewrite <- (Forall2_len _ _ _ F), CL, Sd. reflexivity.
    + exact Sd.
    + intros idx k l r Fl Hl Hr. destruct (Forall2_nth _ _ _ F k (l, r) (nth_combine _ _ _ _ _ Hl Hr)) as (e & He & R).
      exists e. split; [|exact R]. unfold aget. cbn [adat array_interval]. now rewrite Sd, Fl.
Qed.
Lemma firstn_app_exact {A} (l l' : list A) : firstn (length l) (l ++ l') = l.
Proof. rewrite firstn_app, firstn_all, Nat.sub_diag. simpl. apply app_nil_r. Qed.
Lemma skipn_app_exact {A} (l l' : list A) : skipn (length l) (l ++ l') = l'.
Proof. rewrite skipn_app, skipn_all, Nat.sub_diag. reflexivity. Qed.
Lemma Forall2_app_inv' {A B} (R : A -> B -> Prop) l1 l2 l : Forall2 R (l1 ++ l2) l ->
  exists l1' l2', l = l1' ++ l2' /\ length l1' = length l1 /\ Forall2 R l1 l1' /\ Forall2 R l2 l2'.
Proof.
  revert l. induction l1 as [|x l1 IH]; intros l H; simpl in H; [exists [], l; repeat split; auto; constructor|].
  inversion H; subst. destruct (IH _ H4) as (l1' & l2' & -> & L & F1 & F2). exists (y :: l1'), l2'. repeat split; simpl; auto.
Qed.
Lemma interval2_arrays t1 t2 n s sq m : regular (n :: s) t1 -> regular (n :: s) t2 ->
  Forall medium_num (leaves t1) -> Forall medium_num (leaves t2) -> size (n :: s) <> 0 ->
  exists x, returns (interval2 t1 t2 sq false) m (RArr x) /\ consistent x /\ shp x = n :: s /\
    forall idx, in_bounds (n :: s) idx -> exists l r e, tget t1 idx = Some l /\ tget t2 idx = Some r /\
      aget (adat x) idx = Some e /\ made_of sq l r e.
Proof.
  intros R1 R2 K1 K2 N. assert (L1 := leaves_length _ _ R1). assert (L2 := leaves_length _ _ R2).
  destruct (promote_values (leaves t1 ++ leaves t2)) as (l' & PE & PF); [apply Forall_app; auto|].
  destruct (Forall2_app_inv' _ _ _ _ PF) as (p1 & p2 & -> & Lp1 & F1 & F2).
  assert (Lp2 := Forall2_len _ _ _ F2).
  destruct (build_spec (n :: s) p1 p2 sq m) as (x & Hx & Cx & Sx & P); [congruence | congruence | exact N|].
  exists x. split; [|split; [exact Cx|split; [exact Sx|]]].
  - destruct (regular_inv_cons _ _ _ R1) as (l1 & E1 & _). subst t1. cbn [interval2].
    unfold returns, outcome, mbind, mlift. rewrite (np_array_regular _ _ R1), (np_array_regular _ _ R2). cbn [ashape].
    replace (shape_eqb (n :: s) (n :: s)) with true by (symmetry; now apply shape_eqb_eq).
    cbn [adata]. rewrite PE. rewrite <- Lp1, firstn_app_exact, skipn_app_exact. exact Hx.
  - intros idx Hi. assert (Hi' := Hi). apply in_bounds_flat in Hi'. destruct Hi' as [k F]. assert (Hk := flat_lt _ _ _ F).
    destruct (nth_error (leaves t1) k) as [l|] eqn:El; [|apply nth_error_None in El; lia].
    destruct (nth_error (leaves t2) k) as [r|] eqn:Er; [|apply nth_error_None in Er; lia].
    destruct (Forall2_nth _ _ _ F1 k l El) as (l' & El' & Xl). destruct (Forall2_nth _ _ _ F2 k r Er) as (r' & Er' & Xr).
    destruct (P idx k l' r' F El' Er') as (e & He & Re). exists l, r, e.
    rewrite (leaves_nth _ _ _ _ R1 F) in El. rewrite (leaves_nth _ _ _ _ R2 F) in Er. repeat split; auto.
    now apply (single_made sq l r l' r' m).
Qed.
(** Every [k]-th element. *)
Lemma nth_skipn {A} : forall k (l : list A) p, nth_error (skipn k l) p = nth_error l (k + p).
Proof. induction k as [|k IH]; intros [|x l] p; simpl; auto. destruct p; reflexivity. Qed.
Lemma every_spec k j : j < k -> forall n l fuel, length l = n * k -> n <= fuel ->
  length (every k j fuel l) = n /\ forall p, p < n -> nth_error (every k j fuel l) p = nth_error l (p * k + j).
Proof.
  intros Hj n. induction n as [|n IH]; intros l fuel L Hf.
  - assert (l = []) by (destruct l; [reflexivity | simpl in L; lia]). subst l. destruct fuel; simpl; split; auto; intros; lia.
  - destruct fuel as [|fuel]; [lia|]. simpl in L. destruct l as [|x l]; [simpl in L; lia|]. set (l0 := x :: l) in *.
    destruct (nth_error l0 j) as [v|] eqn:E; [|apply nth_error_None in E; unfold l0 in *; simpl in *; lia].
    assert (Ev : every k j (S fuel) l0 = v :: every k j fuel (skipn k l0)) by (cbn [every]; rewrite E; reflexivity).
    rewrite Ev. destruct (IH (skipn k l0) fuel) as [IL IP]; [rewrite skipn_length; lia | lia|]. split.
    + cbn [length]. now rewrite IL.
    + intros [|p] Hp; [exact (eq_sym E)|]. cbn [nth_error]. rewrite IP by lia. rewrite nth_skipn. f_equal. lia.
Qed.
Lemma flat_snoc s : forall idx p k j, flat s idx = Some p -> j < k -> flat (s ++ [k]) (idx ++ [j]) = Some (p * k + j).
Proof.
  induction s as [|n s IH]; intros [|i idx] p k j F Hj; simpl in F; try discriminate.
  - inversion F. simpl. destruct (Nat.ltb_spec j k); [|lia]. f_equal. lia.
  - simpl. destruct (i <? n); [|discriminate]. destruct (flat s idx) as [q|] eqn:E; [|discriminate]. inversion F; subst.
    rewrite (IH idx q k j E Hj). f_equal. rewrite size_app. simpl. lia.
Qed.
Lemma Forall2_nth_r {A B} (R : A -> B -> Prop) l l' : Forall2 R l l' -> forall k y, nth_error l' k = Some y -> exists x, nth_error l k = Some x /\ R x y.
Proof. induction 1; intros [|k] z Hz; simpl in *; try discriminate; [inversion Hz; subst; eauto | eauto]. Qed.
Lemma interval1_pairs t s k sq m : regular (s ++ [k]) t -> s <> [] -> 2 <= k -> Forall medium_num (leaves t) -> size s <> 0 ->
  exists x, returns (interval1 (ANest t) sq false) m (RArr x) /\ consistent x /\ shp x = s /\
    forall idx, in_bounds s idx -> exists l r e, tget t (idx ++ [0]) = Some l /\ tget t (idx ++ [1]) = Some r /\
      aget (adat x) idx = Some e /\ made_of sq l r e.
Proof.
  intros R Ns Hk K N. assert (L := leaves_length _ _ R). rewrite size_app in L. simpl in L.
  destruct (promote_values (leaves t) K) as (vs & PE & PF). assert (Lv := Forall2_len _ _ _ PF).
  assert (La : last (s ++ [k]) 0 = k) by apply last_last.
  set (d := mkarr (s ++ [k]) vs).
  assert (Hf : size s <= length vs) by nia.
  destruct (every_spec k 0 ltac:(lia) (size s) vs (length vs) ltac:(lia) Hf) as [L0 P0].
  destruct (every_spec k 1 ltac:(lia) (size s) vs (length vs) ltac:(lia) Hf) as [L1 P1].
  assert (A0 : last_axis d 0 = every k 0 (length vs) vs) by (unfold last_axis, d; cbn [ashape adata]; now rewrite La).
  assert (A1 : last_axis d 1 = every k 1 (length vs) vs) by (unfold last_axis, d; cbn [ashape adata]; now rewrite La).
  destruct (build_spec s (last_axis d 0) (last_axis d 1) sq m) as (x & Hx & Cx & Sx & P); [now rewrite A0 | now rewrite A1 | exact N|].
  exists x. split; [|split; [exact Cx|split; [exact Sx|]]].
  - assert (G : returns (data <- mlift (np_array t) ;; vals <- mlift (promote (adata data)) ;;
      (let d := mkarr (ashape data) vals in
      if last (ashape d) 0 <? 2 then mraise IndexError
      else build (removelast (ashape d)) (last_axis d 0) (last_axis d 1) sq false)) m (RArr x)).
    { unfold returns, outcome, mbind, mlift. rewrite (np_array_regular _ _ R). cbn [adata ashape]. rewrite PE. fold d.
      cbv zeta. cbn [ashape]. rewrite La. destruct (Nat.ltb_spec k 2); [lia|]. rewrite removelast_last. exact Hx. }
    destruct s as [|n s]; [congruence|]. destruct (regular_inv_cons _ _ _ R) as (l & -> & Ll & F & E).
    (* not two numbers: the elements of the list are lists *)
    destruct l as [|[a|l1] l']; [exact G| | exact G].
    exfalso. inversion F as [|? ? Ra ?]; subst. destruct s; inversion Ra.
  - intros idx Hi. apply in_bounds_flat in Hi. destruct Hi as [p F]. assert (Hp := flat_lt _ _ _ F).
    assert (F0 := flat_snoc s idx p k 0 F ltac:(lia)). assert (F1 := flat_snoc s idx p k 1 F ltac:(lia)).
    destruct (nth_error (last_axis d 0) p) as [l'|] eqn:El; [|apply nth_error_None in El; rewrite A0 in El; lia].
    destruct (nth_error (last_axis d 1) p) as [r'|] eqn:Er; [|apply nth_error_None in Er; rewrite A1 in Er; lia].
    destruct (P idx p l' r' F El Er) as (e & He & Re).
    rewrite A0, P0 in El by assumption. rewrite A1, P1 in Er by assumption.
    destruct (Forall2_nth_r _ _ _ PF _ _ El) as (l & El2 & Xl). destruct (Forall2_nth_r _ _ _ PF _ _ Er) as (r & Er2 & Xr).
    exists l, r, e. rewrite (leaves_nth _ _ _ _ R F0) in El2. rewrite (leaves_nth _ _ _ _ R F1) in Er2. repeat split; auto.
    now apply (single_made sq l r l' r' m).
Qed.
