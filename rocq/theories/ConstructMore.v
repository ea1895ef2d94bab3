(** Proofs about intersection, conversion, factories, test systems and utilities. *)
From Coq Require Import ZArith Reals List Bool Arith Lia Lra Psatz Floats.SpecFloat.
From Flocq Require Import Core IEEE754.BinarySingleNaN.
From Verif Require Import Base PyNum Kernel Spec Expr XReal XArith KernelProofs ExprProofs KernelAlg KernelMore Witness Arrays Construct SpecArray ArrayProofs ArrayMore ArrayMat ArrayItems ConstructProofs.
Import ListNotations.
Open Scope R_scope.

Lemma Ok_inj {A} (a b : A) : Ok a = Ok b -> a = b.
Proof. congruence. Qed.

(** ** intersection *)
Lemma keeps_intersect x y : keeps_mode (intersect x y).
Proof. unfold intersect, sub_. apply keeps_bind; [apply keeps_prim|]. intro d. destruct (num_le d c1em15); apply keeps_single. Qed.

Lemma c_val : xval c1em15 = XFin (5070602400912918 / IZR (2 ^ 102)).
Proof.
  unfold c1em15. cbn [xval]. rewrite xflt_sf. replace (B2SF (fl 5070602400912918 (-102))) with (S754_finite false 5070602400912918 (-102)) by (vm_compute; reflexivity).
  cbn [xsf cond_Zopp]. apply (f_equal XFin). apply F2R_neg_exp. reflexivity.
Qed.
(** The next double. *)
Definition c_next : R := 5070602400912919 / IZR (2 ^ 102).
Lemma c_next_dbl : is_dbl (XFin c_next).
Proof.
  exists (fl 5070602400912919 (-102)). rewrite xflt_sf. replace (B2SF (fl 5070602400912919 (-102))) with (S754_finite false 5070602400912919 (-102)) by (vm_compute; reflexivity).
  cbn [xsf cond_Zopp]. apply (f_equal XFin). apply F2R_neg_exp. reflexivity.
Qed.
Lemma c_next_lt : 5070602400912918 / IZR (2 ^ 102) < c_next < 1001 / 1000000000000000000.
Proof. unfold c_next. assert (0 < IZR (2 ^ 102)) by (apply IZR_lt; reflexivity). replace (IZR (2 ^ 102)) with 5070602400912917605986812821504 in * by reflexivity. split; lra. Qed.
Lemma c_pos : 0 < 5070602400912918 / IZR (2 ^ 102).
Proof. replace (IZR (2 ^ 102)) with 5070602400912917605986812821504 by reflexivity. lra. Qed.

Lemma sub_small a b m : small_num a -> small_num b -> exists v, sub_ a b m = (Ok v, m) /\ xval v = xsub m (xval a) (xval b).
Proof.
  intros Ha Hb. destruct (XArith.num_sub_x m a b Ha Hb) as (v & Hv & _ & Xv). exists v. unfold sub_, mprim. now rewrite Hv.
Qed.
Lemma xmax2_low a c r : a <> XNan -> c <> XNan -> (xle_R (xmax2 a c) r <-> xle_R a r /\ xle_R c r).
Proof.
  intros Na Nc. split.
  - intro H. split; eapply xleb_xle_R; try exact H; [now apply xmax2_ge_l | now apply xmax2_ge_r].
  - intros [H1 H2]. destruct (xmax2_or a c) as [-> | ->]; assumption.
Qed.
Lemma xmin2_high b d r : b <> XNan -> d <> XNan -> (R_xle r (xmin2 d b) <-> R_xle r b /\ R_xle r d).
Proof.
  intros Nb Nd. split.
  - intro H. split; eapply R_xle_xleb; try exact H; [now apply xmin2_le_r | now apply xmin2_le_l].
  - intros [H1 H2]. destruct (xmin2_or d b) as [-> | ->]; assumption.
Qed.
Definition isup (X Y : itv) : pynum := if num_lt (lo X) (lo Y) then lo Y else lo X.
Definition iinf (X Y : itv) : pynum := if num_lt (hi X) (hi Y) then hi X else hi Y.
Lemma isup_x X Y : xval (isup X Y) = xmax2 (xval (lo X)) (xval (lo Y)).
Proof. unfold isup, xmax2. rewrite <- num_lt_x. now destruct (num_lt (lo X) (lo Y)). Qed.
Lemma iinf_x X Y : xval (iinf X Y) = xmin2 (xval (hi Y)) (xval (hi X)).
Proof. unfold iinf, xmin2. rewrite <- num_lt_x. now destruct (num_lt (hi X) (hi Y)). Qed.
Lemma isup_small X Y : small_itv X -> small_itv Y -> small_num (isup X Y).
Proof. intros [? _] [? _]. unfold isup. now destruct (num_lt (lo X) (lo Y)). Qed.
Lemma iinf_small X Y : small_itv X -> small_itv Y -> small_num (iinf X Y).
Proof. intros [_ ?] [_ ?]. unfold iinf. now destruct (num_lt (hi X) (hi Y)). Qed.
Lemma xsub_nan m a b : a = XNan \/ b = XNan -> xsub m a b = XNan.
Proof. intros [-> | ->]; unfold xsub; simpl; [reflexivity | apply xadd_nan_r]. Qed.
Lemma nan_single m : exists Z, returns (single_interval (PFlt fnan) (PFlt fnan) true false) m Z /\ kd Z = Classical /\ nan_itv Z.
Proof. exists (mkitv Classical (PFlt fnan) (PFlt fnan)). repeat split. Qed.
Lemma single_sorted_le l r m : num_le l r = true -> returns (single_interval l r true false) m (mkitv Classical l r).
Proof.
  intro H. unfold single_interval, returns, outcome, mbind, mret. simpl. replace (num_gt l r) with false; [reflexivity|]. symmetry. unfold num_gt. rewrite num_lt_x.
  rewrite num_le_x in H. destruct (xltb (xval r) (xval l)) eqn:E; [|reflexivity].
  assert (EQ := xleb_antisym _ _ H (xltb_xleb _ _ E)). rewrite EQ in E. unfold xltb, xcmp in E.
  destruct (xval r); try discriminate. rewrite Rcompare_Eq in E by reflexivity. discriminate.
Qed.

Lemma intersect_spec X Y m : good X -> good Y ->
  exists Z, returns (intersect X Y) m Z /\ kd Z = Classical /\
    (forall r, member X r -> member Y r -> member Z r) /\
    ((exists r, member X r /\ member Y r) -> forall r, member Z r <-> member X r /\ member Y r) /\
    (nan_itv Z -> ~ exists r, member X r /\ member Y r) /\
    (~ nan_itv Z -> exists x y, member X x /\ member Y y /\ Rabs (x - y) < 1001 / 1000000000000000000).
Proof.
  intros (_ & SX & GX) (_ & SY & GY).
  destruct (sub_small (isup X Y) (iinf X Y) m (isup_small _ _ SX SY) (iinf_small _ _ SX SY)) as (d & Hd & Xd).
  assert (RUN : forall Z, returns (if num_le d c1em15 then single_interval (isup X Y) (iinf X Y) true false
      else single_interval (PFlt fnan) (PFlt fnan) true false) m Z -> returns (intersect X Y) m Z).
  { intros Z H. unfold intersect. fold (isup X Y). fold (iinf X Y). unfold returns, outcome. rewrite (bind_ok _ _ _ _ _ Hd). exact H. }
  destruct (nan_single m) as (N & HN & KN & NN).
  assert (NMEM : forall r, ~ member N r).
  { intros r H. apply member_x in H. apply nan_itv_x in NN. destruct NN as [E _]. rewrite E in H. destruct H as [[] _]. }
  assert (NANM : forall W r, nan_itv W -> ~ member W r).
  { intros W r NW H. apply member_x in H. apply nan_itv_x in NW. destruct NW as [E _]. rewrite E in H. destruct H as [[] _]. }
  destruct GX as [NX|[rx Mx]].
  { exists N. assert (xval d = XNan).
    { rewrite Xd. apply xsub_nan. left. rewrite isup_x. apply nan_itv_x in NX. destruct NX as [-> _]. apply xmax2_nan_l. }
    assert (NEX : ~ exists r, member X r /\ member Y r) by (intros (r & H1 & _); exact (NANM X r NX H1)).
    split; [apply RUN; rewrite num_le_x, H; exact HN|]. split; [exact KN|]. split; [intros r H1 H2; destruct NEX; eauto|].
    split; [intro E; destruct (NEX E)|]. split; [auto|]. intro E. contradiction. }
  destruct GY as [NY|[ry My]].
  { exists N. assert (xval d = XNan).
    { rewrite Xd. apply xsub_nan. right. rewrite iinf_x. apply nan_itv_x in NY. destruct NY as [_ ->].
      unfold xmin2. destruct (xval (hi X)); reflexivity. }
    assert (NEX : ~ exists r, member X r /\ member Y r) by (intros (r & _ & H1); exact (NANM Y r NY H1)).
    split; [apply RUN; rewrite num_le_x, H; exact HN|]. split; [exact KN|]. split; [intros r H1 H2; destruct NEX; eauto|].
    split; [intro E; destruct (NEX E)|]. split; [auto|]. intro E. contradiction. }
  apply member_x in Mx as Mx'. apply member_x in My as My'. destruct Mx' as [La Hb], My' as [Lc Hd2].
  assert (Na := xle_R_nnan _ _ La). assert (Nc := xle_R_nnan _ _ Lc). assert (Nb := R_xle_nnan _ _ Hb). assert (Nd := R_xle_nnan _ _ Hd2).
  set (a := xval (lo X)) in *. set (b := xval (hi X)) in *. set (c := xval (lo Y)) in *. set (e := xval (hi Y)) in *.
  assert (BOTH : forall r, member X r /\ member Y r <-> xle_R (xmax2 a c) r /\ R_xle r (xmin2 e b)).
  { intro r. rewrite !member_x. fold a b c e. rewrite xmax2_low, xmin2_high by assumption. tauto. }
  rewrite isup_x, iinf_x in Xd. fold a b c e in Xd.
  destruct (num_le (isup X Y) (iinf X Y)) eqn:O.
  - (* they overlap *)
    exists (mkitv Classical (isup X Y) (iinf X Y)).
    assert (EX : exists r, member X r /\ member Y r).
    { assert (Ns : xmax2 a c <> XNan) by now apply xmax2_nnan. assert (Ni : xmin2 e b <> XNan) by now apply xmin2_nnan.
      assert (NP : xmax2 a c <> XPInf) by (destruct (xmax2_or a c) as [-> | ->]; [intro E; rewrite E in La | intro E; rewrite E in Lc]; contradiction).
      assert (NM : xmin2 e b <> XNInf) by (destruct (xmin2_or e b) as [-> | ->]; [intro E; rewrite E in Hd2 | intro E; rewrite E in Hb]; contradiction).
      rewrite num_le_x, isup_x, iinf_x in O. fold a b c e in O.
      destruct (xmax2 a c) as [| | |s] eqn:Es; try congruence.
      - destruct (xmin2 e b) as [| | |i] eqn:Ei; try congruence; [exists 0 | exists i]; apply BOTH; simpl; split; auto; lra.
      - destruct (xmin2 e b) as [| | |i] eqn:Ei; try congruence; exists s; apply BOTH; simpl; split; auto; try lra.
        now apply xleb_fin in O. }
    assert (MZ : forall r, member (mkitv Classical (isup X Y) (iinf X Y)) r <-> member X r /\ member Y r).
    { intro r. rewrite BOTH, member_x. cbn [lo hi]. rewrite isup_x, iinf_x. reflexivity. }
    split; [|split; [reflexivity|split; [intros; apply MZ; auto|split; [intros _; exact MZ|split]]]].
    + apply RUN. replace (num_le d c1em15) with true; [now apply single_sorted_le|]. symmetry.
      rewrite num_le_x, c_val, Xd. destruct EX as (r & HX). apply BOTH in HX. destruct HX as [E1 E2]. assert (CP := c_pos).
      destruct (xmax2 a c) as [| | |s]; destruct (xmin2 e b) as [| | |i]; simpl in E1, E2; try contradiction; try reflexivity.
      unfold xsub. cbn [xopp xadd]. apply xleb_trans with (XFin 0); [|apply xleb_fin; lra].
      apply xround_le_dbl; [exact zero_dbl | lra].
    + intros NZ _. destruct EX as (r & HX). apply MZ in HX. destruct (NANM _ _ NZ HX).
    + intros _. destruct EX as (r & H1 & H2). exists r, r. split; [exact H1|]. split; [exact H2|].
      replace (r - r) with 0 by ring. rewrite Rabs_R0. lra.
  - assert (NEX : ~ exists r, member X r /\ member Y r).
    { intros (r & H). apply BOTH in H. destruct H as [H1 H2]. assert (O' := member_order _ _ _ H1 H2).
      rewrite num_le_x, isup_x, iinf_x in O. fold a b c e in O. congruence. }
    destruct (num_le d c1em15) eqn:Ed.
    + destruct (single_sorted (isup X Y) (iinf X Y) m) as (Z & HZ & KZ & EZ & _).
      exists Z. split; [apply RUN; exact HZ|]. split; [exact KZ|]. split; [intros r H1 H2; destruct NEX; eauto|].
      split; [intro H; destruct (NEX H)|]. split; [auto|]. intros _.
      rewrite num_le_x, c_val, Xd in Ed.
      rewrite num_le_x, isup_x, iinf_x in O. fold a b c e in O.
      assert (NP : xmax2 a c <> XPInf) by (destruct (xmax2_or a c) as [-> | ->]; [intro E; rewrite E in La | intro E; rewrite E in Lc]; contradiction).
      assert (NM : xmin2 e b <> XNInf) by (destruct (xmin2_or e b) as [-> | ->]; [intro E; rewrite E in Hd2 | intro E; rewrite E in Hb]; contradiction).
      assert (Ns : xmax2 a c <> XNan) by now apply xmax2_nnan. assert (Ni : xmin2 e b <> XNan) by now apply xmin2_nnan.
      destruct (xmax2 a c) as [| | |s] eqn:Es; try congruence; destruct (xmin2 e b) as [| | |i] eqn:Ei; try congruence; try discriminate O.
      assert (Hsi : i < s).
      { destruct (Rlt_or_le i s); [assumption|]. exfalso. apply xleb_fin in H. congruence. }
      assert (GAP : s - i < 1001 / 1000000000000000000).
      { unfold xsub in Ed. cbn [xopp xadd] in Ed. fold (s - i) in Ed. destruct c_next_lt as [C1 C2].
        destruct (Rlt_or_le (s - i) c_next); [lra|]. exfalso.
        assert (G := xround_ge_dbl m (s - i) c_next c_next_dbl H). assert (T := xleb_trans _ _ _ G Ed). apply xleb_fin in T. lra. }
      assert (Xs : xle_R a s /\ xle_R c s) by (apply xmax2_low; [assumption|assumption|rewrite Es; simpl; lra]).
      assert (Xi : R_xle i b /\ R_xle i e) by (apply xmin2_high; [assumption|assumption|rewrite Ei; simpl; lra]).
      destruct (xmax2_or a c) as [Ea|Ec]; destruct (xmin2_or e b) as [Ee|Eb].
      * (* s in X, i in Y *) exists s, i. rewrite !member_x. fold a b c e. split; [|split].
        -- split; [tauto|]. rewrite <- Ea, Es in La. simpl in La. eapply R_xle_trans; [exact Hb|]. exact La.
        -- split; [|tauto]. rewrite <- Ee, Ei in Hd2. simpl in Hd2. eapply xle_R_trans; [exact Lc|exact Hd2].
        -- rewrite Rabs_pos_eq by lra. exact GAP.
      * (* both from X: then they overlap *) exfalso. rewrite Ea in Es. rewrite Eb in Ei. rewrite Es in La. rewrite Ei in Hb. simpl in La, Hb. lra.
      * exfalso. rewrite Ec in Es. rewrite Ee in Ei. rewrite Es in Lc. rewrite Ei in Hd2. simpl in Lc, Hd2. lra.
      * exists i, s. rewrite !member_x. fold a b c e. split; [|split].
        -- split; [|tauto]. rewrite <- Eb, Ei in Hb. simpl in Hb. eapply xle_R_trans; [exact La|exact Hb].
        -- split; [tauto|]. rewrite <- Ec, Es in Lc. simpl in Lc. eapply R_xle_trans; [exact Hd2|exact Lc].
        -- rewrite Rabs_minus_sym, Rabs_pos_eq by lra. exact GAP.
    + exists N. split; [apply RUN; exact HN|]. split; [exact KN|]. split; [intros r H1 H2; destruct NEX; eauto|].
      split; [intro H; destruct (NEX H)|]. split; [auto|]. intro H. contradiction.
Qed.

(** ** intersection of arrays *)
Lemma vectorize2_spec x y m s : awf x -> awf y -> bcast (ashape x) (ashape y) = Some s -> size s <> 0%nat ->
  Forall good (adata x) -> Forall good (adata y) ->
  exists d, returns (vectorize2 intersect x y) m d /\ awf d /\ ashape d = s /\
    forall idx, in_bounds s idx -> exists a b c, reads x idx a /\ reads y idx b /\ aget d idx = Some c /\ returns (intersect a b) m c.
Proof.
  intros Wx Wy B N Gx Gy. rewrite Forall_forall in Gx, Gy.
  destruct (binop_arr_total intersect keeps_intersect x y s m Wx Wy B) as [d Hd].
  { intros idx k a b F Ha Hb. destruct (intersect_spec a b m) as (Z & HZ & _); [apply Gx; eapply aget_in; exact Ha | apply Gy; eapply aget_in; exact Hb|]. eauto. }
  exists d. destruct (binop_reads intersect x y m d keeps_intersect Hd) as (s' & B' & Sd & Wd & P).
  apply bcast_iff in B'. assert (Es : s' = s) by congruence. rewrite Es in Sd, P. clear B' Es. split; [|split; [exact Wd|split; [exact Sd|]]].
  - unfold vectorize2. rewrite B. destruct (Nat.eqb_spec (size s) 0); [contradiction|exact Hd].
  - intros idx Hi. destruct (P idx Hi) as (a & b & c & Ra & Rb & Rc & G). exists a, b, c. auto.
Qed.
Lemma reads_same {A} (a : arr A) idx v : in_bounds (ashape a) idx -> reads a idx v -> aget a idx = Some v.
Proof.
  intros Hi (idx' & S & G). replace idx with idx'; [exact G|]. apply (source_unique (ashape a) idx); [exact S|].
  assert (L : length (ashape a) = length idx) by (symmetry; apply (Forall2_len _ _ _ Hi)).
  assert (S' := bidx_source (ashape a) idx ltac:(lia)). apply in_bounds_flat in Hi. destruct Hi as [k F]. rewrite (bidx_same _ _ _ F) in S'. exact S'.
Qed.
Lemma scalar_read {A} (v w : A) idx : reads (scalar v) idx w -> w = v.
Proof. intro H. exact (reads_det _ _ _ _ H (scalar_reads v idx)). Qed.
Lemma keeps_vectorize2 x y : keeps_mode (vectorize2 intersect x y).
Proof. unfold vectorize2. destruct (bcast (ashape x) (ashape y)); [|apply keeps_raise]. destruct (size l =? 0)%nat; [apply keeps_raise|]. apply keeps_binop_arr, keeps_intersect. Qed.
Lemma array_consistent d : awf d -> consistent (array_interval d).
Proof. intro H. split; [reflexivity | exact H]. Qed.
Lemma intersection_arrays X Y m : consistent X -> consistent Y -> Forall good (adata (adat X)) -> Forall good (adata (adat Y)) ->
  (shp X = shp Y -> size (shp X) <> 0%nat ->
   exists Z, returns (intersection (RArr X) (RArr Y)) m (RArr Z) /\ consistent Z /\ shp Z = shp X /\
     forall idx, in_bounds (shp X) idx -> exists x y z, aget (adat X) idx = Some x /\ aget (adat Y) idx = Some y /\
       aget (adat Z) idx = Some z /\ returns (intersect x y) m z) /\
  (shp X <> shp Y -> raises (intersection (RArr X) (RArr Y)) m AssertionError).
Proof.
  intros [CX WX] [CY WY] GX GY. split.
  - intros E N. assert (B : bcast (ashape (adat X)) (ashape (adat Y)) = Some (shp X)) by (rewrite <- CX, <- CY, E; apply bcast_same).
    destruct (vectorize2_spec _ _ m _ WX WY B N GX GY) as (d & Hd & Wd & Sd & P).
    exists (array_interval d). split; [|split; [now apply array_consistent|split; [exact Sd|]]].
    + cbn [intersection]. replace (shape_eqb (shp X) (shp Y)) with true by (symmetry; now apply shape_eqb_eq).
      rewrite keeps_returns by apply keeps_vectorize2. exists d. split; [exact Hd | now apply returns_ret].
    + intros idx Hi. destruct (P idx Hi) as (a & b & c & Ra & Rb & G & R). exists a, b, c.
      split; [apply reads_same; [now rewrite <- CX | exact Ra]|]. split; [apply reads_same; [now rewrite <- CY, <- E | exact Rb]|]. auto.
  - intro E. cbn [intersection]. destruct (shape_eqb (shp X) (shp Y)) eqn:Q; [apply shape_eqb_eq in Q; contradiction | reflexivity].
Qed.
Lemma intersection_scalar X Y m : consistent X -> Forall good (adata (adat X)) -> good Y -> size (shp X) <> 0%nat ->
  (exists Z, returns (intersection (RArr X) (RItv Y)) m (RArr Z) /\ consistent Z /\ shp Z = shp X /\
     forall idx, in_bounds (shp X) idx -> exists x z, aget (adat X) idx = Some x /\ aget (adat Z) idx = Some z /\ returns (intersect x Y) m z) /\
  (exists Z, returns (intersection (RItv Y) (RArr X)) m (RArr Z) /\ consistent Z /\ shp Z = shp X /\
     forall idx, in_bounds (shp X) idx -> exists x z, aget (adat X) idx = Some x /\ aget (adat Z) idx = Some z /\ returns (intersect Y x) m z).
Proof.
  intros [CX WX] GX GY N. assert (WS : awf (scalar Y)) by reflexivity. assert (GS : Forall good (adata (scalar Y))) by (constructor; [exact GY|constructor]).
  split.
  - destruct (vectorize2_spec (adat X) (scalar Y) m (shp X) WX WS) as (d & Hd & Wd & Sd & P); auto; [rewrite CX; apply bcast_nil_r|].
    exists (array_interval d). split; [|split; [now apply array_consistent|split; [exact Sd|]]].
    + cbn [intersection]. rewrite keeps_returns by apply keeps_vectorize2. exists d. split; [exact Hd | now apply returns_ret].
    + intros idx Hi. destruct (P idx Hi) as (a & b & c & Ra & Rb & G & R). apply scalar_read in Rb. subst b. exists a, c.
      split; [apply reads_same; [now rewrite <- CX | exact Ra]|]. auto.
  - destruct (vectorize2_spec (scalar Y) (adat X) m (shp X) WS WX) as (d & Hd & Wd & Sd & P); auto; [rewrite CX; apply bcast_nil_l|].
    exists (array_interval d). split; [|split; [now apply array_consistent|split; [exact Sd|]]].
    + cbn [intersection]. rewrite keeps_returns by apply keeps_vectorize2. exists d. split; [exact Hd | now apply returns_ret].
    + intros idx Hi. destruct (P idx Hi) as (a & b & c & Ra & Rb & G & R). apply scalar_read in Ra. subst a. exists b, c.
      split; [apply reads_same; [now rewrite <- CX | exact Rb]|]. auto.
Qed.

(** ** Factories *)
Lemma from_arrays_spec s l r sq m : size s <> 0%nat ->
  exists x, returns (from_arrays s l r sq) m x /\ consistent x /\ shp x = s /\
    forall idx, in_bounds s idx -> exists e, aget (adat x) idx = Some e /\ returns (single_interval (l idx) (r idx) sq false) m e.
Proof.
  intro N. set (g := fun idx => (l idx, r idx)). set (f := fun p : pynum * pynum => single_interval (fst p) (snd p) sq false).
  assert (K : forall p, keeps_mode (f p)) by (intro; apply keeps_single).
  destruct (vectorize_total f (of_fun s g) m K) as [d Hd].
  - cbn [of_fun adata]. intro E. assert (L := f_equal (@length _) E). rewrite map_length, indices_length in L. simpl in L. contradiction.
  - intros p _. apply single_total.
  - destruct (vectorize_spec f _ m d K Hd) as (Sd & F & _). exists (array_interval d).
    assert (Wd : awf d). { unfold awf. rewrite Sd, <- (Forall2_len _ _ _ F). exact (of_fun_wf s g). }
    split; [apply lift_returns; [apply keeps_vectorize, K|]; eauto|]. split; [now apply array_consistent|]. split; [exact Sd|].
    intros idx Hi. apply in_bounds_flat in Hi. destruct Hi as [k Fl]. assert (G := of_fun_get s g idx k Fl).
    unfold aget in G. cbn [of_fun ashape] in G. rewrite Fl in G. destruct (Forall2_nth _ _ _ F k _ G) as (e & He & Re).
    exists e. split; [|exact Re]. unfold aget. cbn [adat array_interval]. rewrite Sd. cbn [of_fun ashape]. now rewrite Fl.
Qed.
Lemma from_arrays_empty s l r sq m : size s = 0%nat -> raises (from_arrays s l r sq) m ValueError.
Proof.
  intro N. apply lift_raises. apply vectorize_empty. cbn [of_fun adata].
  assert (L := indices_length s). rewrite N in L. destruct (indices s); [reflexivity | discriminate].
Qed.
Lemma zeros_spec s m : size s <> 0%nat ->
  exists x, returns (zeros s) m x /\ consistent x /\ shp x = s /\ forall idx, in_bounds s idx -> aget (adat x) idx = Some fzero.
Proof.
  intro N. destruct (from_arrays_spec s (fun _ => PFlt f0) (fun _ => PFlt f0) false m N) as (x & Hx & Cx & Sx & P).
  exists x. split; [exact Hx|]. split; [exact Cx|]. split; [exact Sx|]. intros idx Hi. destruct (P idx Hi) as (e & He & Re). rewrite He.
  unfold returns, outcome, single_interval, mbind, mret in Re. cbn [fst] in Re.
  replace (num_le (PFlt f0) (PFlt f0)) with true in Re by reflexivity. apply Ok_inj in Re. now subst e.
Qed.
Lemma full_spec s inf sup m : size s <> 0%nat -> medium_num inf -> medium_num sup ->
  exists x, returns (full s inf sup) m x /\ consistent x /\ shp x = s /\
    forall idx, in_bounds s idx -> exists e, aget (adat x) idx = Some e /\ made_of false inf sup e.
Proof.
  intros N Mi Ms. destruct (medium_exact _ Mi) as (fi & Ei & Xi). destruct (medium_exact _ Ms) as (fs & Es & Xs).
  destruct (from_arrays_spec s (fun _ => PFlt fi) (fun _ => PFlt fs) false m N) as (x & Hx & Cx & Sx & P).
  exists x. split; [|split; [exact Cx|split; [exact Sx|]]].
  - unfold full, returns, outcome, mbind, mlift. cbn [cast]. rewrite Ei, Es. cbn [rbind]. exact Hx.
  - intros idx Hi. destruct (P idx Hi) as (e & He & Re). exists e. split; [exact He|]. now apply (single_made false inf sup (PFlt fi) (PFlt fs) m).
Qed.
Lemma point_int z m e : returns (single_interval (PInt z) (PInt z) false false) m e -> e = mkitv Classical (PInt z) (PInt z).
Proof.
  unfold returns, outcome, single_interval, mbind, mret. cbn [fst].
  replace (num_le (PInt z) (PInt z)) with true. 2:{ rewrite num_le_x. symmetry. apply xleb_refl. discriminate. }
  intro H. now apply Ok_inj in H.
Qed.
Lemma eye_spec N M_ k m : let c := match M_ with Some c => c | None => N end in (N * c <> 0)%nat ->
  exists x, returns (eye N M_ k) m x /\ consistent x /\ shp x = [N; c] /\
    forall i j, (i < N)%nat -> (j < c)%nat ->
      aget (adat x) [i; j] = Some (if (Z.of_nat j - Z.of_nat i =? k)%Z then mkitv Classical (PInt 1) (PInt 1) else mkitv Classical (PInt 0) (PInt 0)).
Proof.
  intros c Nz. destruct (from_arrays_spec [N; c] (eye_entry k) (eye_entry k) false m) as (x & Hx & Cx & Sx & P); [simpl; lia|].
  exists x. split; [exact Hx|]. split; [exact Cx|]. split; [exact Sx|]. intros i j Hi Hj. destruct (P [i; j] (ib2 _ _ _ _ Hi Hj)) as (e & He & Re).
  rewrite He. f_equal. unfold eye_entry in Re. cbn [nth] in Re. destruct (Z.of_nat j - Z.of_nat i =? k)%Z; now apply point_int in Re.
Qed.
Open Scope nat_scope.
Lemma flat1 n i : i < n -> flat [n] [i] = Some i.
Proof. intro H. simpl. destruct (Nat.ltb_spec i n); [|lia]. f_equal. lia. Qed.
Lemma diag_vector v n k : consistent v -> shp v = [n] -> exists D, diag v k = Ok D /\ consistent D /\ shp D = [n + Z.abs_nat k; n + Z.abs_nat k] /\
  forall i j, i < n + Z.abs_nat k -> j < n + Z.abs_nat k ->
    ((Z.of_nat j - Z.of_nat i)%Z = k -> exists e, aget (adat D) [i; j] = Some e /\ aget (adat v) [Nat.min i j] = Some e) /\
    ((Z.of_nat j - Z.of_nat i)%Z <> k -> aget (adat D) [i; j] = Some zero_itv).
Proof.
  intros [C W] S. assert (Sd : ashape (adat v) = [n]) by congruence. unfold diag. rewrite Sd. eexists. split; [reflexivity|].
  split; [apply array_consistent, of_fun_wf|]. split; [reflexivity|]. intros i j Hi Hj.
  assert (B := ib2 _ _ _ _ Hi Hj). apply in_bounds_flat in B. destruct B as [q F]. cbn [adat array_interval]. rewrite (of_fun_get _ _ _ _ F).
  cbn [nth]. destruct (Z.eqb_spec (Z.of_nat j - Z.of_nat i) k) as [E|E]; [|split; [congruence | reflexivity]].
  split; [intros _|congruence]. unfold awf in W. rewrite Sd in W. simpl in W.
  assert (Q : (if (0 <=? k)%Z then i else j) = Nat.min i j) by (destruct (Z.leb_spec 0 k); lia).
  assert (Q2 : Nat.min i j < n) by lia. rewrite Q.
  destruct (nth_error (adata (adat v)) (Nat.min i j)) as [e|] eqn:En; [|apply nth_error_None in En; lia].
  exists e. split; [reflexivity|]. unfold aget. rewrite Sd, flat1 by assumption. exact En.
Qed.
Lemma diag_matrix A r c k : consistent A -> shp A = [r; c] -> exists D q, diag A k = Ok D /\ consistent D /\ shp D = [q] /\
  forall p, (p < q <-> in_bounds [r; c] (if (0 <=? k)%Z then [p; p + Z.to_nat k] else [p + Z.to_nat (- k); p])) /\
    (p < q -> exists e, aget (adat D) [p] = Some e /\ aget (adat A) (if (0 <=? k)%Z then [p; p + Z.to_nat k] else [p + Z.to_nat (- k); p]) = Some e).
Proof.
  intros [C W] S. assert (Sd : ashape (adat A) = [r; c]) by congruence. unfold diag. rewrite Sd. eexists. exists (diag_len r c k). split; [reflexivity|].
  split; [apply array_consistent, of_fun_wf|]. split; [reflexivity|]. intro p. cbn [array_interval adat].
  assert (L : p < diag_len r c k <-> in_bounds [r; c] (if (0 <=? k)%Z then [p; p + Z.to_nat k] else [p + Z.to_nat (- k); p])).
  { unfold diag_len. destruct (Z.leb_spec 0 k); (split; [intro; apply ib2; lia | intro B; inversion B as [|? ? ? ? B1 B2]; inversion B2; subst; lia]). }
  split; [exact L|]. intro Hp. rewrite (of_fun_get _ _ _ p (flat1 _ _ Hp)). cbn [nth].
  apply L in Hp. rewrite <- Sd in Hp. apply in_bounds_flat in Hp. destruct Hp as [q F]. destruct (aget_some _ _ _ W F) as (e & G & _). rewrite G. eauto.
Qed.
