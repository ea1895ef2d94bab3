(** Reading back what was assigned, for every kind of key. *)
From Coq Require Import ZArith List Bool Arith Lia.
From Verif Require Import Base PyNum Kernel Expr Arrays Construct SpecArray Slices SpecSlices SlicesProofs SlicesJoint.
Import ListNotations.
Open Scope nat_scope.

Lemma flat_length : forall s idx q, flat s idx = Some q -> in_bounds s idx.
Proof.
  induction s as [|n s IH]; intros [|i idx] q E; simpl in E; try discriminate; [constructor|].
  destruct (i <? n) eqn:L; [|discriminate]. destruct (flat s idx) eqn:F; [|discriminate]. constructor; [now apply Nat.ltb_lt | now apply (IH _ n0)].
Qed.
Lemma got_in_bounds x p e : consistent x -> aget (adat x) p = Some e -> in_bounds (shp x) p.
Proof.
  intros [S _] G. unfold aget in G. destruct (flat (ashape (adat x)) p) as [q|] eqn:F; [|discriminate]. rewrite S. exact (flat_length _ _ _ F).
Qed.
Lemma back_of sel r v x y z : consistent y -> shp y = shp x -> assigned sel r v x y -> selected sel r y z -> read_back sel r v z.
Proof.
  intros Cy Sy As (Cz & Sz & Sel). split; [exact Cz|]. split; [exact Sz|]. intros idx B. destruct (Sel idx B) as (p & R & e & G & Gz).
  assert (Bp := got_in_bounds _ _ _ Cy G). rewrite Sy in Bp.
  destruct (As p Bp) as [(last & e' & R' & Gv & Ge & La)|[N _]]; [|now destruct (N idx)].
  exists p, last, e'. repeat split; try assumption. congruence.
Qed.
Theorem back_simple x key v y r : consistent x -> valid_key (shp x) key -> simple_key key -> result_shape (shp x) key r -> ~ full_int_key (shp x) key ->
  well_formed v -> setkey x key v = Ok y -> exists z, getkey y key = Ok (RArr z) /\ read_back (reaches (shp x) key) r v z.
Proof.
  intros Cx V Sk Rs NF Wv E. destruct (setkey_spec x key v r Cx V Sk Rs Wv ltac:(tauto)) as [S1 S2].
  destruct (Classical_Prop.classic (storable v r)) as [St|St]; [|rewrite (S2 St) in E; discriminate].
  destruct (S1 St) as (y' & E' & Cy & Sy & As). assert (y' = y) by congruence. subst y'.
  destruct (getkey_spec y key Cy ltac:(now rewrite Sy) Sk) as [_ G]. rewrite Sy in G. destruct (G NF) as (z & Ez & Sh & Sel).
  rewrite (result_shape_unique _ _ _ _ Sh Rs) in Sel. exists z. split; [exact Ez|]. now apply (back_of _ _ _ x y).
Qed.
Theorem back_joint x key v y r : consistent x -> valid_key (shp x) key -> ~ simple_key key -> joint_shape (shp x) key r ->
  well_formed v -> setkey x key v = Ok y -> exists z, getkey y key = Ok (RArr z) /\ read_back (joint_reaches (shp x) key) r v z.
Proof.
  intros Cx V Sk Rs Wv E. destruct (joint_set x key v r Cx V Sk Rs Wv) as [S1 S2].
  destruct (Classical_Prop.classic (storable v r)) as [St|St]; [|rewrite (S2 St) in E; discriminate].
  destruct (S1 St) as (y' & E' & Cy & Sy & As). assert (y' = y) by congruence. subst y'.
  assert (Rs' := Rs). destruct Rs' as (ws & c & r1 & r2 & W & J & _).
  destruct (joint_get y key Cy ltac:(now rewrite Sy) Sk ltac:(rewrite Sy; eauto)) as (z & Ez & Sh & Sel). rewrite Sy in Sh, Sel.
  rewrite (joint_shape_unique _ _ _ _ (proj2 (joint_with_list key Sk)) Sh Rs) in Sel. exists z. split; [exact Ez|]. now apply (back_of _ _ _ x y).
Qed.
(** What is read back under a mask. *)
Theorem back_mask x m v y : consistent x -> awf m -> ashape m = shp x -> well_formed v -> setmask x m v = Ok y ->
  exists z, getmask y m = Ok (RArr z) /\ read_back (mask_reaches m) [trues (adata m)] v z.
Proof.
  intros Cx W Es Wv E. destruct (setmask_spec x m v Cx W Es Wv) as [S1 S2].
  destruct (Classical_Prop.classic (storable v [trues (adata m)])) as [St|St]; [|rewrite (S2 St) in E; discriminate].
  destruct (S1 St) as (y' & E' & Cy & Sy & As). assert (y' = y) by congruence. subst y'.
  destruct (getmask_spec y m Cy W ltac:(congruence)) as (z & Ez & Sh & Sel). rewrite Sh in Sel. exists z. split; [exact Ez|]. now apply (back_of _ _ _ x y).
Qed.
(** When no element is named twice, every value is read back. *)
Theorem back_distinct sel r v z : read_back sel r v z -> (forall i j p, sel i p -> sel j p -> i = j) ->
  forall idx, in_bounds r idx -> exists e, gives v r idx e /\ aget (adat z) idx = Some e.
Proof. intros (_ & _ & H) D idx B. destruct (H idx B) as (p & last & e & R & L & _ & G & A). rewrite <- (D _ _ _ R L) in G. eauto. Qed.
