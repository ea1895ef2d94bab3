(** The objectives of ISPAE over all observations, and what a fit reports. *)
From Coq Require Import ZArith Reals List Bool Arith Lia Lra.
From Flocq Require Import Core IEEE754.BinarySingleNaN.
From Verif Require Models.
From Verif Require Import Base PyNum Kernel Spec Expr Arrays Construct SpecArray XReal XArith KernelProofs ExprProofs ArrayProofs
  RecogFl SpecRecogFl RecogFlProofs UssFl Ralgb5 RecogOpt RecogOptSign RecogOptRun WilsFl WilsFlProofs IspaeFl SpecIspaeFl IspaeFlObj SpecIspaeFlObj IspaeFlObjProofs.
Import ListNotations.
Open Scope R_scope.

Lemma value_inf roots csum o beta rows v : returns (ispae_value roots csum o Models.NInf beta rows) mode_NE v -> is_nan v = false ->
  exists l, Forall2 (fun r f => returns (ispae_residual roots o beta r) mode_NE f) rows l /\ In v l /\ forall f, In f l -> flt_leb v f = true.
Proof.
  intros H N. unfold ispae_value in H. apply keeps_returns in H; [|apply keeps_mapM; intro; apply keeps_residual]. destruct H as (l & HL & H).
  apply mapM_returns in HL; [|intro; apply keeps_residual]. apply keeps_returns in H; [|apply keeps_lift]. destruct H as (p & HP & H). apply returns_ret in H. subst v.
  unfold returns, outcome, mlift in HP. cbn [fst] in HP. unfold wrap_norm_fl in HP. destruct (np_argmin _) as [mc|] eqn:E; [|discriminate]. cbn [rbind] in HP.
  destruct (argmin_spec _ _ E) as (u & Hu & Hm). cbn [adata] in HP, Hu, Hm. rewrite Hu in HP. assert (Iu := nth_error_In _ _ Hu). apply in_map_iff in Iu. destruct Iu as (f & <- & If).
  cbn [to_double rbind] in HP. injection HP as <-. cbn [fst] in N |- *. exists l. split; [exact HL|]. split; [exact If|]. intros g Hg.
  destruct (Hm N (PFlt g) (in_map PFlt _ _ Hg)) as [_ Q]. exact Q.
Qed.
Lemma forall2_in {A B} (P : A -> B -> Prop) l k a : Forall2 P l k -> In a l -> exists b, In b k /\ P a b.
Proof. induction 1 as [|x y l k HP H IH]; [intros [] | intros [<-|I]]; [exists y; split; [now left | exact HP]|]. destruct (IH I) as (b & B1 & B2). exists b. split; [now right | exact B2]. Qed.
Lemma forall2_in_r {A B} (P : A -> B -> Prop) l k b : Forall2 P l k -> In b k -> exists a, In a l /\ P a b.
Proof. induction 1 as [|x y l k HP H IH]; [intros [] | intros [<-|I]]; [exists x; split; [now left | exact HP]|]. destruct (IH I) as (a & B1 & B2). exists a. split; [now right | exact B2]. Qed.
Lemma leb_num f g : flt_leb f g = true -> is_nan f = false /\ is_nan g = false.
Proof. intro H. split; [destruct (is_nan f) eqn:E | destruct (is_nan g) eqn:E]; try reflexivity; apply is_nan_x in E; rewrite flt_leb_x, E in H; [discriminate | destruct (xflt f); discriminate]. Qed.
Lemma ltb_num f g : flt_ltb f g = true -> is_nan f = false.
Proof. intro H. destruct (is_nan f) eqn:E; try reflexivity. apply is_nan_x in E. rewrite flt_ltb_x, E in H. discriminate. Qed.

Section Value.
Variables (M delta : R) (roots : list flt -> list flt) (csum : list flt -> flt) (beta : list flt) (rows : list observation) (v : flt).
Hypothesis D : 0 <= delta.
Hypothesis U : Forall (usable M delta roots beta) rows.
Theorem tol_all : returns (ispae_value roots csum ITol Models.NInf beta rows) mode_NE v -> flt_leb f0 v = true ->
  forall cols y w, In ((cols, y), w) rows -> all_in beta cols y (outer_error M delta beta cols + rounding_margin y).
Proof.
  intros H L cols y w I. destruct (value_inf _ _ _ _ _ _ H (proj2 (leb_num _ _ L))) as (l & HL & _ & Min). destruct (forall2_in _ _ _ _ HL I) as (f & If & Hf).
  rewrite Forall_forall in U. apply (tol_nonneg M delta roots beta cols y w f D (U _ I) Hf). specialize (Min f If). rewrite flt_leb_x in *. eapply xleb_trans; eassumption.
Qed.
Theorem tol_some : returns (ispae_value roots csum ITol Models.NInf beta rows) mode_NE v -> flt_ltb v f0 = true ->
  exists cols y w, In ((cols, y), w) rows /\ some_out beta cols y (inner_error M beta cols + rounding_margin y).
Proof.
  intros H L. destruct (value_inf _ _ _ _ _ _ H (ltb_num _ _ L)) as (l & HL & Iv & _). destruct (forall2_in_r _ _ _ _ HL Iv) as ([[cols y] w] & I & Hf).
  rewrite Forall_forall in U. exists cols, y, w. split; [exact I|]. exact (tol_negative M delta roots beta cols y w v D (U _ I) Hf L).
Qed.
Theorem uni_some : returns (ispae_value roots csum IUni Models.NInf beta rows) mode_NE v -> flt_ltb v f0 = true ->
  exists cols y w, In ((cols, y), w) rows /\ none_in beta cols y (outer_error M delta beta cols + rounding_margin y).
Proof.
  intros H L. destruct (value_inf _ _ _ _ _ _ H (ltb_num _ _ L)) as (l & HL & Iv & _). destruct (forall2_in_r _ _ _ _ HL Iv) as ([[cols y] w] & I & Hf).
  rewrite Forall_forall in U. exists cols, y, w. split; [exact I|]. exact (uni_negative M delta roots beta cols y w v D (U _ I) Hf L).
Qed.
(** With observations in the range of the analysis the objective is computed. *)
Theorem tol_computed : rows <> [] -> exists v, returns (ispae_value roots csum ITol Models.NInf beta rows) mode_NE v /\ is_nan v = false.
Proof.
  intro N. destruct (mapM_total (ispae_residual roots ITol beta) rows mode_NE (fun r => keeps_residual roots ITol beta r)) as [l HL].
  { intros [[cols y] w] I. rewrite Forall_forall in U. destruct (residual_run M delta roots ITol beta cols y w D (U _ I)) as (f & _ & _ & _ & _ & _ & _ & R & _). now exists f. }
  assert (FN : Forall (fun f => is_nan f = false) l).
  { apply Forall_forall. intros f If. apply mapM_returns in HL; [|intro; apply keeps_residual]. destruct (forall2_in_r _ _ _ _ HL If) as ([[cols y] w] & I & Hf).
    rewrite Forall_forall in U. exact (res_real M delta roots ITol beta cols y w f D (U _ I) eq_refl Hf). }
  assert (LL : l <> []).
  { intro E. subst l. apply mapM_returns in HL; [|intro; apply keeps_residual]. inversion HL. congruence. }
  destruct (np_argmin (mkarr [length l] (map PFlt l))) as [mc|] eqn:E; [|destruct l; [congruence | discriminate]].
  destruct (argmin_spec _ _ E) as (u & Hu & _). cbn [adata] in Hu. assert (Iu := nth_error_In _ _ Hu). apply in_map_iff in Iu. destruct Iu as (f & <- & If).
  exists f. split; [|rewrite Forall_forall in FN; now apply FN]. unfold ispae_value. apply keeps_returns; [apply keeps_mapM; intro; apply keeps_residual|]. exists l. split; [exact HL|].
  apply keeps_returns; [apply keeps_lift|]. exists (f, [mc]). split; [|reflexivity]. unfold returns, outcome, mlift, wrap_norm_fl. rewrite E. cbn [fst rbind adata]. rewrite Hu. reflexivity.
Qed.
End Value.

Theorem fit_reports roots csum o nm W P grad rows x0 x v : ispae_fit_fl roots csum o nm W P grad rows x0 = (x, v) -> is_nan v = false ->
  returns (ispae_value roots csum o nm x rows) mode_NE v /\ exists v0, returns (ispae_value roots csum o nm x0 rows) mode_NE v0 /\ flt_leb v0 v = true.
Proof.
  unfold ispae_fit_fl. set (fg := fun b => _). set (r := fst _). intros E N. injection E as <- <-.
  assert (Nr : is_nan (r_f _ r) = false) by (destruct (r_f _ r); auto).
  destruct (run_best W P fg x0 Nr) as (F & N0 & L). fold r in F, L.
  assert (G : forall b, is_nan (fst (fg b)) = false -> returns (ispae_value roots csum o nm b rows) mode_NE (fneg (fst (fg b)))).
  { intros b Nb. unfold fg in *. cbn [fst] in *. unfold returns, outcome. destruct (fst (ispae_value roots csum o nm b rows mode_NE)); [now rewrite neg_neg | discriminate]. }
  split.
  - assert (Q : fneg (r_f _ r) = fneg (fst (fg (r_x _ r)))) by exact (f_equal fneg F). rewrite Q. apply G. assert (Q' : is_nan (r_f _ r) = is_nan (fst (fg (r_x _ r)))) by exact (f_equal (@is_nan 53 1024) F). congruence.
  - exists (fneg (fst (fg x0))). split; [now apply G | exact L].
Qed.
