(** Runs of maximize in binary64: where the sign of the reported value misleads,
    and a system where it does not. *)
From Coq Require Import ZArith Reals Lra Lia List Bool Floats.SpecFloat.
From Flocq Require Import Core IEEE754.BinarySingleNaN.
From Verif Require Import Base PyNum Kernel Spec Expr Arrays Construct SpecArray XReal XArith KernelProofs KernelAlg KernelRefute Witness ArrayProofs ArrayMore ArrayMat
  RecogFl SpecRecogFl RecogFlProofs RecogFlCor RecogFlRefute HbrFl RohnFl UssFl SpecUssFl UssFlProofs UssFlRefute Ralgb5 RecogOpt SpecRecogOpt.
Import ListNotations.
Open Scope R_scope.

(** Evaluate a run without normalising the doubles it returns. *)
Lemma ran (c : list flt * flt) (t : list flt -> flt -> bool) : t (fst c) (snd c) = true -> exists x v, c = (x, v) /\ t x v = true.
Proof. destruct c as [x v]. intro H. exists x, v. split; [reflexivity | exact H]. Qed.
(** A double between two doubles. *)
Definition inside (l y h : flt) : bool := is_finite y && flt_leb l y && flt_leb y h.
Lemma inside_R l y h : is_finite l = true -> is_finite h = true -> inside l y h = true -> is_finite y = true /\ B2R l <= B2R y <= B2R h.
Proof.
  intros Fl Fh H. unfold inside in H. apply andb_prop in H. destruct H as [H H2]. apply andb_prop in H. destruct H as [F H1]. split; [exact F|].
  rewrite flt_leb_x in H1, H2. rewrite (proj1 (is_finite_x l) Fl), (proj1 (is_finite_x y) F) in H1. rewrite (proj1 (is_finite_x y) F), (proj1 (is_finite_x h) Fh) in H2. apply xleb_fin in H1, H2. lra.
Qed.
Definition f_third : flt := fl 6004799503160661 (-54).
Definition f_half : flt := fl 1 (-1).
Definition f_big : flt := fl 1 9.
Lemma b_big : B2R f_big = 512.
Proof. unfold f_big. rewrite (B2R_sf _ false 4503599627370496 (-43)) by (vm_compute; reflexivity). feval. lra. Qed.
Lemma b_nbig : B2R (fneg f_big) = -512.
Proof. unfold fneg. rewrite B2R_Bopp, b_big. lra. Qed.
Definition near_third (x : list flt) (v : flt) : bool := match x with [y] => inside f_third y f_third && flt_leb f0 v | _ => false end.
Definition below (x : list flt) (v : flt) : bool := match x with [y] => inside (fneg f_big) y f_big && flt_ltb v f0 | _ => false end.
Lemma third_bad y : is_finite y = true -> B2R f_third <= B2R y <= B2R f_third ->
  system 1 1 (one_eq (PInt 3)) (one_rhs (PInt 1) (PInt 1)) (point [y]) /\ moderate (one_eq (PInt 3)) (one_rhs (PInt 1) (PInt 1)) (point [y]) /\
  forall Q, in_matrix (one_eq (PInt 3)) Q -> ~ in_rhs (one_rhs (PInt 1) (PInt 1)) (row_value 1 Q (point [y])).
Proof.
  intros F B. change (point [y]) with (one_pt (PFlt y)).
  assert (V : num_val (PFlt y) = 6004799503160661 / 18014398509481984) by (rewrite <- v_third; change (B2R y = B2R f_third); lra).
  split. { apply one_system; try exact I; try reflexivity; try (simpl; lia); try apply Rle_refl. exact F. }
  split. { apply one_moderate; try exact I; try (simpl; lia); rewrite ?V; cbn [num_val]; apply Rabs_le; lra. }
  intros Q HQ IN. assert (M := HQ 0%nat 0%nat _ eq_refl). rewrite member_x in M. simpl in M.
  assert (N := IN 0%nat _ eq_refl). rewrite member_x in N. unfold row_value in N. cbn [Rsum] in N.
  change (aget (one_pt (PFlt y)) [0%nat]) with (Some (PFlt y)) in N. cbv iota in N. rewrite V in N. simpl in N. nra.
Qed.
Lemma tol_max_x : exists A b x0 x v, tol_maximize_fl seq_dot flt_vops (default_params flt_vops) A b (np_ones 1) x0 = (x, v) /\
  system 1 1 A b (point x) /\ moderate A b (point x) /\ flt_leb f0 v = true /\ forall Q, in_matrix A Q -> ~ in_rhs b (row_value 1 Q (point x)).
Proof.
  destruct (ran (tol_maximize_fl seq_dot flt_vops (default_params flt_vops) (one_eq (PInt 3)) (one_rhs (PInt 1) (PInt 1)) (np_ones 1) [f_third]) near_third) as (x & v & E & T); [vm_compute; reflexivity|].
  exists (one_eq (PInt 3)), (one_rhs (PInt 1) (PInt 1)), [f_third], x, v. split; [exact E|]. destruct x as [|y [|]]; [discriminate T| |discriminate T]. unfold near_third in T. apply andb_prop in T. destruct T as [T1 T2].
  apply inside_R in T1; [|vm_compute; reflexivity|vm_compute; reflexivity]. destruct (third_bad y (proj1 T1) (proj2 T1)) as (P1 & P2 & P3). tauto.
Qed.
Lemma uni_max_x : exists A b x0 x v, uni_maximize_fl seq_dot flt_vops (default_params flt_vops) A b (np_ones 1) x0 = (x, v) /\
  system 1 1 A b (point x) /\ moderate A b (point x) /\ flt_leb f0 v = true /\ forall Q, in_matrix A Q -> ~ in_rhs b (row_value 1 Q (point x)).
Proof.
  destruct (ran (uni_maximize_fl seq_dot flt_vops (default_params flt_vops) (one_eq (PInt 3)) (one_rhs (PInt 1) (PInt 1)) (np_ones 1) [f_third]) near_third) as (x & v & E & T); [vm_compute; reflexivity|].
  exists (one_eq (PInt 3)), (one_rhs (PInt 1) (PInt 1)), [f_third], x, v. split; [exact E|]. destruct x as [|y [|]]; [discriminate T| |discriminate T]. unfold near_third in T. apply andb_prop in T. destruct T as [T1 T2].
  apply inside_R in T1; [|vm_compute; reflexivity|vm_compute; reflexivity]. destruct (third_bad y (proj1 T1) (proj2 T1)) as (P1 & P2 & P3). tauto.
Qed.
Lemma uss_max_x : exists A b x0 x v, uss_maximize_fl seq_dot flt_vops (default_params flt_vops) A b (np_ones 1) x0 = (x, v) /\
  system 1 1 A b (point x) /\ moderate A b (point x) /\ flt_leb f0 v = true /\ forall Q, in_matrix A Q -> ~ in_rhs b (row_value 1 Q (point x)).
Proof.
  destruct (ran (uss_maximize_fl seq_dot flt_vops (default_params flt_vops) (one_eq (PInt 3)) (one_rhs (PInt 1) (PInt 1)) (np_ones 1) [f_third]) near_third) as (x & v & E & T); [vm_compute; reflexivity|].
  exists (one_eq (PInt 3)), (one_rhs (PInt 1) (PInt 1)), [f_third], x, v. split; [exact E|]. destruct x as [|y [|]]; [discriminate T| |discriminate T]. unfold near_third in T. apply andb_prop in T. destruct T as [T1 T2].
  apply inside_R in T1; [|vm_compute; reflexivity|vm_compute; reflexivity]. destruct (third_bad y (proj1 T1) (proj2 T1)) as (P1 & P2 & P3). tauto.
Qed.
(** The method Tol.value, on interval arithmetic, denies what Tol.maximize reports. *)
Lemma tol_disagree : exists A b x0 x v t, tol_maximize_fl seq_dot flt_vops (default_params flt_vops) A b (np_ones 1) x0 = (x, v) /\ flt_leb f0 v = true /\
  returns (tol_value_fl A b (point x) (np_ones 1)) mode_NE t /\ num_lt t (PInt 0) = true.
Proof.
  destruct (ran (tol_maximize_fl seq_dot flt_vops (default_params flt_vops) (one_eq (PInt 3)) (one_rhs (PInt 1) (PInt 1)) (np_ones 1) [f_third])
    (fun x v => flt_leb f0 v && match fst (tol_value_fl (one_eq (PInt 3)) (one_rhs (PInt 1) (PInt 1)) (point x) (np_ones 1) mode_NE) with Ok t => num_lt t (PInt 0) | Err _ => false end)) as (x & v & E & T); [vm_compute; reflexivity|].
  apply andb_prop in T. destruct T as [T1 T2]. destruct (fst (tol_value_fl _ _ _ _ _)) as [t|] eqn:Q; [|discriminate].
  exists (one_eq (PInt 3)), (one_rhs (PInt 1) (PInt 1)), [f_third], x, v, t. split; [exact E|]. split; [exact T1|]. split; [exact Q | exact T2].
Qed.
(** The equation x = 1, started at 0.5. *)
Lemma one_solvable : forall Q, in_matrix (one_eq (PInt 1)) Q -> in_rhs (one_rhs (PInt 1) (PInt 1)) (row_value 1 Q (one_pt (PInt 1))).
Proof.
  intros Q HQ i e H. assert (i = 0%nat) by (apply (aget_1_lt _ 1) in H; [lia | reflexivity]). subst i. inversion H; subst e.
  assert (M := HQ 0%nat 0%nat _ eq_refl). rewrite member_x in *. unfold row_value. cbn [Rsum]. change (aget (one_pt (PInt 1)) [0%nat]) with (Some (PInt 1)). cbv iota. simpl in *. lra.
Qed.
Lemma below_ok y : is_finite y = true -> B2R (fneg f_big) <= B2R y <= B2R f_big ->
  system 1 1 (one_eq (PInt 1)) (one_rhs (PInt 1) (PInt 1)) (point [y]) /\ moderate (one_eq (PInt 1)) (one_rhs (PInt 1) (PInt 1)) (point [y]).
Proof.
  intros F B. change (point [y]) with (one_pt (PFlt y)). rewrite b_big, b_nbig in B. split.
  - apply one_system; try exact I; try reflexivity; try (simpl; lia); try apply Rle_refl. exact F.
  - apply one_moderate; try exact I; try (simpl; lia); cbn [num_val]; apply Rabs_le; lra.
Qed.
Lemma tol_max_neg_x : exists A b x0 x v, tol_maximize_fl seq_dot flt_vops (default_params flt_vops) A b (np_ones 1) x0 = (x, v) /\
  system 1 1 A b (point x) /\ moderate A b (point x) /\ flt_ltb v f0 = true /\ exists y, forall Q, in_matrix A Q -> in_rhs b (row_value 1 Q y).
Proof.
  destruct (ran (tol_maximize_fl seq_dot flt_vops (default_params flt_vops) (one_eq (PInt 1)) (one_rhs (PInt 1) (PInt 1)) (np_ones 1) [f_half]) below) as (x & v & E & T); [vm_compute; reflexivity|].
  exists (one_eq (PInt 1)), (one_rhs (PInt 1) (PInt 1)), [f_half], x, v. split; [exact E|]. destruct x as [|y [|]]; [discriminate T| |discriminate T]. unfold below in T. apply andb_prop in T. destruct T as [T1 T2].
  apply inside_R in T1; [|vm_compute; reflexivity|vm_compute; reflexivity]. destruct (below_ok y (proj1 T1) (proj2 T1)) as (P1 & P2). split; [exact P1|]. split; [exact P2|]. split; [exact T2|]. exists (one_pt (PInt 1)). exact one_solvable.
Qed.
Lemma uni_max_neg_x : exists A b x0 x v, uni_maximize_fl seq_dot flt_vops (default_params flt_vops) A b (np_ones 1) x0 = (x, v) /\
  system 1 1 A b (point x) /\ moderate A b (point x) /\ flt_ltb v f0 = true /\ exists y, forall Q, in_matrix A Q -> in_rhs b (row_value 1 Q y).
Proof.
  destruct (ran (uni_maximize_fl seq_dot flt_vops (default_params flt_vops) (one_eq (PInt 1)) (one_rhs (PInt 1) (PInt 1)) (np_ones 1) [f_half]) below) as (x & v & E & T); [vm_compute; reflexivity|].
  exists (one_eq (PInt 1)), (one_rhs (PInt 1) (PInt 1)), [f_half], x, v. split; [exact E|]. destruct x as [|y [|]]; [discriminate T| |discriminate T]. unfold below in T. apply andb_prop in T. destruct T as [T1 T2].
  apply inside_R in T1; [|vm_compute; reflexivity|vm_compute; reflexivity]. destruct (below_ok y (proj1 T1) (proj2 T1)) as (P1 & P2). split; [exact P1|]. split; [exact P2|]. split; [exact T2|]. exists (one_pt (PInt 1)). exact one_solvable.
Qed.
Lemma uss_max_neg_x : exists A b x0 x v, uss_maximize_fl seq_dot flt_vops (default_params flt_vops) A b (np_ones 1) x0 = (x, v) /\
  system 1 1 A b (point x) /\ moderate A b (point x) /\ flt_ltb v f0 = true /\ exists y, forall Q, in_matrix A Q -> in_rhs b (row_value 1 Q y).
Proof.
  destruct (ran (uss_maximize_fl seq_dot flt_vops (default_params flt_vops) (one_eq (PInt 1)) (one_rhs (PInt 1) (PInt 1)) (np_ones 1) [f_half]) below) as (x & v & E & T); [vm_compute; reflexivity|].
  exists (one_eq (PInt 1)), (one_rhs (PInt 1) (PInt 1)), [f_half], x, v. split; [exact E|]. destruct x as [|y [|]]; [discriminate T| |discriminate T]. unfold below in T. apply andb_prop in T. destruct T as [T1 T2].
  apply inside_R in T1; [|vm_compute; reflexivity|vm_compute; reflexivity]. destruct (below_ok y (proj1 T1) (proj2 T1)) as (P1 & P2). split; [exact P1|]. split; [exact P2|]. split; [exact T2|]. exists (one_pt (PInt 1)). exact one_solvable.
Qed.
