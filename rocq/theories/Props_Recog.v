(** Properties of the distance, the recognizing functionals and the linear
    constraint: C32-C35, C37.  Each theorem is closed by the lemma that proves it. *)
From Coq Require Import ZArith Reals List Bool Arith Lia Lra Psatz.
From Verif Require Import Base PyNum Kernel Spec Construct SubsetProofs Props_Kernel.
From Verif Require Import Exact Recog SpecExact ExactProofs RecogProofs RecogMore RecogFinal RecogRefute.
Import ListNotations.
Open Scope R_scope.

(** ** C32 *)
Theorem C32_chebyshev_distance_is_a_metric : forall k x y z,
  0 <= dist_inf k x y /\ (dist_inf k x y = 0 <-> forall i, (i < S k)%nat -> x i = y i) /\
  dist_inf k x y = dist_inf k y x /\ dist_inf k x z <= dist_inf k x y + dist_inf k y z.
Proof. exact (fun k x y z => conj (dist_inf_nn k x y) (conj (dist_inf_zero k x y) (conj (dist_inf_sym k x y) (dist_inf_tri k x y z)))). Qed.
Print Assumptions C32_chebyshev_distance_is_a_metric.

Theorem C32_order_p_distance_is_a_metric : forall k p x y z, (0 < p)%nat ->
  0 <= dist_p k p x y /\ (dist_p k p x y = 0 <-> forall i, (i < S k)%nat -> x i = y i) /\
  dist_p k p x y = dist_p k p y x /\ dist_p k p x z <= dist_p k p x y + dist_p k p y z.
Proof. exact (fun k p x y z H => conj (dist_p_nn k p x y) (conj (dist_p_zero k p x y H) (conj (dist_p_sym k p x y) (dist_p_tri k p x y z H)))). Qed.
Print Assumptions C32_order_p_distance_is_a_metric.
Example C32_case : (0 < 2)%nat /\ 0 < dist_inf 1 (fun _ => mkr 0 1) (fun i => mkr 0 (INR i)).
Proof. split; [lia|]. unfold dist_inf, vmax, cheb. simpl. eapply Rlt_le_trans; [|apply Rmax_l]. eapply Rlt_le_trans; [|apply Rmax_r]. rewrite Rminus_0_r, Rabs_R1. lra. Qed.

(** [subset] on floating-point arrays given by their elements. *)
Theorem C32_subset_is_inclusion : forall a b, Forall proper_fin a -> length a = length b ->
  (subset_l a b = true <-> forall i X Y, nth_error a i = Some X -> nth_error b i = Some Y -> forall r, member X r -> member Y r).
Proof. exact subset_l_spec. Qed.
Print Assumptions C32_subset_is_inclusion.

Theorem C32_subset_is_a_partial_order : (forall a, Forall no_nan a -> subset_l a a = true) /\
  (forall a b c, length a = length b -> length b = length c -> subset_l a b = true -> subset_l b c = true -> subset_l a c = true) /\
  (forall a b, length a = length b -> subset_l a b = true -> subset_l b a = true ->
     forall i X Y, nth_error a i = Some X -> nth_error b i = Some Y -> num_eq (lo X) (lo Y) = true /\ num_eq (hi X) (hi Y) = true).
Proof. exact subset_l_order. Qed.
Print Assumptions C32_subset_is_a_partial_order.

Example C32_subset_case : Forall proper_fin [ex2] /\ subset_l [ex2] [ex2] = true /\ subset_l [ex1] [ex2] = false.
Proof. split; [constructor; [exact ex2_proper|constructor]|]. split; reflexivity. Qed.

(** ** C33.  [k+1] equations, [n] unknowns, exact arithmetic. *)
Theorem C33_tol_measures_tolerance : forall k n A b x t, proper_mat (S k) n A ->
  (t <= tol_value k n A b x ones <-> tolerable (S k) n A (shrink t b) x).
Proof. exact tol_slack. Qed.
Print Assumptions C33_tol_measures_tolerance.

Theorem C33_tol_recognizes_tolerable_points : forall k n A b x w, proper_mat (S k) n A -> positive (S k) w ->
  (0 <= tol_value k n A b x w <-> tolerable (S k) n A b x).
Proof. exact tol_recognizes. Qed.
Print Assumptions C33_tol_recognizes_tolerable_points.

Theorem C33_tol_is_concave : forall k n A b w x y l, proper_mat (S k) n A -> non_negative (S k) w -> 0 <= l <= 1 ->
  l * tol_value k n A b x w + (1 - l) * tol_value k n A b y w <= tol_value k n A b (fun j => l * x j + (1 - l) * y j) w.
Proof. exact tol_concave. Qed.
Print Assumptions C33_tol_is_concave.

(** [1,2] x = [3,9] *)
Definition sA : imat := fun _ _ => mkr 1 2.
Definition sb : ivec := fun _ => mkr 3 9.
Lemma sA_proper : proper_mat 1 1 sA. Proof. intros i j _ _. unfold proper; simpl; lra. Qed.
Lemma sb_proper : proper_vec 1 sb. Proof. intros i _. unfold proper; simpl; lra. Qed.
Lemma ones_pos : positive 1 ones. Proof. intros i _. unfold ones; lra. Qed.
Lemma sA_tol4 : tolerable 1 1 sA sb (fun _ => 4).
Proof. intros M HM i Hi. specialize (HM i 0%nat Hi ltac:(lia)). unfold inI, times in *; simpl in *. lra. Qed.
Example C33_case : proper_mat 1 1 sA /\ positive 1 ones /\ 0 <= tol_value 0 1 sA sb (fun _ => 4) ones /\ ~ 0 <= tol_value 0 1 sA sb (fun _ => 6) ones.
Proof.
  split; [exact sA_proper|]. split; [exact ones_pos|]. split; [apply tol_recognizes; [exact sA_proper | exact ones_pos | exact sA_tol4]|].
  rewrite tol_recognizes by (exact sA_proper || exact ones_pos). intro T.
  specialize (T (fun _ _ => 2)). unfold in_imat, in_ivec, inI, times in T. simpl in T.
  specialize (T ltac:(intros; lra) 0%nat ltac:(lia)). lra.
Qed.

(** ** C34 *)
Theorem C34_uni_measures_compatibility : forall k n A b x t, proper_mat (S k) n A ->
  (t <= uni_value k n A b x ones <-> united (S k) n A (shrink t b) x).
Proof. exact uni_slack. Qed.
Print Assumptions C34_uni_measures_compatibility.

Theorem C34_uni_recognizes_united_points : forall k n A b x w, proper_mat (S k) n A -> positive (S k) w ->
  (0 <= uni_value k n A b x w <-> united (S k) n A b x).
Proof. exact uni_recognizes. Qed.
Print Assumptions C34_uni_recognizes_united_points.

Theorem C34_uss_recognizes_united_points : forall k n A b x w, proper_mat (S k) n A -> proper_vec (S k) b -> positive (S k) w ->
  (0 <= uss_value k n A b x w <-> united (S k) n A b x).
Proof. exact uss_recognizes. Qed.
Print Assumptions C34_uss_recognizes_united_points.

Theorem C34_same_sign : forall k n A b x w, proper_mat (S k) n A -> proper_vec (S k) b -> positive (S k) w ->
  (0 <= uni_value k n A b x w <-> 0 <= uss_value k n A b x w).
Proof. exact (fun k n A b x w P Q W => iff_trans (uni_recognizes k n A b x w P W) (iff_sym (uss_recognizes k n A b x w P Q W))). Qed.
Print Assumptions C34_same_sign.
Example C34_case : proper_mat 1 1 sA /\ proper_vec 1 sb /\ positive 1 ones /\ united 1 1 sA sb (fun _ => 8) /\ ~ united 1 1 sA sb (fun _ => 10).
Proof.
  split; [exact sA_proper|]. split; [exact sb_proper|]. split; [exact ones_pos|]. split.
  - exists (fun _ _ => 1), (fun _ => 8). split; [intros i j _ _; unfold inI; simpl; lra|]. split; [intros i _; unfold inI; simpl; lra|]. intros i _. unfold times; simpl. lra.
  - intros (M & v & HM & Hv & S). specialize (HM 0%nat 0%nat ltac:(lia) ltac:(lia)). specialize (Hv 0%nat ltac:(lia)). specialize (S 0%nat ltac:(lia)).
    unfold inI, times in *; simpl in *. lra.
Qed.

(** ** C35.  What the optimizer is given: value and gradient of the negated functional. *)
Theorem C35_tol_value : forall k n A b w x, proper_mat (S k) n A -> fst (tol_fg k n A b w x) = - tol_value k n A b x w.
Proof. exact tol_fg_value. Qed.
Print Assumptions C35_tol_value.

Theorem C35_tol_subgradient : forall k n A b w x, proper_mat (S k) n A -> non_negative (S k) w ->
  subgradient n (fun y => - tol_value k n A b y w) x (snd (tol_fg k n A b w x)).
Proof. exact tol_subgradient. Qed.
Print Assumptions C35_tol_subgradient.

Theorem C35_constrained_tol_value : forall k n A b w mu rows x, proper_mat (S k) n A ->
  fst (with_penalty n mu rows (tol_fg k n A b w) x) = - tol_value k n A b x w + fst (linear_penalty n mu rows x).
Proof. exact constrained_tol_value. Qed.
Print Assumptions C35_constrained_tol_value.

Theorem C35_constrained_tol_subgradient : forall k n A b w mu rows x, proper_mat (S k) n A -> non_negative (S k) w -> 0 <= mu ->
  subgradient n (fun y => - tol_value k n A b y w + fst (linear_penalty n mu rows y)) x (snd (with_penalty n mu rows (tol_fg k n A b w) x)).
Proof. exact constrained_tol_subgradient. Qed.
Print Assumptions C35_constrained_tol_subgradient.

Theorem C35_uni_value : forall k n A b w x, proper_mat (S k) n A -> fst (uni_fg k n A b w x) = - uni_value k n A b x w.
Proof. exact uni_fg_value. Qed.
Print Assumptions C35_uni_value.

(** Uni: in the orthant of the point, when no active row has its midpoint
    strictly inside the range; without that proviso it fails. *)
Theorem C35_uni_subgradient_in_orthant : forall k n A b w x, proper_mat (S k) n A -> non_negative (S k) w ->
  (forall i, (i < S k)%nat -> uni_constituent n A b x w i = uni_value k n A b x w -> ~ (rl (imv n A x i) < r_mid (b i) < rh (imv n A x i))) ->
  forall y, same_orthant n x y ->
  - uni_value k n A b x w + dot n (snd (uni_fg k n A b w x)) (minus y x) <= - uni_value k n A b y w.
Proof. exact uni_subgradient. Qed.
Print Assumptions C35_uni_subgradient_in_orthant.

Theorem C35_uni_subgradient_refuted : exists k n A b x y, proper_mat (S k) n A /\ proper_vec (S k) b /\ same_orthant n x y /\
  - uni_value k n A b y ones < - uni_value k n A b x ones + dot n (snd (uni_fg k n A b ones x)) (minus y x).
Proof. exact uni_grad_x. Qed.
Print Assumptions C35_uni_subgradient_refuted.

Theorem C35_uss_value : forall k n A b w x, fst (uss_fg k n A b w x) = - uss_value k n A b x w.
Proof. exact uss_fg_value. Qed.
Print Assumptions C35_uss_value.

Theorem C35_uss_subgradient_in_orthant : forall k n A b w x, non_negative (S k) w -> forall y, same_orthant n x y ->
  - uss_value k n A b x w + dot n (snd (uss_fg k n A b w x)) (minus y x) <= - uss_value k n A b y w.
Proof. exact uss_subgradient. Qed.
Print Assumptions C35_uss_subgradient_in_orthant.

Example C35_case : proper_mat 1 1 sA /\ non_negative 1 ones /\ same_orthant 1 (fun _ => 10) (fun _ => 7) /\
  forall i, (i < 1)%nat -> ~ (rl (imv 1 sA (fun _ => 10) i) < r_mid (sb i) < rh (imv 1 sA (fun _ => 10) i)).
Proof.
  split; [exact sA_proper|]. split; [intros i _; unfold ones; lra|]. split; [intros j _; split; lra|].
  intros i _. unfold imv; simpl. unfold r_mid, Rmin, Rmax; simpl. destruct Rle_dec; lra.
Qed.

(** ** C37 *)
Theorem C37_penalty_zero_iff_feasible : forall r n C lb ub rows mu x, linear_constraint r n C lb ub = Some rows -> 0 < mu ->
  0 <= fst (linear_penalty n mu rows x) /\
  (fst (linear_penalty n mu rows x) = 0 <->
   forall k, (k < r)%nat -> (exists j, (j < n)%nat /\ C k j <> 0) ->
     (forall f v, lb = Some f -> f k = BFin v -> v <= times n C x k) /\
     (forall f v, ub = Some f -> f k = BFin v -> times n C x k <= v)).
Proof. exact penalty_spec. Qed.
Print Assumptions C37_penalty_zero_iff_feasible.

Theorem C37_penalty_subgradient : forall n mu rows x, 0 <= mu -> subgradient n (fun y => fst (linear_penalty n mu rows y)) x (snd (linear_penalty n mu rows x)).
Proof. exact penalty_sub. Qed.
Print Assumptions C37_penalty_subgradient.

Theorem C37_find_mu_dominates : forall n rows num mu x, (forall j sel i, (j < n)%nat -> length sel = length rows -> nth i sel false = true -> nth i (column j rows) 0 <> 0 -> sum_selected sel (column j rows) <> 0) ->
  0 <= num -> find_mu n rows num = Some mu ->
  (exists r j, In r rows /\ snd r < dot n (fst r) x /\ (j < n)%nat /\ fst r j <> 0) ->
  exists j, (j < n)%nat /\ num <= Rabs (snd (linear_penalty n mu rows x) j).
Proof. exact find_mu_dominates. Qed.
Print Assumptions C37_find_mu_dominates.

(** The constructor fails when no usable row is left. *)
Theorem C37_no_usable_row_fails : forall r n C lb ub, (forall f k, lb = Some f -> (k < r)%nat -> (exists j, (j < n)%nat /\ C k j <> 0) -> f k = BInf) ->
  (forall f k, ub = Some f -> (k < r)%nat -> (exists j, (j < n)%nat /\ C k j <> 0) -> f k = BInf) ->
  linear_constraint r n C lb ub = None.
Proof. exact lc_fails. Qed.
Print Assumptions C37_no_usable_row_fails.

(** Rows without any dependence on x are dropped even if they cannot be satisfied. *)
Theorem C37_zero_rows_refuted : exists r n C ub rows x, linear_constraint r n C None (Some ub) = Some rows /\
  fst (linear_penalty n 1 rows x) = 0 /\ exists k v, (k < r)%nat /\ ub k = BFin v /\ v < times n C x k.
Proof. exact zero_row_x. Qed.
Print Assumptions C37_zero_rows_refuted.

Example C37_case : exists rows, linear_constraint 1 1 (fun _ _ => 2) None (Some (fun _ => BFin 6)) = Some rows /\ find_mu 1 rows 10 = Some 5 /\
  (forall j sel i, (j < 1)%nat -> length sel = length rows -> nth i sel false = true -> nth i (column j rows) 0 <> 0 -> sum_selected sel (column j rows) <> 0) /\
  exists r j, In r rows /\ snd r < dot 1 (fst r) (fun _ => 4) /\ (j < 1)%nat /\ fst r j <> 0.
Proof.
  exists [((fun _ => 2), 6)]. split; [|split; [|split]].
  - unfold linear_constraint, lc_rows, lc_upper. simpl. unfold row_any. simpl. destruct Req_EM_T; [lra|]. reflexivity.
  - unfold find_mu. simpl. unfold col_min, nonzero. simpl. destruct Req_EM_T; [lra|]. simpl. f_equal.
    assert (E : Rabs (2 + 0) = 2) by (rewrite Rabs_pos_eq; lra). rewrite E. unfold Rmin. repeat destruct Rle_dec; try lra; field.
  - intros j [|s [|? ?]] i Hj L T _; try discriminate. destruct i as [|[|i]]; try discriminate. simpl in *. subst s. lra.
  - exists ((fun _ => 2), 6), 0%nat. split; [left; reflexivity|]. unfold dot; simpl. repeat split; try lra; lia.
Qed.
