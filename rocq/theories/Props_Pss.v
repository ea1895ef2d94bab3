(** The splitting method PSS over exact reals: C45. *)
From Coq Require Import Reals ZArith List Bool Arith Lia Lra.
From Verif Require Import Exact SpecExact Estim SpecEstim Pss SpecPss PssProofs PssLoop PssMore.
Import ListNotations.
Open Scope R_scope.

(** Whatever the tolerance and the iteration limit. *)
Theorem C45_encloses : forall lp m n nu A b V1 V2 tol maxiter, (nu < n)%nat -> proper_vec n V1 -> proper_vec n V2 ->
  lp_answers lp m n nu A b V1 ->
  lp_answers lp m n nu A (fun i => r_neg (b i)) V2 ->
  forall X, pss lp m n A b V1 V2 tol maxiter nu = Some X ->
  forall x, united m n A b x -> in_ivec n V1 x -> in_ivec n V2 (fun j => - x j) -> Rabs (x nu) <= 10 ^ 15 -> inI X (x nu).
Proof. exact pss_sound. Qed.
Print Assumptions C45_encloses.

Theorem C45_lower_bound : forall lp m n nu A b V tol maxiter, (nu < n)%nat -> proper_vec n V ->
  lp_answers lp m n nu A b V ->
  forall q, algo lp m n nu A b V tol maxiter = Some q ->
  forall x, united m n A b x -> in_ivec n V x -> Rabs (x nu) <= 10 ^ 15 -> q <= x nu.
Proof. exact algo_sound. Qed.
Print Assumptions C45_lower_bound.

(** When no other component of the starting box contains zero, one step is exact. *)
Theorem C45_exact_in_orthant : forall lp m n nu A b V, (nu < n)%nat -> proper_mat m n A -> proper_vec m b -> zero_free n nu V ->
  rl (V nu) <> 0 -> rh (V nu) <= 10 ^ 15 -> lp_answers lp m n nu A b V ->
  forall tol maxiter q, (0 <= maxiter)%Z -> (exists j, (j < n)%nat /\ j <> nu /\ tol <= wid (V j)) ->
  algo lp m n nu A b V tol maxiter = Some q -> attained m n nu A b V q.
Proof. exact leaf_exact. Qed.
Print Assumptions C45_exact_in_orthant.

(** With an initial box both passes start from it, the second one should start from its negative. *)
Theorem C45_initial_box_refuted : exists m n A b x0 tol maxiter, proper_mat m n A /\ proper_vec m b /\ proper_vec n x0 /\
  forall lp, exists X x, pss_x0 lp m n A b x0 tol maxiter 0 = Some X /\ united m n A b x /\ in_ivec n x0 x /\ ~ inI X (x 0%nat).
Proof. exact pss_x0_refuted. Qed.
Print Assumptions C45_initial_box_refuted.

(** A starting box that is a point in the component: an exception although there are solutions. *)
Theorem C45_point_component_refuted : exists m n A b V, proper_mat m n A /\ proper_vec m b /\ proper_vec n V /\ (exists x, united m n A b x /\ in_ivec n V x) /\
  forall lp maxiter, (0 <= maxiter)%Z -> algo lp m n 0 A b V 1 maxiter = None.
Proof. exact pss_point_refuted. Qed.
Print Assumptions C45_point_component_refuted.

(** One unknown: always an exception. *)
Theorem C45_one_unknown_raises : forall lp m A b V tol maxiter, algo lp m 1 0 A b V tol maxiter = None.
Proof. exact pss_one_unknown. Qed.
Print Assumptions C45_one_unknown_raises.

Example C45_case : lp_answers c45_lp 1 2 0 c45_A c45_b c45_V /\ lp_answers c45_lp 1 2 0 c45_A (fun i => r_neg (c45_b i)) c45_V2 /\
  pss c45_lp 1 2 c45_A c45_b c45_V c45_V2 1 0 0 = Some (mkr 1 2) /\ (forall x, united 1 2 c45_A c45_b x <-> 1 <= x 0%nat <= 2).
Proof.
  split; [apply c45_answers; left; unfold c45_V; simpl; lra|]. split; [apply (c45_answers (- (2)) (- (1)) c45_V2); right; unfold c45_V2; simpl; lra|].
  split; [exact c45_run | exact c45_united].
Qed.
Example C45_orthant_case : zero_free 2 0 c45_V3 /\ lp_answers c45_lp 1 2 0 c45_A c45_b c45_V3 /\ algo c45_lp 1 2 0 c45_A c45_b c45_V3 1 0 = Some 1.
Proof.
  split; [intros [|j] _ N; [congruence|]; unfold c45_V3, proper, inI; simpl; lra|]. split; [apply c45_answers; left; unfold c45_V3; simpl; lra | exact c45_leaf_run].
Qed.
