(** C78: PSS ends by its tolerance; its bounds are attained up to the tolerance. *)
From Coq Require Import Reals List Arith Bool ZArith Lia Lra.
From Verif Require Import Exact SpecExact Estim SpecEstim Pss SpecPss PssProofs PssMore PssAcc PssEnds PssCase.
Import ListNotations.
Open Scope R_scope.

(** The lower end, after 2^(K (n-1)) iterations, is the component [nu] of a solution of
    the system whose right-hand sides are widened in proportion to the tolerance. *)
Theorem C78_accurate : forall lp m n nu A b V tol, (nu < n)%nat -> proper_mat m n A -> proper_vec m b -> proper_vec n V -> 0 < tol ->
  rl (V nu) <> 0 -> rh (V nu) <= 10 ^ 15 -> lp_answers lp m n nu A b V ->
  forall K, (forall j, (j < n)%nat -> j <> nu -> wid (V j) * (2 / 3) ^ K < tol) -> (exists j, (j < n)%nat /\ j <> nu /\ tol <= wid (V j)) ->
  forall maxiter q, (Z.of_nat (2 ^ (K * (n - 1))) <= maxiter)%Z -> algo lp m n nu A b V tol maxiter = Some q ->
  attained m n nu A (widened b (slack m n nu A tol)) V q.
Proof. exact pss_accurate. Qed.
Print Assumptions C78_accurate.

(** More iterations change nothing. *)
Theorem C78_settles : forall lp m n nu A b V tol, (nu < n)%nat -> proper_mat m n A -> proper_vec m b -> proper_vec n V -> 0 < tol ->
  rl (V nu) <> 0 -> rh (V nu) <= 10 ^ 15 -> lp_answers lp m n nu A b V ->
  forall K, (forall j, (j < n)%nat -> j <> nu -> wid (V j) * (2 / 3) ^ K < tol) -> (exists j, (j < n)%nat /\ j <> nu /\ tol <= wid (V j)) ->
  forall maxiter, (Z.of_nat (2 ^ (K * (n - 1))) <= maxiter)%Z -> algo lp m n nu A b V tol maxiter = algo lp m n nu A b V tol (Z.of_nat (2 ^ (K * (n - 1)))).
Proof. intros lp m n nu A b V tol H1 H2 H3 H4 H5 H6 H7 H8 K H9 H10 maxiter H11. exact (pss_settles lp m n nu A b V tol H1 H2 H3 H4 H6 H7 H8 K H9 H10 maxiter H11). Qed.
Print Assumptions C78_settles.

(** Both ends of the component. *)
Theorem C78_hull : forall lp m n nu A b V1 V2 tol K maxiter X, (nu < n)%nat -> proper_mat m n A -> proper_vec m b -> proper_vec n V1 -> proper_vec n V2 -> 0 < tol ->
  rl (V1 nu) <> 0 -> rl (V2 nu) <> 0 -> rh (V1 nu) <= 10 ^ 15 -> rh (V2 nu) <= 10 ^ 15 ->
  lp_answers lp m n nu A b V1 -> lp_answers lp m n nu A (fun i => r_neg (b i)) V2 ->
  (forall j, (j < n)%nat -> j <> nu -> wid (V1 j) * (2 / 3) ^ K < tol) -> (forall j, (j < n)%nat -> j <> nu -> wid (V2 j) * (2 / 3) ^ K < tol) ->
  (exists j, (j < n)%nat /\ j <> nu /\ tol <= wid (V1 j)) -> (exists j, (j < n)%nat /\ j <> nu /\ tol <= wid (V2 j)) ->
  (Z.of_nat (2 ^ (K * (n - 1))) <= maxiter)%Z -> pss lp m n A b V1 V2 tol maxiter nu = Some X ->
  (exists x, united m n A (widened b (slack m n nu A tol)) x /\ x nu = rl X) /\ (exists x, united m n A (widened b (slack m n nu A tol)) x /\ x nu = rh X).
Proof. exact pss_hull. Qed.
Print Assumptions C78_hull.

(** A system that has no solutions, not even after the widening: an exception. *)
Theorem C78_no_solutions : forall lp m n nu A b V tol K maxiter, (nu < n)%nat -> proper_mat m n A -> proper_vec m b -> proper_vec n V -> 0 < tol ->
  rl (V nu) <> 0 -> rh (V nu) <= 10 ^ 15 -> lp_answers lp m n nu A b V ->
  (forall j, (j < n)%nat -> j <> nu -> wid (V j) * (2 / 3) ^ K < tol) -> (exists j, (j < n)%nat /\ j <> nu /\ tol <= wid (V j)) ->
  (Z.of_nat (2 ^ (K * (n - 1))) <= maxiter)%Z -> (forall x, ~ united m n A (widened b (slack m n nu A tol)) x) -> algo lp m n nu A b V tol maxiter = None.
Proof. exact pss_no_solutions. Qed.
Print Assumptions C78_no_solutions.

(** Not conversely: with solutions there may be an exception too, and more iterations
    may turn the right answer into one. *)
Theorem C78_answer_lost_refuted : exists m n A b V tol, proper_mat m n A /\ proper_vec m b /\ proper_vec n V /\
  (exists x, united m n A b x /\ in_ivec n V x) /\ (exists lp, lp_answers lp m n 0 A b V) /\
  forall lp, lp_answers lp m n 0 A b V -> (exists q, algo lp m n 0 A b V tol 0 = Some q /\ attained m n 0 A b V q) /\ forall maxiter, (2 <= maxiter)%Z -> algo lp m n 0 A b V tol maxiter = None.
Proof.
  exists 1%nat, 2%nat, c45_A, c45_b, c78_V, 1. refine (conj _ (conj _ (conj _ (conj _ (conj _ _))))).
  - intros i [|j] _ _; unfold proper, c45_A, r_point; simpl; lra.
  - intros i _; unfold proper, c45_b; simpl; lra.
  - intros [|j] _; unfold proper, c78_V; simpl; lra.
  - exists (fun j => match j with O => 1 | _ => 0 end). split; [apply c45_united; lra | intros [|j] _; unfold inI, c78_V; simpl; lra].
  - exists c45_lp. apply c45_answers. left. unfold c78_V. simpl. lra.
  - intros lp H. split; [|intros maxiter Hm; exact (c78_raises lp maxiter H Hm)]. exists 1. split; [exact (c78_first_answer lp)|].
    exists (fun j => match j with O => 1 | _ => 0 end). split; [apply c45_united; lra|]. split; [intros [|j] _ N; [contradiction | unfold inI, c78_V; simpl; lra] | reflexivity].
Qed.
Print Assumptions C78_answer_lost_refuted.

(** And not when the starting box begins with zero in the component: the bound stays
    zero for every tolerance and every number of iterations. *)
Theorem C78_zero_end_refuted : exists m n A b V, proper_mat m n A /\ proper_vec m b /\ proper_vec n V /\
  (exists x, united m n A b x) /\ (forall x, united m n A b x -> in_ivec n V x /\ 1 / 3 <= x 0%nat) /\ (exists lp, lp_answers lp m n 0 A b V) /\
  forall lp, lp_answers lp m n 0 A b V -> forall tol maxiter, algo lp m n 0 A b V tol maxiter = Some 0.
Proof.
  exists 2%nat, 2%nat, zs_A, zs_b, zs_V. refine (conj _ (conj _ (conj _ (conj _ (conj _ (conj _ _)))))).
  - intros [|i] [|j] _ _; unfold proper, zs_A, r_point; simpl; lra.
  - intros [|i] _; unfold proper, zs_b, r_point; simpl; lra.
  - intros [|j] _; unfold proper, zs_V; simpl; lra.
  - eexists. exact zs_some.
  - intros x U. apply zs_solutions in U. split; [|lra]. intros [|[|j]] Hj; try lia; unfold inI, zs_V; simpl; lra.
  - exists zs_lp. exact zs_answers.
  - intros lp H tol maxiter. exact (zs_algo lp tol maxiter H).
Qed.
Print Assumptions C78_zero_end_refuted.

(** x_0 in [1, 2] and x_1 free, tolerance 2: the conditions, and the run. *)
Example C78_case : proper_mat 1 2 c45_A /\ proper_vec 1 c45_b /\ proper_vec 2 c78_V /\ rl (c78_V 0%nat) <> 0 /\ rh (c78_V 0%nat) <= 10 ^ 15 /\
  lp_answers c45_lp 1 2 0 c45_A c45_b c78_V /\ lp_answers c45_lp 1 2 0 c45_A (fun i => r_neg (c45_b i)) c78_V2 /\
  (forall j, (j < 2)%nat -> j <> 0%nat -> wid (c78_V j) * (2 / 3) ^ 1 < 2) /\ (exists j, (j < 2)%nat /\ j <> 0%nat /\ 2 <= wid (c78_V j)) /\
  pss c45_lp 1 2 c45_A c45_b c78_V c78_V2 2 (Z.of_nat (2 ^ (1 * (2 - 1)))) 0 = Some (mkr 1 2) /\ slack 1 2 0 c45_A 2 0%nat = 2 / 10 ^ 15.
Proof.
  refine (conj _ (conj _ (conj _ (conj _ (conj _ (conj _ (conj _ (conj _ (conj _ (conj _ _)))))))))).
  - intros i [|j] _ _; unfold proper, c45_A, r_point; simpl; lra.
  - intros i _; unfold proper, c45_b; simpl; lra.
  - intros [|j] _; unfold proper, c78_V; simpl; lra.
  - unfold c78_V. simpl. lra.
  - unfold c78_V. simpl. lra.
  - apply c45_answers. left. unfold c78_V. simpl. lra.
  - apply (c45_answers (- (2)) (- (1)) c78_V2). right. unfold c78_V2. simpl. lra.
  - intros [|[|j]] Hj N; try lia. unfold wid, c78_V. simpl. lra.
  - exists 1%nat. split; [lia|]. split; [lia|]. unfold wid, c78_V. simpl. lra.
  - exact c78_run.
  - unfold slack, c45_A, r_point, r_mag. cbn [total Nat.eqb rl rh]. rewrite Rabs_R0, Rabs_R1, !Rmax_left by lra. simpl. field.
Qed.
