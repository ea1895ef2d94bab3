(** HBR with a matrix on the right-hand side (C44), when the Neumaier box is inner (C53)
    and PPS for all components (C65). *)
From Coq Require Import Reals ZArith List Bool Arith Lia Lra.
From Verif Require Import Exact SpecExact Estim SpecEstim HbrProofs Pps SpecPps EstimMat SpecEstimMat EstimMatProofs PpsCase PpsCaseAll NmExact.
Import ListNotations.
Open Scope R_scope.

(** ** C44 *)
(** The equations X = M of numbers, of any size from two on and with any number of
    columns, all exact inverses given: every entry of the answer misses the solution. *)
Theorem C44_matrix_rhs_refuted : forall k p M, (1 <= k)%nat -> (forall i c, (i < S k)%nat -> (c < p)%nat -> M i c <> 0) ->
  inverse_of (S k) (mids (point_mat identity)) identity /\ inverse_of (S k) (r_compmat (rimm (S k) identity (point_mat identity))) identity /\
  exists box, hbr_mat k p (point_mat identity) (point_mat M) identity identity = Some box /\ united_mat (S k) p (point_mat identity) (point_mat M) M /\
    forall i c, (i < S k)%nat -> (c < p)%nat -> ~ inI (nth c (nth i box []) (mkr 0 0)) (M i c).
Proof. exact hbr_mat_identity_misses. Qed.
Print Assumptions C44_matrix_rhs_refuted.

(** One equation: each column is answered as the vector branch does, and enclosed. *)
Theorem C44_matrix_rhs_single : forall p A b C B, inverse_of 1 (r_compmat (rimm 1 C A)) B -> h_matrix 1 (rimm 1 C A) ->
  exists row, hbr_mat 0 p A b C B = Some [row] /\ length row = p /\
    (forall c, (c < p)%nat -> hbr 0 A (fun i => b i c) C B = Some [nth c row (mkr 0 0)]) /\
    forall X, united_mat 1 p A b X -> forall c, (c < p)%nat -> inI (nth c row (mkr 0 0)) (X O c).
Proof. exact hbr_mat_single. Qed.
Print Assumptions C44_matrix_rhs_single.
Example C44_matrix_case : inverse_of 1 (r_compmat (rimm 1 (fun _ _ => / 3) (fun _ _ => mkr 2 4))) (fun _ _ => 3 / 2) /\
  h_matrix 1 (rimm 1 (fun _ _ => / 3) (fun _ _ => mkr 2 4)).
Proof. exact hbr_mat_case. Qed.

(** ** C65 *)
(** All components: a box is returned exactly when every component alone is
    returned, and then it consists of those answers. *)
Theorem C65_all_components : forall hbr inverse solve det hang n A b tol maxiter box, (0 < n)%nat ->
  (pps_all hbr inverse solve det hang n A b tol maxiter = POk box <->
   length box = n /\ forall nu, (nu < n)%nat -> pps hbr inverse solve det hang n A b tol maxiter nu = POk (nth nu box (mkr 0 0))).
Proof. exact pps_all_components. Qed.
Print Assumptions C65_all_components.

Theorem C65_all_encloses : forall hbr inverse solve det hang n A b tol maxiter box (low high : nat -> vec), (0 < n)%nat ->
  estimates_enclose hbr n A b -> estimates_enclose hbr n A (negated b) -> inverses_enclose inverse n A -> solutions_exact solve n ->
  (forall nu, (nu < n)%nat -> generic_minimum n A b nu (low nu) /\ generic_minimum n A (negated b) nu (high nu)) ->
  pps_all hbr inverse solve det hang n A b tol maxiter = POk box ->
  forall x, united n n A b x -> in_ivec n (fun j => nth j box (mkr 0 0)) x.
Proof. exact pps_all_encloses. Qed.
Print Assumptions C65_all_encloses.
Example C65_all_case : forall tol hang (maxiter : nat), estimates_enclose cs_hbr 2 cs_A cs_b /\ estimates_enclose cs_hbr 2 cs_A (negated cs_b) /\ inverses_enclose ca_inv 2 cs_A /\ solutions_exact cs_solve 2 /\
  (forall nu, (nu < 2)%nat -> exists low high, generic_minimum 2 cs_A cs_b nu low /\ generic_minimum 2 cs_A (negated cs_b) nu high) /\
  pps_all cs_hbr ca_inv cs_solve (fun _ => 1) hang 2 cs_A cs_b tol (Z.of_nat maxiter) = POk [mkr (/ 2) (- -3); mkr (/ 2) (- -3)].
Proof. exact pps_case_all. Qed.

(** ** C53 *)
(** A square system, with or without weights: exactly when all points of the box are
    tolerable.  [r_mul] is the product of intervals. *)
Theorem C53_inner_iff : forall n A b y w box, proper_mat n n A -> neumaier n n A b y w = Some (n, box) ->
  ((forall x, in_ivec n box x -> tolerable n n A b x) <->
   forall i, (i < n)%nat -> rl (b i) <= total n (fun j => rl (r_mul (A i j) (box j))) /\ total n (fun j => rh (r_mul (A i j) (box j))) <= rh (b i)).
Proof. exact neumaier_inner_iff. Qed.
Print Assumptions C53_inner_iff.
(** Without weights, around a tolerable centre: enough that in no row the average
    half-width, weighted with the row's magnitudes, exceeds the half-width of the
    coordinate with the number of the row. *)
Theorem C53_inner_average : forall n A b y box, proper_mat n n A -> (forall i, (i < n)%nat -> 0 < total n (fun j => r_mag (A i j))) -> tolerable n n A b y ->
  neumaier n n A b y None = Some (n, box) ->
  (forall i, (i < n)%nat -> total n (fun j => r_mag (A i j) * r_rad (box j)) <= total n (fun j => r_mag (A i j)) * r_rad (box i)) ->
  in_ivec n box y /\ forall x, in_ivec n box x -> tolerable n n A b x.
Proof. exact neumaier_inner_average. Qed.
Print Assumptions C53_inner_average.
Example C53_inner_case : forall n, (0 < n)%nat -> let A : imat := fun i j => if (i =? j)%nat then mkr 1 1 else mkr 0 0 in let b : ivec := fun _ => mkr (-1) 1 in let y : vec := fun _ => 0 in
  proper_mat n n A /\ (forall i, (i < n)%nat -> 0 < total n (fun j => r_mag (A i j))) /\ tolerable n n A b y /\
  exists box, neumaier n n A b y None = Some (n, box) /\ (forall j, (j < n)%nat -> box j = mkr (-1) 1) /\
    forall i, (i < n)%nat -> total n (fun j => r_mag (A i j) * r_rad (box j)) <= total n (fun j => r_mag (A i j)) * r_rad (box i).
Proof. exact neumaier_average_case. Qed.

(** With weights, for one equation: the half-widths of the answer fit the centre whose
    coordinates are [w j * y j], while the answer is centred at [y]. *)
Theorem C53_weighted_radii : forall n A b y w, (0 < n)%nat -> proper_mat 1 n A -> (exists j, (j < n)%nat /\ w j <> 0 /\ ~ (rl (A O j) = 0 /\ rh (A O j) = 0)) ->
  tolerable 1 n A b (fun j => w j * y j) ->
  exists box, neumaier 1 n A b y (Some w) = Some (n, box) /\ (forall j, (j < n)%nat -> r_mid (box j) = y j) /\
    forall x, (forall j, (j < n)%nat -> Rabs (x j - w j * y j) <= r_rad (box j)) -> tolerable 1 n A b x.
Proof. exact neumaier_weighted_row. Qed.
Print Assumptions C53_weighted_radii.
Example C53_weighted_case : let A : imat := fun _ j => if (j =? 0)%nat then mkr 1 2 else mkr (-1) 3 in let b : ivec := fun _ => mkr (-4) 4 in
  let w : vec := fun j => if (j =? 0)%nat then 2 else / 2 in let y : vec := fun _ => / 2 in
  proper_mat 1 2 A /\ (exists j, (j < 2)%nat /\ w j <> 0 /\ ~ (rl (A O j) = 0 /\ rh (A O j) = 0)) /\ tolerable 1 2 A b (fun j => w j * y j).
Proof.
  cbv zeta. split; [intros i j _ _; unfold proper; destruct (j =? 0)%nat; simpl; lra|]. split; [exists O; simpl; repeat split; [lia | lra | lra]|].
  intros M HM i Hi. assert (H1 := HM i 0%nat Hi ltac:(lia)). assert (H2 := HM i 1%nat Hi ltac:(lia)). unfold inI, times in *. simpl in *. lra.
Qed.

(** One equation, around the origin, with or without weights: no larger box with the given
    proportions lies in the tolerable solution set. *)
Theorem C53_largest_at_origin : forall n A b y w box, (0 < n)%nat -> proper_mat 1 n A -> (forall j, (j < n)%nat -> y j = 0) -> tolerable 1 n A b y ->
  (exists j, (j < n)%nat /\ weight_of w j <> 0 /\ ~ (rl (A O j) = 0 /\ rh (A O j) = 0)) ->
  neumaier 1 n A b y w = Some (n, box) ->
  forall t, 0 <= t -> (forall x, (forall j, (j < n)%nat -> Rabs (x j) <= t * Rabs (weight_of w j)) -> tolerable 1 n A b x) ->
  forall j, (j < n)%nat -> t * Rabs (weight_of w j) <= r_rad (box j).
Proof. exact neumaier_largest. Qed.
Print Assumptions C53_largest_at_origin.
(** [[1,2] x0 + [-1,3] x1 = [-4,5]]: the box with proportions 2 : 1 and [t = 1/2]. *)
Example C53_largest_case : let A : imat := fun _ j => if (j =? 0)%nat then mkr 1 2 else mkr (-1) 3 in let b : ivec := fun _ => mkr (-4) 5 in
  let w : option vec := Some (fun j => if (j =? 0)%nat then 2 else 1) in
  proper_mat 1 2 A /\ tolerable 1 2 A b (fun _ => 0) /\ (exists j, (j < 2)%nat /\ weight_of w j <> 0 /\ ~ (rl (A O j) = 0 /\ rh (A O j) = 0)) /\
  (forall x, (forall j, (j < 2)%nat -> Rabs (x j) <= / 2 * Rabs (weight_of w j)) -> tolerable 1 2 A b x) /\
  exists box, neumaier 1 2 A b (fun _ => 0) w = Some (2%nat, box).
Proof.
  cbv zeta. split; [intros i j _ _; unfold proper; destruct (j =? 0)%nat; simpl; lra|]. split.
  { intros M HM i Hi. unfold inI, times. simpl. lra. }
  split; [exists O; simpl; repeat split; [lia | lra | lra]|]. split.
  { intros x Hx M HM i Hi. assert (H1 := HM i 0%nat Hi ltac:(lia)). assert (H2 := HM i 1%nat Hi ltac:(lia)).
    assert (X0 := Hx 0%nat ltac:(lia)). assert (X1 := Hx 1%nat ltac:(lia)). simpl in X0, X1. rewrite (Rabs_right 2) in X0 by lra. rewrite (Rabs_right 1) in X1 by lra.
    assert (Y0 : -1 <= x 0%nat <= 1) by (revert X0; unfold Rabs; destruct Rcase_abs; lra). assert (Y1 : - / 2 <= x 1%nat <= / 2) by (revert X1; unfold Rabs; destruct Rcase_abs; lra).
    unfold inI, times in *. simpl in *. nra. }
  eexists. reflexivity.
Qed.
