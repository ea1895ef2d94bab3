(** C34 for the value of Uss the library computes, in binary64. *)
From Coq Require Import ZArith Reals Lra Lia List Bool.
From Flocq Require Import Core IEEE754.BinarySingleNaN.
From Verif Require Import Base PyNum Kernel Spec Expr Arrays Construct SpecArray RecogFl SpecRecogFl RecogFlRefute Props_RecogFl UssFl SpecUssFl UssFlProofs UssFlRefute.
Import ListNotations.
Open Scope R_scope.

(** A non-negative computed Uss: some matrix of the system sends the point into
    the right-hand side widened by [uss_margin], whatever inner product with a
    known error bound numpy uses. *)
Theorem C34_uss_floating_point_margin : forall fdot g h r n A b x w t,
  dot_within fdot n g h -> 0 <= g <= 1 -> 0 <= h <= 1 -> (Z.of_nat n <= 2 ^ 100)%Z ->
  system r n A b x -> moderate A b x -> weights_from 1 r w ->
  returns (uss_value_fl fdot A b x w) mode_NE t -> num_le (PInt 0) t = true ->
  exists P, in_matrix A P /\ in_rhs_by b (uss_margin g h n A b x) (row_value n P x).
Proof. exact uss_fl_margin. Qed.
Print Assumptions C34_uss_floating_point_margin.

(** A negative one: no matrix sends it into the right-hand side narrowed by it. *)
Theorem C34_uss_floating_point_excludes : forall fdot g h r n A b x w t,
  dot_within fdot n g h -> 0 <= g <= 1 -> 0 <= h <= 1 -> (Z.of_nat n <= 2 ^ 100)%Z ->
  system r n A b x -> moderate A b x -> weights_from 0 r w ->
  returns (uss_value_fl fdot A b x w) mode_NE t -> num_lt t (PInt 0) = true ->
  forall P, in_matrix A P -> ~ in_rhs_by b (fun i => - uss_margin g h n A b x i) (row_value n P x).
Proof. exact uss_fl_excludes. Qed.
Print Assumptions C34_uss_floating_point_excludes.

(** Adding up the products in order is such an inner product. *)
Theorem C34_dot_in_order : forall n, (Z.of_nat n <= 2 ^ 20)%Z -> dot_within seq_dot n (INR n * bpow radix2 (-51)) (INR n * bpow radix2 (-1073)).
Proof. exact seq_dot_within. Qed.
Print Assumptions C34_dot_in_order.

(** The margin is needed on both sides: *)
Theorem C34_uss_floating_point_refuted : exists A b x t, system 1 1 A b x /\ moderate A b x /\
  returns (uss_value_fl seq_dot A b x (np_ones 1)) mode_NE t /\ num_le (PInt 0) t = true /\
  forall P, in_matrix A P -> ~ in_rhs b (row_value 1 P x).
Proof. exact uss_fl_x. Qed.
Print Assumptions C34_uss_floating_point_refuted.
Theorem C34_uss_negative_refuted : exists A b x t, system 1 1 A b x /\ moderate A b x /\
  returns (uss_value_fl seq_dot A b x (np_ones 1)) mode_NE t /\ num_lt t (PInt 0) = true /\
  exists P, in_matrix A P /\ in_rhs b (row_value 1 P x).
Proof. exact uss_fl_neg_x. Qed.
Print Assumptions C34_uss_negative_refuted.

(** The system and the points of Props_RecogFl.v meet the hypotheses. *)
Lemma f_moderate x : Forall (fun v => Rabs (num_val v) <= 1024) (adata x) -> moderate fA fb x.
Proof.
  intro F. assert (C := big400). split; [|split].
  - do 4 (constructor; [split; [apply ii_good; lia|]; split; [apply ii_good; lia|]; apply mod_entry; simpl; apply Rabs_le; lra|]). constructor.
  - do 2 (constructor; [apply mod_entry; simpl; apply Rabs_le; lra|]). constructor.
  - revert F. apply Forall_impl. intros v Hv. lra.
Qed.
Definition fz : arr pynum := mkarr [2%nat] [PInt 1; PInt 2].
Example C34_uss_floating_point_case :
  dot_within seq_dot 2 (INR 2 * bpow radix2 (-51)) (INR 2 * bpow radix2 (-1073)) /\ 0 <= INR 2 * bpow radix2 (-51) <= 1 /\ 0 <= INR 2 * bpow radix2 (-1073) <= 1 /\
  (system 2 2 fA fb fz /\ moderate fA fb fz /\ weights_from 1 2 (np_ones 2) /\
   exists t, returns (uss_value_fl seq_dot fA fb fz (np_ones 2)) mode_NE t /\ num_le (PInt 0) t = true) /\
  (system 2 2 fA fb fy /\ moderate fA fb fy /\ weights_from 0 2 (np_ones 2) /\
   exists t, returns (uss_value_fl seq_dot fA fb fy (np_ones 2)) mode_NE t /\ num_lt t (PInt 0) = true).
Proof.
  split; [apply seq_dot_within; lia|].
  assert (P : forall e, (e <= -1)%Z -> 0 <= INR 2 * bpow radix2 e <= 1).
  { intros e He. assert (B := bpow_gt_0 radix2 e). assert (B2 : bpow radix2 e <= bpow radix2 (-1)) by (apply bpow_le; lia). change (bpow radix2 (-1)) with (/ 2) in B2. simpl INR. lra. }
  split; [apply P; lia|]. split; [apply P; lia|].
  split.
  - split; [apply f_system; [reflexivity | reflexivity |]; constructor; [split; [simpl; lia | exact I]|]; constructor; [split; [simpl; lia | exact I] | constructor]|].
    split; [apply f_moderate; constructor; [simpl; apply Rabs_le; lra|]; constructor; [simpl; apply Rabs_le; lra | constructor]|]. split; [apply ones_weights; lra|].
    apply got. vm_compute. reflexivity.
  - split; [apply f_system; [reflexivity | reflexivity |]; constructor; [split; [simpl; lia | exact I]|]; constructor; [split; [simpl; lia | exact I] | constructor]|].
    split; [apply f_moderate; constructor; [simpl; apply Rabs_le; lra|]; constructor; [simpl; apply Rabs_le; lra | constructor]|]. split; [apply ones_weights; lra|].
    apply (got _ _ (fun t => num_lt t (PInt 0))). vm_compute. reflexivity.
Qed.
