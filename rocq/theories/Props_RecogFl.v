(** C33 and C34 for the values the library computes, in binary64. *)
From Coq Require Import ZArith Reals Lra Lia List Bool.
From Flocq Require Import Core IEEE754.BinarySingleNaN.
From Verif Require Import Base PyNum Kernel Spec Expr Arrays Construct SpecArray XReal XArith RecogFl SpecRecogFl RecogFlProofs RecogFlCor RecogFlRefute.
Import ListNotations.
Open Scope R_scope.

(** ** C33.  A non-negative computed Tol: for every matrix of the system the
    image of the point lies in the right-hand side, if the midpoints and radii
    of the right-hand side carry no rounding error... *)
Theorem C33_floating_point_guarantee : forall r n A b x w m t, system r n A b x -> weights_from 1 r w -> Forall (exact_mid_rad m) (adata (adat b)) ->
  returns (tol_value_fl A b x w) m t -> num_le (PInt 0) t = true ->
  forall P, in_matrix A P -> in_rhs b (row_value n P x).
Proof. exact tol_fl_exact. Qed.
Print Assumptions C33_floating_point_guarantee.

(** ... and in the right-hand side widened by [rounding_margin] otherwise. *)
Theorem C33_floating_point_margin : forall r n A b x w t, system r n A b x -> weights_from 1 r w -> Forall bounded_entry (adata (adat b)) ->
  returns (tol_value_fl A b x w) mode_NE t -> num_le (PInt 0) t = true ->
  forall P, in_matrix A P -> in_rhs_moved b rounding_margin (row_value n P x).
Proof. exact tol_fl_margin. Qed.
Print Assumptions C33_floating_point_margin.

(** The margin is needed: *)
Theorem C33_floating_point_refuted : exists A b x t, system 1 1 A b x /\ Forall bounded_entry (adata (adat b)) /\
  returns (tol_value_fl A b x (np_ones 1)) mode_NE t /\ num_le (PInt 0) t = true /\
  exists P, in_matrix A P /\ ~ in_rhs b (row_value 1 P x).
Proof. exact tol_fl_x. Qed.
Print Assumptions C33_floating_point_refuted.

(** Weights below 1 can hide a violation even when nothing else is rounded. *)
Theorem C33_tiny_weight_refuted : exists A b x w t, system 1 1 A b x /\ Forall int_entry (adata (adat b)) /\ weights_from 0 1 w /\
  (forall v, In v (adata w) -> 0 < num_val v) /\
  returns (tol_value_fl A b x w) mode_NE t /\ num_le (PInt 0) t = true /\
  exists P, in_matrix A P /\ ~ in_rhs b (row_value 1 P x).
Proof. exact tol_tiny_x. Qed.
Print Assumptions C33_tiny_weight_refuted.

(** An integer right-hand side has exact midpoints and radii in every rounding
    mode. *)
Theorem C33_integer_rhs_is_exact : forall X m, int_entry X -> small_itv X -> exact_mid_rad m X.
Proof. exact int_exact. Qed.
Print Assumptions C33_integer_rhs_is_exact.

(** ** C34.  A negative computed Uni: no matrix of the system sends the point
    into the right-hand side. *)
Theorem C34_floating_point_guarantee : forall r n A b x w m t, system r n A b x -> weights_from 0 r w -> Forall (exact_mid_rad m) (adata (adat b)) ->
  returns (uni_value_fl A b x w) m t -> num_lt t (PInt 0) = true ->
  forall P, in_matrix A P -> ~ in_rhs b (row_value n P x).
Proof. exact uni_fl_exact. Qed.
Print Assumptions C34_floating_point_guarantee.

Theorem C34_floating_point_margin : forall r n A b x w t, system r n A b x -> weights_from 0 r w -> Forall bounded_entry (adata (adat b)) ->
  returns (uni_value_fl A b x w) mode_NE t -> num_lt t (PInt 0) = true ->
  forall P, in_matrix A P -> ~ in_rhs_moved b (fun e => - rounding_margin e) (row_value n P x).
Proof. exact uni_fl_margin. Qed.
Print Assumptions C34_floating_point_margin.

Theorem C34_floating_point_refuted : exists A b x t, system 1 1 A b x /\ Forall bounded_entry (adata (adat b)) /\
  returns (uni_value_fl A b x (np_ones 1)) mode_NE t /\ num_lt t (PInt 0) = true /\
  exists P, in_matrix A P /\ in_rhs b (row_value 1 P x).
Proof. exact uni_fl_x. Qed.
Print Assumptions C34_floating_point_refuted.

(** A system of two equations:  [1,2] x + [-1,1] y = [-4,8],
    [0,1] x + [2,3] y = [0,16]; the point (3/2, 2) is tolerable, the point
    (100, 0) is not in the united solution set. *)
Definition ii (a b : Z) : itv := mkitv Classical (PInt a) (PInt b).
Definition fA : aitv := array_interval (mkarr [2%nat; 2%nat] [ii 1 2; ii (-1) 1; ii 0 1; ii 2 3]).
Definition fb : aitv := array_interval (mkarr [2%nat] [ii (-4) 8; ii 0 16]).
Definition fx : arr pynum := mkarr [2%nat] [PFlt (fl 3 (-1)); PInt 2].
Definition fy : arr pynum := mkarr [2%nat] [PInt 100; PInt 0].
Lemma ii_good a b : (a <= b)%Z -> (Z.abs a <= 2 ^ 26)%Z -> (Z.abs b <= 2 ^ 26)%Z -> good (ii a b) /\ small_itv (ii a b) /\ proper_fin (ii a b).
Proof.
  intros L Ha Hb. assert (IZR a <= IZR b) by now apply IZR_le. assert (S : small_itv (ii a b)) by (split; assumption).
  split; [split; [reflexivity|]; split; [exact S|]; right; exists (IZR a); rewrite member_x; simpl; lra|].
  split; [exact S|]. split; [split; exact I | assumption].
Qed.
Lemma f_system x : awf x -> ashape x = [2%nat] -> Forall (fun v => small_num v /\ finite_num v) (adata x) -> system 2 2 fA fb x.
Proof.
  intros W Sx F. split; [lia|]. split; [split; reflexivity|]. split; [reflexivity|].
  split; [do 4 (constructor; [apply ii_good; lia|]); constructor|]. split; [split; reflexivity|]. split; [reflexivity|].
  split; [constructor; [apply ii_good; lia|]; constructor; [apply ii_good; lia | constructor]|]. repeat split; assumption.
Qed.
Lemma fb_exact m : Forall (exact_mid_rad m) (adata (adat fb)).
Proof. constructor; [|constructor; [|constructor]]; apply int_exact; try (split; simpl; lia); do 2 eexists; split; reflexivity. Qed.
Example C33_floating_point_case : system 2 2 fA fb fx /\ weights_from 1 2 (np_ones 2) /\ Forall (exact_mid_rad mode_NE) (adata (adat fb)) /\
  Forall bounded_entry (adata (adat fb)) /\ (exists t, returns (tol_value_fl fA fb fx (np_ones 2)) mode_NE t /\ num_eq t (PInt 3) = true).
Proof.
  split; [apply f_system; [reflexivity | reflexivity |]; constructor; [split; [exact I | reflexivity]|]; constructor; [split; [simpl; lia | exact I] | constructor]|].
  split; [apply ones_weights; lra|]. split; [apply fb_exact|].
  split. { assert (B : bpow radix2 4 <= bpow radix2 1022) by (apply bpow_le; lia). change (bpow radix2 4) with 16 in B.
    constructor; [|constructor; [|constructor]]; unfold bounded_entry, magnitude; simpl; apply Rmax_lub; apply Rabs_le; lra. }
  apply got. vm_compute. reflexivity.
Qed.
Example C34_floating_point_case : system 2 2 fA fb fy /\ weights_from 0 2 (np_ones 2) /\ Forall (exact_mid_rad mode_NE) (adata (adat fb)) /\
  exists t, returns (uni_value_fl fA fb fy (np_ones 2)) mode_NE t /\ num_lt t (PInt 0) = true.
Proof.
  split; [apply f_system; [reflexivity | reflexivity |]; constructor; [split; [simpl; lia | exact I]|]; constructor; [split; [simpl; lia | exact I] | constructor]|].
  split; [apply ones_weights; lra|]. split; [apply fb_exact|]. apply (got _ _ (fun t => num_lt t (PInt 0))). vm_compute. reflexivity.
Qed.
