(** Where floating-point Uss goes wrong, and a system where it does not. *)
From Coq Require Import ZArith Reals Lra Lia List Bool Floats.SpecFloat.
From Flocq Require Import Core IEEE754.BinarySingleNaN.
From Verif Require Import Base PyNum Kernel Spec Expr Arrays Construct SpecArray XReal XArith KernelProofs KernelAlg KernelRefute Witness ArrayProofs ArrayMore ArrayMat
  RecogFl SpecRecogFl RecogFlProofs RecogFlCor RecogFlRefute HbrFl RohnFl UssFl SpecUssFl UssFlProofs.
Import ListNotations.
Open Scope R_scope.

Lemma big400 : 1024 <= bpow radix2 400.
Proof. change 1024 with (bpow radix2 10). apply bpow_le. lia. Qed.
Lemma mod_entry e : Rabs (num_val (lo e)) <= 1024 -> Rabs (num_val (hi e)) <= 1024 -> magnitude e <= bpow radix2 400.
Proof. intros A B. assert (C := big400). unfold magnitude. apply Rmax_lub; lra. Qed.
Lemma one_moderate p l h v : small_num p -> finite_num p -> Rabs (num_val p) <= 1024 -> Rabs (num_val l) <= 1024 -> Rabs (num_val h) <= 1024 -> Rabs (num_val v) <= 1024 ->
  moderate (one_eq p) (one_rhs l h) (one_pt v).
Proof.
  intros Sp Fp Bp Bl Bh Bv. assert (C := big400). split; [|split].
  - constructor; [|constructor]. split; [split; assumption|]. split; [split; [split; assumption | apply Rle_refl]|]. now apply mod_entry.
  - constructor; [|constructor]. now apply mod_entry.
  - constructor; [lra | constructor].
Qed.
(** The double nearest to 1/3. *)
Definition third : pynum := PFlt (fl 6004799503160661 (-54)).
Lemma v_third : num_val third = 6004799503160661 / 18014398509481984.
Proof. change (B2R (fl 6004799503160661 (-54)) = 6004799503160661 / 18014398509481984). rewrite (B2R_sf _ false 6004799503160661 (-54)) by (vm_compute; reflexivity). feval. lra. Qed.
Lemma uss_fl_x : exists A b x t, system 1 1 A b x /\ moderate A b x /\
  returns (uss_value_fl seq_dot A b x (np_ones 1)) mode_NE t /\ num_le (PInt 0) t = true /\
  forall P, in_matrix A P -> ~ in_rhs b (row_value 1 P x).
Proof.
  destruct (got (uss_value_fl seq_dot (one_eq (PInt 3)) (one_rhs (PInt 1) (PInt 1)) (one_pt third) (np_ones 1)) mode_NE (num_le (PInt 0))) as (t & Ht & Lt); [vm_compute; reflexivity|].
  exists (one_eq (PInt 3)), (one_rhs (PInt 1) (PInt 1)), (one_pt third), t.
  split. { apply one_system; try exact I; try reflexivity; try (simpl; lia). apply Rle_refl. }
  split. { apply one_moderate; try exact I; try (simpl; lia); rewrite ?v_third; cbn [num_val]; apply Rabs_le; lra. }
  split; [exact Ht|]. split; [exact Lt|]. intros P HP IN.
  assert (M := HP 0%nat 0%nat _ eq_refl). rewrite member_x in M. simpl in M.
  assert (N := IN 0%nat _ eq_refl). rewrite member_x in N. unfold row_value in N. cbn [Rsum] in N.
  change (aget (one_pt third) [0%nat]) with (Some third) in N. cbv iota in N. rewrite v_third in N. simpl in N. nra.
Qed.
Lemma uss_fl_neg_x : exists A b x t, system 1 1 A b x /\ moderate A b x /\
  returns (uss_value_fl seq_dot A b x (np_ones 1)) mode_NE t /\ num_lt t (PInt 0) = true /\
  exists P, in_matrix A P /\ in_rhs b (row_value 1 P x).
Proof.
  destruct (got (uss_value_fl seq_dot (one_eq (PInt 1)) (one_rhs (PInt 1) one_up) (one_pt one_up) (np_ones 1)) mode_NE (fun t => num_lt t (PInt 0))) as (t & Ht & Lt); [vm_compute; reflexivity|].
  exists (one_eq (PInt 1)), (one_rhs (PInt 1) one_up), (one_pt one_up), t.
  split. { apply one_system; try exact I; try reflexivity; try (simpl; lia). rewrite v_up. cbn [num_val]. lra. }
  split. { apply one_moderate; try exact I; try (simpl; lia); rewrite ?v_up; cbn [num_val]; apply Rabs_le; lra. }
  split; [exact Ht|]. split; [exact Lt|].
  exists (fun _ _ => num_val (PInt 1)). split; [apply one_matrix; exact I|]. apply one_in; [exact I | reflexivity|]. rewrite v_up. cbn [num_val]. lra.
Qed.
