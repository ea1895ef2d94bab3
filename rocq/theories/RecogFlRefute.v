(** Where floating-point Tol and Uni go wrong, and a system where they do not. *)
From Coq Require Import ZArith Reals Lra Lia List Bool Floats.SpecFloat.
From Flocq Require Import Core IEEE754.BinarySingleNaN.
From Verif Require Import Base PyNum Kernel Spec Expr Arrays Construct SpecArray XReal XArith KernelProofs KernelAlg KernelRefute Witness ArrayProofs ArrayMore ArrayMat
  RecogFl SpecRecogFl RecogFlProofs RecogFlCor.
Import ListNotations.
Open Scope R_scope.

(** One equation [p] X1 = [l, h] in one unknown. *)
Definition one_eq (p : pynum) : aitv := array_interval (mkarr [1%nat; 1%nat] [mkitv Classical p p]).
Definition one_rhs (l h : pynum) : aitv := array_interval (mkarr [1%nat] [mkitv Classical l h]).
Definition one_pt (v : pynum) : arr pynum := mkarr [1%nat] [v].

Lemma one_system p l h v : small_num p -> finite_num p -> small_num l -> small_num h -> finite_num l -> finite_num h -> num_val l <= num_val h ->
  small_num v -> finite_num v -> system 1 1 (one_eq p) (one_rhs l h) (one_pt v).
Proof.
  intros Sp Fp Sl Sh Fl Fh L Sv Fv. unfold system. split; [lia|].
  split; [split; reflexivity|]. split; [reflexivity|].
  split. { constructor; [|constructor]. split; [reflexivity|]. split; [split; assumption|]. right. exists (num_val p). apply finite_num_x in Fp. rewrite member_x. cbn [lo hi]. rewrite Fp. simpl. lra. }
  split; [split; reflexivity|]. split; [reflexivity|].
  split. { constructor; [|constructor]. repeat split; assumption. }
  split; [reflexivity|]. split; [reflexivity|]. constructor; [|constructor]. split; assumption.
Qed.
Lemma one_matrix p : finite_num p -> in_matrix (one_eq p) (fun _ _ => num_val p).
Proof.
  intros Fp i k e H. apply aget_in in H. destruct H as [<-|[]]. apply finite_num_x in Fp. rewrite member_x. cbn [lo hi]. rewrite Fp. simpl. lra.
Qed.
Lemma one_value p l h v : row_value 1 (fun _ _ => num_val p) (one_pt v) 0 = num_val p * num_val v /\
  aget (adat (one_rhs l h)) [0%nat] = Some (mkitv Classical l h).
Proof. split; [|reflexivity]. unfold row_value. simpl. ring. Qed.
Lemma one_not_in p l h v : finite_num l -> finite_num h -> (num_val p * num_val v < num_val l \/ num_val h < num_val p * num_val v) ->
  ~ in_rhs (one_rhs l h) (row_value 1 (fun _ _ => num_val p) (one_pt v)).
Proof.
  intros Fl Fh L I. destruct (one_value p l h v) as [E G]. specialize (I 0%nat _ G). rewrite E in I.
  rewrite member_x in I. cbn [lo hi] in I. apply finite_num_x in Fl, Fh. rewrite Fl, Fh in I. simpl in I. lra.
Qed.
Lemma one_in p l h v : finite_num l -> finite_num h -> num_val l <= num_val p * num_val v <= num_val h ->
  in_rhs (one_rhs l h) (row_value 1 (fun _ _ => num_val p) (one_pt v)).
Proof.
  intros Fl Fh L i e H. assert (i = 0%nat) by (apply (aget_1_lt _ 1) in H; [lia | reflexivity]). subst i.
  destruct (one_value p l h v) as [E G]. rewrite G in H. inversion H; subst e. rewrite E.
  rewrite member_x. cbn [lo hi]. apply finite_num_x in Fl, Fh. rewrite Fl, Fh. exact L.
Qed.
Lemma ones_weights r w0 : w0 <= 1 -> weights_from w0 r (np_ones r).
Proof.
  intro L. split; [unfold awf, np_ones; cbn [adata ashape size]; rewrite repeat_length; lia|]. split; [reflexivity|].
  apply Forall_forall. intros v H. apply repeat_spec in H. subst v. split; [exact I|]. split; [reflexivity|].
  assert (E : num_val pn1 = 1); [|rewrite E; exact L]. change (B2R (fl 1 0) = 1). rewrite (B2R_sf _ false 4503599627370496 (-52)) by (vm_compute; reflexivity). feval. lra.
Qed.

(** The doubles of the counterexamples. *)
Definition one_up : pynum := PFlt (fl 4503599627370497 (-52)).
Definition one_down : pynum := PFlt (fl 9007199254740991 (-53)).
Lemma v_up : num_val one_up = 4503599627370497 / 4503599627370496.
Proof. change (B2R (fl 4503599627370497 (-52)) = 4503599627370497 / 4503599627370496). rewrite (B2R_sf _ false 4503599627370497 (-52)) by (vm_compute; reflexivity). feval. lra. Qed.
Lemma v_down : num_val one_down = 9007199254740991 / 9007199254740992.
Proof. change (B2R (fl 9007199254740991 (-53)) = 9007199254740991 / 9007199254740992). rewrite (B2R_sf _ false 9007199254740991 (-53)) by (vm_compute; reflexivity). feval. lra. Qed.
Definition tiny : pynum := PFlt (fl 1 (-600)).
Lemma v_tiny : 0 < num_val tiny.
Proof.
  change (0 < B2R (fl 1 (-600))). rewrite (B2R_sf _ false 4503599627370496 (-652)) by (vm_compute; reflexivity).
  unfold F2R. cbn [Fnum Fexp]. apply Rmult_lt_0_compat; [cbn [Z.opp SpecFloat.cond_Zopp]; apply IZR_lt; reflexivity | apply bpow_gt_0].
Qed.
Lemma got {T} (c : M T) m (f : T -> bool) : match outcome c m with Ok v => f v | Err _ => false end = true -> exists v, returns c m v /\ f v = true.
Proof. unfold returns. destruct (outcome c m); [eauto | discriminate]. Qed.

Lemma near_one l h : l = PInt 1 -> h = one_up -> Forall bounded_entry (adata (adat (one_rhs l h))).
Proof.
  intros -> ->. constructor; [|constructor]. unfold bounded_entry, magnitude. cbn [lo hi]. rewrite v_up. cbn [num_val].
  assert (B : bpow radix2 1 <= bpow radix2 1022) by (apply bpow_le; lia). change (bpow radix2 1) with 2 in B.
  apply Rmax_lub; rewrite Rabs_pos_eq; lra.
Qed.
Lemma tol_fl_x : exists A b x t, system 1 1 A b x /\ Forall bounded_entry (adata (adat b)) /\
  returns (tol_value_fl A b x (np_ones 1)) mode_NE t /\ num_le (PInt 0) t = true /\
  exists P, in_matrix A P /\ ~ in_rhs b (row_value 1 P x).
Proof.
  destruct (got (tol_value_fl (one_eq (PInt 1)) (one_rhs (PInt 1) one_up) (one_pt one_down) (np_ones 1)) mode_NE (num_le (PInt 0))) as (t & Ht & Lt); [vm_compute; reflexivity|].
  exists (one_eq (PInt 1)), (one_rhs (PInt 1) one_up), (one_pt one_down), t.
  split. { apply one_system; try exact I; try reflexivity; try (simpl; lia). rewrite v_up. cbn [num_val]. lra. }
  split; [now apply near_one|]. split; [exact Ht|]. split; [exact Lt|].
  exists (fun _ _ => num_val (PInt 1)). split; [apply one_matrix; exact I|]. apply one_not_in; [exact I | reflexivity|]. left. rewrite v_down. cbn [num_val]. lra.
Qed.
Lemma uni_fl_x : exists A b x t, system 1 1 A b x /\ Forall bounded_entry (adata (adat b)) /\
  returns (uni_value_fl A b x (np_ones 1)) mode_NE t /\ num_lt t (PInt 0) = true /\
  exists P, in_matrix A P /\ in_rhs b (row_value 1 P x).
Proof.
  destruct (got (uni_value_fl (one_eq (PInt 1)) (one_rhs (PInt 1) one_up) (one_pt one_up) (np_ones 1)) mode_NE (fun t => num_lt t (PInt 0))) as (t & Ht & Lt); [vm_compute; reflexivity|].
  exists (one_eq (PInt 1)), (one_rhs (PInt 1) one_up), (one_pt one_up), t.
  split. { apply one_system; try exact I; try reflexivity; try (simpl; lia). rewrite v_up. cbn [num_val]. lra. }
  split; [now apply near_one|]. split; [exact Ht|]. split; [exact Lt|].
  exists (fun _ _ => num_val (PInt 1)). split; [apply one_matrix; exact I|]. apply one_in; [exact I | reflexivity|]. rewrite v_up. cbn [num_val]. lra.
Qed.
Lemma tol_tiny_x : exists A b x w t, system 1 1 A b x /\ Forall int_entry (adata (adat b)) /\ weights_from 0 1 w /\
  (forall v, In v (adata w) -> 0 < num_val v) /\
  returns (tol_value_fl A b x w) mode_NE t /\ num_le (PInt 0) t = true /\
  exists P, in_matrix A P /\ ~ in_rhs b (row_value 1 P x).
Proof.
  destruct (got (tol_value_fl (one_eq (PInt 1)) (one_rhs (PInt 0) (PInt 0)) (one_pt tiny) (one_pt tiny)) mode_NE (num_le (PInt 0))) as (t & Ht & Lt); [vm_compute; reflexivity|].
  assert (V := v_tiny).
  exists (one_eq (PInt 1)), (one_rhs (PInt 0) (PInt 0)), (one_pt tiny), (one_pt tiny), t.
  split. { apply one_system; try exact I; try reflexivity; try (simpl; lia). apply Rle_refl. }
  split. { constructor; [|constructor]. exists 0%Z, 0%Z. split; reflexivity. }
  split. { split; [reflexivity|]. split; [reflexivity|]. constructor; [|constructor]. split; [exact I|]. split; [reflexivity | lra]. }
  split. { intros v [<-|[]]. exact V. }
  split; [exact Ht|]. split; [exact Lt|].
  exists (fun _ _ => num_val (PInt 1)). split; [apply one_matrix; exact I|]. apply one_not_in; [exact I | exact I|]. right. cbn [num_val] in *. lra.
Qed.
