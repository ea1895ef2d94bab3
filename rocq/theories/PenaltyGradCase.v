(** An example for the direction of the penalty: y1 + 3 y2 <= 1 and y1 <= 3 at (1, 1). *)
From Coq Require Import ZArith Reals List Bool Arith Lia Lra.
From Flocq Require Import Core IEEE754.BinarySingleNaN.
From Verif Require Import Base PyNum Kernel Spec XReal XArith Exact SpecExact Ralgb5 RecogOpt RecogOptCon SpecRecogOptCon Witness IspaeFlCase SpecRecogGrad RecogGradCase SpecPenaltyGrad.
Import ListNotations.
Open Scope R_scope.

Definition p_rows : list (list flt * flt) := [([f1; three], f1); ([f1; f0], three)].
Definition p_x : list flt := [f1; f1].
Lemma same a b : is_finite b = true -> upto3 a && flt_leb a b && flt_leb b a = true -> is_finite a = true /\ B2R a = B2R b.
Proof.
  intros F H. apply andb_prop in H. destruct H as [H H2]. apply andb_prop in H. destruct H as [H0 H1]. destruct (upto3_ok a H0) as [Fa _]. split; [exact Fa|].
  rewrite flt_leb_x in H1, H2. rewrite (proj1 (is_finite_x a) Fa), (proj1 (is_finite_x b) F) in H1, H2. apply xleb_fin in H1. apply xleb_fin in H2. lra.
Qed.
Lemma p_decided : decided l_dot p_x p_rows.
Proof.
  intros C b [E|[E|[]]]; injection E as <- <-.
  - assert (V : flt_ltb f1 (l_dot [f1; three] p_x) = true) by (vm_compute; reflexivity). rewrite V. unfold left_side. cbn [p_x length total nth]. rewrite one_val, three_val. lra.
  - assert (V : flt_ltb three (l_dot [f1; f0] p_x) = false) by (vm_compute; reflexivity). rewrite V. unfold left_side. cbn [p_x length total nth]. rewrite one_val, three_val. change (B2R f0) with 0. lra.
Qed.
Lemma p_column k : (k < length p_x)%nat -> is_finite (in_turn (violated_column l_dot p_x p_rows k)) = true /\ Rabs (B2R (in_turn (violated_column l_dot p_x p_rows k)) - real_sum (violated_column l_dot p_x p_rows k)) <= 0 /\
  Rabs (B2R three * B2R (in_turn (violated_column l_dot p_x p_rows k))) <= bpow radix2 1000.
Proof.
  intro Hk. cbn [p_x length] in Hk. assert (V1 : flt_ltb f1 (l_dot [f1; three] p_x) = true) by (vm_compute; reflexivity). assert (V2 : flt_ltb three (l_dot [f1; f0] p_x) = false) by (vm_compute; reflexivity).
  assert (F1 : is_finite f1 = true) by (vm_compute; reflexivity). assert (F3 : is_finite three = true) by (vm_compute; reflexivity).
  assert (K : k = 0%nat \/ k = 1%nat) by lia. destruct K as [-> | ->]; unfold violated_column, p_rows; cbn [map fst snd]; rewrite V1, V2; cbn [nth real_sum fold_right]; change (B2R f0) with 0.
  - destruct (same (in_turn [f1; f0]) f1 F1) as [F E]; [vm_compute; reflexivity|]. rewrite E, one_val, three_val. split; [exact F|]. split; [apply Rabs_le; lra | apply below_1000, Rabs_le; lra].
  - destruct (same (in_turn [three; f0]) three F3) as [F E]; [vm_compute; reflexivity|]. rewrite E, three_val. split; [exact F|]. split; [apply Rabs_le; lra | apply below_1000, Rabs_le; lra].
Qed.
