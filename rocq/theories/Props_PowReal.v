(** Property theorems about powers whose exponent is a float or a negative int.
    The C library is the explicit parameter [L]; what is assumed of it is met by
    the correctly rounded library of PerfectLibm.v. *)
From Coq Require Import ZArith Reals List Bool Lia Lra Psatz.
From Flocq Require Import Core IEEE754.BinarySingleNaN.
From Verif Require Import Base PyNum Kernel Spec SpecElem SpecPow XReal XArith KernelProofs Witness ElemProofs PerfectLibm ElemRefute
  PowRealProofs PowRealRefute PowRealTight PowRealKaucher.
Open Scope R_scope.

(** ** C96 *)
Theorem C96_power_encloses : forall L X e m, exp_faithful L -> log_directed L -> log_faithful L ->
  small_itv X -> kd X = Classical -> finite_itv X -> 0 <= num_val (lo X) ->
  small_num e -> finite_num e -> not_natural e ->
  (0 < num_val e \/ 0 < num_val (lo X)) ->
  (exists x, member X x /\ 0 < x) ->
  (forall x y, member X x -> real_power x (num_val e) y -> y <= bpow radix2 1023) ->
  exists Z, returns (itv_pow L X e) m Z /\ forall x y, member X x -> real_power x (num_val e) y -> member Z y.
Proof. exact power_encl. Qed.
Print Assumptions C96_power_encloses.
Theorem C96_negative_integer : forall L X n m, exp_faithful L -> log_directed L -> log_faithful L ->
  small_itv X -> kd X = Classical -> proper_fin X -> 0 < num_val (lo X) -> (0 < n)%nat -> (Z.of_nat n <= 2 ^ 26)%Z ->
  bpow radix2 (-1023) <= num_val (lo X) ^ n ->
  exists Z, returns (itv_pow L X (PInt (- Z.of_nat n))) m Z /\ forall x, member X x -> member Z (/ x ^ n).
Proof. exact power_negative_int. Qed.
Print Assumptions C96_negative_integer.
Theorem C96_power_is_tight : forall L X e m, exp_faithful L -> log_directed L -> log_faithful L ->
  small_itv X -> kd X = Classical -> proper_fin X -> 0 < num_val (lo X) ->
  small_num e -> finite_num e -> not_natural e ->
  (forall x, member X x -> bpow radix2 (-1000) <= Rpower x (num_val e) <= bpow radix2 1000) ->
  exists Z, returns (itv_pow L X e) m Z /\ proper_fin Z /\
    (exists x, member X x /\ (1 - bpow radix2 (-39)) * Rpower x (num_val e) <= num_val (lo Z) <= Rpower x (num_val e)) /\
    (exists x, member X x /\ Rpower x (num_val e) <= num_val (hi Z) <= (1 + bpow radix2 (-39)) * Rpower x (num_val e)).
Proof. exact power_tight. Qed.
Print Assumptions C96_power_is_tight.
Theorem C96_kaucher_power : forall L X e m, exp_faithful L -> log_directed L -> log_faithful L ->
  small_itv X -> kd X = Kaucher -> finite_itv X -> 0 < num_val (lo X) -> 0 < num_val (hi X) ->
  small_num e -> finite_num e -> not_natural e ->
  bpow radix2 (-1000) <= Rpower (num_val (lo X)) (num_val e) <= bpow radix2 1000 ->
  bpow radix2 (-1000) <= Rpower (num_val (hi X)) (num_val e) <= bpow radix2 1000 ->
  exists Z p q, returns (itv_pow L X e) m Z /\ kd Z = Kaucher /\ finite_itv Z /\
    (0 <= num_val e -> p = num_val (lo X) /\ q = num_val (hi X)) /\ (num_val e < 0 -> p = num_val (hi X) /\ q = num_val (lo X)) /\
    Rabs (num_val (lo Z) - Rpower p (num_val e)) <= bpow radix2 (-39) * Rpower p (num_val e) /\
    Rabs (num_val (hi Z) - Rpower q (num_val e)) <= bpow radix2 (-39) * Rpower q (num_val e).
Proof. exact power_kaucher. Qed.
Print Assumptions C96_kaucher_power.
Theorem C96_negative_base_raises : forall L X e m, finite_itv X -> not_natural e ->
  (num_val (lo X) < 0 \/ num_val (hi X) < 0) -> raises (itv_pow L X e) m ValueError.
Proof. exact power_raises. Qed.
Print Assumptions C96_negative_base_raises.
Theorem C96_half_is_sqrt : forall L X m, finite_itv X -> 0 <= num_val (lo X) -> 0 <= num_val (hi X) ->
  itv_pow L X (PFlt fhalf) m = itv_sqrt L X m.
Proof. exact power_half. Qed.
Print Assumptions C96_half_is_sqrt.
Theorem C96_zero_exponent_refuted : exists X e, small_itv X /\ kd X = Classical /\ proper_fin X /\ 0 <= num_val (lo X) /\
  num_val e = 0 /\ not_natural e /\ member X 1 /\ real_power 1 0 1 /\
  forall L m, log_directed L -> is_nan (c_exp L m fnan) = true ->
    exists Z, returns (itv_pow L X e) m Z /\ nan_itv Z.
Proof.
  assert (P1 : Rpower 1 0 = 1) by (apply Rpower_O; lra).
  exists unitX, (PFlt f0). split; [split; simpl; lia|]. split; [reflexivity|].
  split; [split; [split; exact I | simpl; lra]|]. split; [simpl; lra|]. split; [reflexivity|]. split; [exact I|].
  split; [apply member_x; simpl; lra|]. split; [left; split; [lra | symmetry; exact P1]|].
  exact zero_power.
Qed.
Print Assumptions C96_zero_exponent_refuted.
Theorem C96_overflow_refuted : exists X e, small_itv X /\ kd X = Classical /\ proper_fin X /\ 0 < num_val (lo X) /\
  num_val e = 2 /\ not_natural e /\ member X 1 /\ real_power 1 2 1 /\
  forall L m, exp_faithful L -> log_directed L -> log_faithful L ->
    (forall d : flt, is_finite d = true -> 1000 <= B2R d -> c_exp L m d = finf) ->
    exists Z, returns (itv_pow L X e) m Z /\ ~ member Z 1.
Proof.
  exists longX, (PFlt two). destruct long_ok as (S1 & P1 & L1 & M1).
  split; [exact S1|]. split; [reflexivity|]. split; [exact P1|]. split; [exact L1|]. split; [exact (proj2 two_val)|].
  split; [exact I|]. split; [exact M1|]. split.
  - left. split; [lra|]. unfold Rpower. rewrite ln_1, Rmult_0_r, exp_0. reflexivity.
  - intros L m HE HL HF HO. eexists. split; [exact (overflow_power L m HE HL HF HO)|].
    intro C. apply member_x in C. destruct C as [C _]. exact C.
Qed.
Print Assumptions C96_overflow_refuted.

(** ** C58 *)
Theorem C58_sqrt_is_tight : forall L X m, exp_faithful L -> log_directed L -> log_faithful L ->
  small_itv X -> kd X = Classical -> proper_fin X -> 0 < num_val (lo X) ->
  exists Z, returns (itv_sqrt L X) m Z /\ proper_fin Z /\
    (exists x, member X x /\ (1 - bpow radix2 (-39)) * sqrt x <= num_val (lo Z) <= sqrt x) /\
    (exists x, member X x /\ sqrt x <= num_val (hi Z) <= (1 + bpow radix2 (-39)) * sqrt x).
Proof. exact sqrt_tight. Qed.
Print Assumptions C58_sqrt_is_tight.
Example C58_tight_case : small_itv (mkitv Classical (PInt 1) (PInt 4)) /\ proper_fin (mkitv Classical (PInt 1) (PInt 4)) /\ 0 < num_val (lo (mkitv Classical (PInt 1) (PInt 4))).
Proof. split; [split; simpl; lia|]. split; [split; [split; exact I | simpl; lra] | simpl; lra]. Qed.

(** ** The hypotheses can be met *)
Definition baseX : itv := mkitv Classical (PInt 0) (PInt 4).
Definition threehalves : flt := fl 3 (-1).
Lemma threehalves_val : is_finite threehalves = true /\ B2R threehalves = 3 / 2.
Proof. split; [vm_compute; reflexivity|]. unfold threehalves. rewrite (B2R_sf _ false 6755399441055744 (-52)) by (vm_compute; reflexivity). feval. lra. Qed.
Lemma power_small x e y : 0 <= x <= 4 -> 0 <= e <= 2 -> real_power x e y -> y <= bpow radix2 1023.
Proof.
  intros Hx He H. assert (B : 16 <= bpow radix2 1023) by (change 16 with (bpow radix2 4); apply bpow_le; lia).
  destruct H as [(Px & ->)|(_ & _ & ->)]; [|lra].
  apply Rle_trans with (Rpower 4 e); [apply Rle_Rpower_l; lra|].
  apply Rle_trans with (Rpower 4 2); [apply Rle_Rpower; lra|].
  replace 2 with (INR 2) by (simpl; lra). rewrite Rpower_pow by lra. simpl. lra.
Qed.
Example C96_case : exp_faithful perfect_libm /\ log_directed perfect_libm /\ log_faithful perfect_libm /\
  exists Z, returns (itv_pow perfect_libm baseX (PFlt threehalves)) mode_NE Z /\ member Z 0 /\ member Z 8.
Proof.
  split; [exact perfect_exp|]. split; [exact perfect_log_dir|]. split; [exact perfect_log|].
  destruct threehalves_val as [F V].
  assert (MM : forall x, member baseX x <-> 0 <= x <= 4) by (intro x; rewrite member_x; reflexivity).
  destruct (C96_power_encloses perfect_libm baseX (PFlt threehalves) mode_NE perfect_exp perfect_log_dir perfect_log) as (Z & RZ & H).
  - split; simpl; lia.
  - reflexivity.
  - split; exact I.
  - simpl. lra.
  - exact I.
  - exact F.
  - exact I.
  - left. change (0 < B2R threehalves). lra.
  - exists 1. split; [apply MM; lra | lra].
  - intros x y M P. apply MM in M. change (num_val (PFlt threehalves)) with (B2R threehalves) in P. rewrite V in P.
    apply (power_small x (3 / 2) y); auto. lra.
  - exists Z. split; [exact RZ|]. change (num_val (PFlt threehalves)) with (B2R threehalves) in H. rewrite V in H. split.
    + apply (H 0 0); [apply MM; lra|]. right. lra.
    + apply (H 4 8); [apply MM; lra|]. left. split; [lra|].
      replace (3 / 2) with (1 + / 2) by lra. rewrite Rpower_plus, Rpower_1, Rpower_sqrt by lra.
      replace 4 with (2 * 2) by lra. rewrite sqrt_square by lra. lra.
Qed.
Example C96_negative_case : exists Z, returns (itv_pow perfect_libm (mkitv Classical (PInt 2) (PInt 4)) (PInt (- Z.of_nat 2))) FE_UPWARD Z /\
  member Z (/ 9).
Proof.
  destruct (C96_negative_integer perfect_libm (mkitv Classical (PInt 2) (PInt 4)) 2 FE_UPWARD perfect_exp perfect_log_dir perfect_log) as (Z & RZ & H).
  - split; simpl; lia.
  - reflexivity.
  - split; [split; exact I | simpl; lra].
  - simpl. lra.
  - lia.
  - simpl. lia.
  - simpl num_val. assert (bpow radix2 (-1023) <= bpow radix2 0) by (apply bpow_le; lia). change (bpow radix2 0) with 1 in H. lra.
  - exists Z. split; [exact RZ|]. replace (/ 9) with (/ 3 ^ 2) by (simpl; lra). apply H. apply member_x. simpl. lra.
Qed.
Example C96_raises_case : raises (itv_pow perfect_libm (mkitv Classical (PInt (-1)) (PInt 4)) (PFlt two)) FE_UPWARD ValueError.
Proof. apply C96_negative_base_raises; [split; exact I | exact I|]. left. simpl. lra. Qed.
Example C96_refuted_case : (forall m, is_nan (c_exp perfect_libm m fnan) = true) /\
  forall d : flt, is_finite d = true -> 1000 <= B2R d -> c_exp perfect_libm FE_UPWARD d = finf.
Proof. split; [exact perfect_exp_nan | exact perfect_exp_big]. Qed.
Example C96_half_case : finite_itv baseX /\ 0 <= num_val (lo baseX) /\ 0 <= num_val (hi baseX).
Proof. split; [split; exact I | simpl; lra]. Qed.
Example C96_tight_case : exists Z, returns (itv_pow perfect_libm (mkitv Classical (PInt 1) (PInt 4)) (PFlt threehalves)) mode_NE Z /\
  proper_fin Z /\ 1 / 2 <= num_val (lo Z) /\ num_val (hi Z) <= 9.
Proof.
  destruct threehalves_val as [F V].
  assert (MM : forall x, member (mkitv Classical (PInt 1) (PInt 4)) x <-> 1 <= x <= 4) by (intro x; rewrite member_x; reflexivity).
  assert (P4 : Rpower 4 (3 / 2) = 8).
  { replace (3 / 2) with (1 + / 2) by lra. rewrite Rpower_plus, Rpower_1, Rpower_sqrt by lra.
    replace 4 with (2 * 2) by lra. rewrite sqrt_square by lra. lra. }
  assert (RG : forall x, 1 <= x <= 4 -> 1 <= Rpower x (3 / 2) <= 8).
  { intros x Hx. split.
    - assert (E : Rpower 1 (3 / 2) = 1) by (unfold Rpower; rewrite ln_1, Rmult_0_r, exp_0; reflexivity).
      rewrite <- E at 1. apply Rle_Rpower_l; lra.
    - rewrite <- P4. apply Rle_Rpower_l; lra. }
  destruct (C96_power_is_tight perfect_libm (mkitv Classical (PInt 1) (PInt 4)) (PFlt threehalves) mode_NE perfect_exp perfect_log_dir perfect_log)
    as (Z & RZ & PZ & (x1 & M1 & L1 & _) & (x2 & M2 & _ & L2)).
  - split; simpl; lia.
  - reflexivity.
  - split; [split; exact I | simpl; lra].
  - simpl. lra.
  - exact I.
  - exact F.
  - exact I.
  - intros x M. apply MM in M. change (num_val (PFlt threehalves)) with (B2R threehalves). rewrite V.
    assert (B1 : bpow radix2 (-1000) <= bpow radix2 0) by (apply bpow_le; lia). change (bpow radix2 0) with 1 in B1.
    assert (B2 : bpow radix2 3 <= bpow radix2 1000) by (apply bpow_le; lia). change (bpow radix2 3) with 8 in B2.
    generalize (RG x M). lra.
  - exists Z. split; [exact RZ|]. split; [exact PZ|].
    change (num_val (PFlt threehalves)) with (B2R threehalves) in L1, L2. rewrite V in L1, L2.
    apply MM in M1, M2. generalize (RG x1 M1) (RG x2 M2). intros G1 G2.
    assert (S : bpow radix2 (-39) <= bpow radix2 (-4)) by (apply bpow_le; lia). change (bpow radix2 (-4)) with (/ 16) in S.
    assert (S0 : 0 < bpow radix2 (-39)) by apply bpow_gt_0. split; nra.
Qed.
(** The improper interval [4, 1] to the power 1.5 stays improper. *)
Example C96_kaucher_case : exists Z, returns (itv_pow perfect_libm (mkitv Kaucher (PInt 4) (PInt 1)) (PFlt threehalves)) mode_NE Z /\
  Rabs (num_val (lo Z) - 8) <= / 16 /\ Rabs (num_val (hi Z) - 1) <= / 16.
Proof.
  destruct threehalves_val as [F V].
  assert (P4 : Rpower 4 (3 / 2) = 8).
  { replace (3 / 2) with (1 + / 2) by lra. rewrite Rpower_plus, Rpower_1, Rpower_sqrt by lra.
    replace 4 with (2 * 2) at 2 by lra. rewrite sqrt_square by lra. lra. }
  assert (P1 : Rpower 1 (3 / 2) = 1) by (unfold Rpower; rewrite ln_1, Rmult_0_r, exp_0; reflexivity).
  assert (B1 : bpow radix2 (-1000) <= bpow radix2 0) by (apply bpow_le; lia). change (bpow radix2 0) with 1 in B1.
  assert (B2 : bpow radix2 3 <= bpow radix2 1000) by (apply bpow_le; lia). change (bpow radix2 3) with 8 in B2.
  assert (S : bpow radix2 (-39) <= bpow radix2 (-7)) by (apply bpow_le; lia). change (bpow radix2 (-7)) with (/ 128) in S.
  destruct (C96_kaucher_power perfect_libm (mkitv Kaucher (PInt 4) (PInt 1)) (PFlt threehalves) mode_NE perfect_exp perfect_log_dir perfect_log)
    as (Z & p & q & RZ & _ & _ & HP & _ & L1 & L2); try exact I; try reflexivity.
  - split; simpl; lia.
  - split; exact I.
  - simpl. lra.
  - simpl. lra.
  - cbn [num_val lo]. rewrite V. replace (IZR 4) with 4 by reflexivity. rewrite P4. lra.
  - cbn [num_val hi]. rewrite V, P1. lra.
  - exists Z. split; [exact RZ|]. cbn [num_val lo hi] in HP, L1, L2. rewrite V in *. destruct HP as [-> ->]; [lra|].
    rewrite P4 in L1. rewrite P1 in L2. split; lra.
Qed.
