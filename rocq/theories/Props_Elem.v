(** Property theorems about powers and elementary functions.  The C library is
    the explicit parameter [L]; what is assumed of it appears in each statement
    and is met by the correctly rounded library of PerfectLibm.v. *)
From Coq Require Import ZArith Reals List Bool Lia Lra Psatz.
From Flocq Require Import Core IEEE754.BinarySingleNaN.
From Verif Require Import Base PyNum Kernel Spec SpecElem XReal XArith KernelProofs ElemProofs PowProofs PerfectLibm TrigProofs ElemRefute Props_Kernel.
Open Scope R_scope.

(** ** C24 *)
Theorem C24_pow_int_endpoints : forall L n X m, kd X = Classical -> int_ends X ->
  exists Z, returns (itv_pow L X (PInt (Z.of_nat n))) m Z /\
    (forall x, member X x -> member Z (x ^ n)) /\
    ((0 < n)%nat -> (exists x, member X x) ->
       (exists x, member X x /\ num_val (lo Z) = x ^ n) /\ (exists x, member X x /\ num_val (hi Z) = x ^ n)).
Proof. exact pow_int_all. Qed.
Print Assumptions C24_pow_int_endpoints.
Theorem C24_pow_double_endpoints : forall L n X m Z, kd X = Classical -> pow_directed L n ->
  (Nat.even n = true \/ nonneg_itv X) ->
  returns (itv_pow L X (PInt (Z.of_nat n))) m Z ->
  forall x, member X x -> member Z (x ^ n).
Proof. exact pow_encl_dbl. Qed.
Print Assumptions C24_pow_double_endpoints.
Theorem C24_pow_odd_negative_refuted : exists X, kd X = Classical /\ proper_fin X /\ small_itv X /\
  forall L, pow_directed L 3 ->
  (forall d w : flt, 1 <= B2R d <= 2 -> B2R w = 3 -> exists r, c_pow L FE_DOWNWARD d w = Ok r /\ is_finite r = true) ->
  forall m Z, returns (itv_pow L X (PInt 3)) m Z -> exists x, member X x /\ ~ member Z (x ^ 3).
Proof. exact pow_odd_refuted_x. Qed.
Print Assumptions C24_pow_odd_negative_refuted.
Definition ex4 : itv := mkitv Classical (PInt (-2)) (PInt 3).
Example C24_case : int_ends ex4 /\ member ex4 (-2) /\ pow_directed perfect_libm 4 /\ nonneg_itv ex1.
Proof.
  split; [exists (-2)%Z, 3%Z; auto|]. split; [split; simpl; lra|]. split; [apply perfect_pow; lia|].
  intros x M. apply member_x in M. destruct ex1_x as [E _]. rewrite E in M. simpl in M. lra.
Qed.
Example C24_odd_case : pow_directed perfect_libm 3 /\
  forall d w : flt, 1 <= B2R d <= 2 -> B2R w = 3 -> exists r, c_pow perfect_libm FE_DOWNWARD d w = Ok r /\ is_finite r = true.
Proof. split; [apply perfect_pow; lia | exact perfect_pow3_finite]. Qed.
Example C24_computes : exists Z, returns (itv_pow perfect_libm ex4 (PInt 2)) FE_UPWARD Z /\ num_val (lo Z) = 0 /\ hi Z = PInt 9.
Proof.
  eexists. split; [unfold returns, outcome, itv_pow; cbn -[fl]; reflexivity|]. split; reflexivity.
Qed.

(** ** C25 *)
Theorem C25_exp_encloses : forall L X m, exp_faithful L -> small_itv X ->
  finite_num (hi X) -> exp (num_val (hi X)) <= max_double -> (exists x, member X x) ->
  exists Z, returns (itv_exp L X) m Z /\ forall x, member X x -> member Z (exp x).
Proof. exact exp_encl. Qed.
Print Assumptions C25_exp_encloses.
Theorem C25_exp_overflow_refuted : forall L, exp_faithful L -> forall m, c_exp L m (fl 1000 0) = finf ->
  exists X Z x, small_itv X /\ proper_fin X /\ returns (itv_exp L X) m Z /\ member X x /\ ~ member Z (exp x).
Proof. exact exp_overflow_x. Qed.
Print Assumptions C25_exp_overflow_refuted.
Example C25_overflow_case : exp_faithful perfect_libm /\ c_exp perfect_libm FE_UPWARD (fl 1000 0) = finf.
Proof. split; [exact perfect_exp | exact perfect_exp_1000]. Qed.
Example C25_case : exp_faithful perfect_libm /\ exp (num_val (hi ex2)) <= max_double /\ member ex2 1.
Proof.
  split; [exact perfect_exp|]. split; [|apply ex2_member; lra].
  change (exp (B2R (fl 5 (-2))) <= max_double). rewrite val_125. exact exp_125_small.
Qed.

(** ** C26 *)
Theorem C26_sin_encloses : forall L X m, sin_faithful L -> small_itv X -> proper_fin X ->
  Rabs (num_val (lo X)) <= 1048576 -> Rabs (num_val (hi X)) <= 1048576 ->
  exists Z, returns (itv_sin L X) m Z /\ forall x, member X x -> member Z (sin x).
Proof. intros L X m HL HS HP H1 H2. exact (sin_encl L X m HL HS HP (conj H1 H2)). Qed.
Print Assumptions C26_sin_encloses.
Theorem C26_cos_encloses : forall L X m, cos_faithful L -> small_itv X -> proper_fin X ->
  Rabs (num_val (lo X)) <= 1048576 -> Rabs (num_val (hi X)) <= 1048576 ->
  exists Z, returns (itv_cos L X) m Z /\ forall x, member X x -> member Z (cos x).
Proof. intros L X m HL HS HP H1 H2. exact (cos_encl L X m HL HS HP (conj H1 H2)). Qed.
Print Assumptions C26_cos_encloses.
Theorem C26_sin_large_argument_refuted : exists X, kd X = Classical /\ small_itv X /\ proper_fin X /\
  Rabs (num_val (hi X)) <= bpow radix2 43 /\
  forall L, sin_faithful L -> forall m, exists Z x, returns (itv_sin L X) m Z /\ member X x /\ ~ member Z (sin x).
Proof. exact sin_large_x. Qed.
Print Assumptions C26_sin_large_argument_refuted.
Example C26_case : sin_faithful perfect_libm /\ cos_faithful perfect_libm /\ proper_fin ex1 /\
  Rabs (num_val (lo ex1)) <= 1048576 /\ Rabs (num_val (hi ex1)) <= 1048576.
Proof.
  split; [exact perfect_sin|]. split; [exact perfect_cos|]. split; [exact ex1_proper|].
  change (num_val (lo ex1)) with (B2R (fl 3 (-1))). change (num_val (hi ex1)) with 7. rewrite val_15.
  split; apply Rabs_le; lra.
Qed.

(** ** C57 *)
Theorem C57_log_encloses : forall L X m, log_directed L -> small_itv X -> (exists x, member X x /\ 0 < x) ->
  exists Z, returns (itv_log L X) m Z /\ forall x, member X x -> 0 < x -> member Z (ln x).
Proof. exact log_encl. Qed.
Print Assumptions C57_log_encloses.
Theorem C57_log_of_negative_is_nan : forall L X m, small_itv X -> kd X = Classical -> num_lt (hi X) (PInt 0) = true ->
  exists Z, returns (itv_log L X) m Z /\ nan_itv Z.
Proof. exact log_negative. Qed.
Print Assumptions C57_log_of_negative_is_nan.
Example C57_case : log_directed perfect_libm /\ small_itv ex2 /\ (member ex2 1 /\ 0 < 1).
Proof. split; [exact perfect_log_dir|]. split; [exact ex2_small|]. split; [apply ex2_member|]; lra. Qed.

(** ** C58 *)
Theorem C58_sqrt_encloses : forall L X m, exp_faithful L -> log_directed L -> log_faithful L ->
  small_itv X -> kd X = Classical -> finite_num (hi X) -> (exists x, member X x /\ 0 < x) ->
  exists Z, returns (itv_sqrt L X) m Z /\ forall x, member X x -> 0 <= x -> member Z (sqrt x).
Proof. exact sqrt_encl. Qed.
Print Assumptions C58_sqrt_encloses.
Example C58_case : exp_faithful perfect_libm /\ log_directed perfect_libm /\ log_faithful perfect_libm /\ (member ex2 1 /\ 0 < 1).
Proof.
  split; [exact perfect_exp|]. split; [exact perfect_log_dir|]. split; [exact perfect_log|].
  split; [apply ex2_member|]; lra.
Qed.
