(** C85-C88: intervals of the Kaucher class. *)
From Coq Require Import ZArith Reals List Bool Lia Lra.
From Flocq Require Import Core IEEE754.BinarySingleNaN.
From Verif Require Import Base PyNum Kernel Spec SpecElem SpecKaucher Expr.
From Verif Require Import XReal Witness PerfectLibm TrigProofs KaucherRound KaucherIso KaucherElem KaucherTrig KaucherPow.
Open Scope R_scope.

Theorem C85_addition : forall X Y m,
  small_itv X -> small_itv Y -> finite_itv X -> finite_itv Y ->
  exists Z, returns (py_add (OItv X) (OItv Y)) m Z /\
    rounded_down (num_val (lo X) + num_val (lo Y)) (lo Z) /\ rounded_up (num_val (hi X) + num_val (hi Y)) (hi Z) /\
    (kd Z = Classical <-> kd X = Classical /\ kd Y = Classical).
Proof. exact add_rounds. Qed.
Print Assumptions C85_addition.
Theorem C85_subtraction : forall X Y m,
  small_itv X -> small_itv Y -> finite_itv X -> finite_itv Y ->
  exists Z, returns (py_sub (OItv X) (OItv Y)) m Z /\
    rounded_down (num_val (lo X) - num_val (hi Y)) (lo Z) /\ rounded_up (num_val (hi X) - num_val (lo Y)) (hi Z) /\
    (kd Z = Classical <-> kd X = Classical /\ kd Y = Classical).
Proof. exact sub_rounds. Qed.
Print Assumptions C85_subtraction.
(** The lower end is rounded toward zero and the upper end away from it: outward for the ends of a non-negative product only. *)
Theorem C85_product : forall X Y m,
  ~ (kd X = Classical /\ kd Y = Classical) -> (kd X = Classical -> well_kinded X /\ well_kinded Y) ->
  small_itv X -> small_itv Y -> finite_itv X -> finite_itv Y ->
  exists Z l u, returns (py_mul (OItv X) (OItv Y)) m Z /\ kd Z = Kaucher /\
    kaucher_ends (num_val (lo X)) (num_val (hi X)) (num_val (lo Y)) (num_val (hi Y)) l u /\ toward_zero l (lo Z) /\ away_from_zero u (hi Z).
Proof. exact mul_rounds. Qed.
Print Assumptions C85_product.
Theorem C85_number_product : forall X v m,
  kd X = Kaucher -> small_itv X -> small_num v -> finite_itv X -> finite_num v ->
  exists Z, returns (py_mul (OItv X) (ONum v)) m Z /\ returns (py_mul (ONum v) (OItv X)) m Z /\ kd Z = Kaucher /\
    toward_zero (if Rle_dec 0 (num_val v) then num_val v * num_val (lo X) else num_val v * num_val (hi X)) (lo Z) /\
    away_from_zero (if Rle_dec 0 (num_val v) then num_val v * num_val (hi X) else num_val v * num_val (lo X)) (hi Z).
Proof. exact number_rounds. Qed.
Print Assumptions C85_number_product.
(** [p] and [q] are the rounded reciprocals of the ends of [Y]. *)
Theorem C85_quotient : forall X Y m,
  ~ (kd X = Classical /\ kd Y = Classical) -> small_itv X -> small_itv Y -> finite_itv X -> finite_itv Y -> divisor Y ->
  exists Z p q l u, returns (py_div (OItv X) (OItv Y)) m Z /\ kd Z = Kaucher /\
    is_finite p = true /\ is_finite q = true /\ rounded_down (1 / num_val (hi Y)) (PFlt p) /\ rounded_up (1 / num_val (lo Y)) (PFlt q) /\
    kaucher_ends (num_val (lo X)) (num_val (hi X)) (B2R p) (B2R q) l u /\ toward_zero l (lo Z) /\ away_from_zero u (hi Z).
Proof. exact div_rounds. Qed.
Print Assumptions C85_quotient.

Theorem C86_operations_isotonic : forall o X X2 Y Y2 m,
  o <> OpDiv -> well_kinded X -> well_kinded X2 -> well_kinded Y -> well_kinded Y2 ->
  small_itv X -> small_itv X2 -> small_itv Y -> small_itv Y2 -> finite_itv X -> finite_itv X2 -> finite_itv Y -> finite_itv Y2 ->
  inside X X2 -> inside Y Y2 ->
  exists Z Z2, returns (py_op o (OItv X) (OItv Y)) m Z /\ returns (py_op o (OItv X2) (OItv Y2)) m Z2 /\ inside Z Z2.
Proof. exact kaucher_isotonic. Qed.
Print Assumptions C86_operations_isotonic.
Theorem C86_division_isotonic : forall X X2 Y Y2 m,
  ~ (kd X = Classical /\ kd Y = Classical) -> ~ (kd X2 = Classical /\ kd Y2 = Classical) ->
  small_itv X -> small_itv X2 -> small_itv Y -> small_itv Y2 -> finite_itv X -> finite_itv X2 -> finite_itv Y -> finite_itv Y2 ->
  divisor Y -> divisor Y2 -> inside X X2 -> inside Y Y2 ->
  exists Z Z2, returns (py_div (OItv X) (OItv Y)) m Z /\ returns (py_div (OItv X2) (OItv Y2)) m Z2 /\ inside Z Z2.
Proof. exact kaucher_div_isotonic. Qed.
Print Assumptions C86_division_isotonic.
(** [X2] is a proper interval of the Kaucher class, as a sum with an improper one leaves it. *)
Theorem C86_proper_kaucher_refuted : 
  exists X X0 X1 X2 Y m Z Z2,
  kd X = Classical /\ well_kinded X /\ fin_double_itv X /\ kd X0 = Kaucher /\ well_kinded X0 /\ kd X1 = Classical /\ well_kinded X1 /\
  returns (py_add (OItv X0) (OItv X1)) m X2 /\ fin_double_itv X2 /\ kd Y = Classical /\ well_kinded Y /\ fin_double_itv Y /\ inside X X2 /\
  returns (py_mul (OItv X) (OItv Y)) m Z /\ returns (py_mul (OItv X2) (OItv Y)) m Z2 /\ ~ inside Z Z2.
Proof. exact kaucher_isotonic_refuted. Qed.
Print Assumptions C86_proper_kaucher_refuted.

Theorem C87_exp : forall L X m,
  exp_faithful L -> small_itv X -> finite_itv X -> exp (num_val (lo X)) <= max_double -> exp (num_val (hi X)) <= max_double ->
  exists Z, returns (itv_exp L X) m Z /\ kd Z = kd X /\
    num_le_R (lo Z) (exp (num_val (lo X))) /\ close (exp (num_val (lo X))) (lo Z) /\
    R_le_num (exp (num_val (hi X))) (hi Z) /\ close (exp (num_val (hi X))) (hi Z).
Proof. exact exp_close. Qed.
Print Assumptions C87_exp.
Theorem C87_log : forall L X m,
  log_directed L -> log_faithful L -> small_itv X -> finite_itv X -> (kd X = Classical -> num_val (lo X) <= num_val (hi X)) ->
  0 < num_val (lo X) -> 0 < num_val (hi X) ->
  exists Z, returns (itv_log L X) m Z /\ kd Z = kd X /\ rounded_down (ln (num_val (lo X))) (lo Z) /\ rounded_up (ln (num_val (hi X))) (hi Z).
Proof. exact log_exact. Qed.
Print Assumptions C87_log.
Theorem C87_sin : forall L X m,
  sin_faithful L -> small_itv X -> finite_itv X -> (kd X = Classical -> num_val (lo X) <= num_val (hi X)) -> Rabs (num_val (lo X)) <= 1048576 /\ Rabs (num_val (hi X)) <= 1048576 ->
  exists Z l u, returns (itv_sin L X) m Z /\ kd Z = kd X /\ trig_ends sin X Z l u.
Proof. exact sin_close. Qed.
Print Assumptions C87_sin.
Theorem C87_cos : forall L X m,
  cos_faithful L -> small_itv X -> finite_itv X -> (kd X = Classical -> num_val (lo X) <= num_val (hi X)) -> Rabs (num_val (lo X)) <= 1048576 /\ Rabs (num_val (hi X)) <= 1048576 ->
  exists Z l u, returns (itv_cos L X) m Z /\ kd Z = kd X /\ trig_ends cos X Z l u.
Proof. exact cos_close. Qed.
Print Assumptions C87_cos.
Theorem C87_improper_sin_outward_refuted : 
  exists X, kd X = Kaucher /\ finite_itv X /\ (Rabs (num_val (lo X)) <= 1048576 /\ Rabs (num_val (hi X)) <= 1048576) /\ forall L m, sin_faithful L ->
  exists Z u, returns (itv_sin L X) m Z /\ greatest_value sin (num_val (lo X)) (num_val (hi X)) u /\ u < num_val (lo Z).
Proof. exact sin_improper_refuted. Qed.
Print Assumptions C87_improper_sin_outward_refuted.

Theorem C88_integer_ends : forall L X n m,
  kd X = Kaucher -> int_ends X -> (0 < n)%nat ->
  Rabs (num_val (lo X) ^ n) <= 9007199254740992 -> Rabs (num_val (hi X) ^ n) <= 9007199254740992 ->
  Nat.even n = false \/ (0 <= num_val (lo X) /\ 0 <= num_val (hi X)) \/ between (num_val (lo X)) (num_val (hi X)) 0 ->
  exists Z, returns (itv_pow L X (PInt (Z.of_nat n))) m Z /\ range_ends (fun x => x ^ n) X Z.
Proof. exact kpow_int. Qed.
Print Assumptions C88_integer_ends.
Theorem C88_double_ends : forall L X n m Z,
  kd X = Kaucher -> fin_double_itv X -> (0 < n)%nat -> pow_directed L n -> 0 <= num_val (lo X) -> 0 <= num_val (hi X) ->
  returns (itv_pow L X (PInt (Z.of_nat n))) m Z -> num_le_R (lo Z) (num_val (lo X) ^ n) /\ R_le_num (num_val (hi X) ^ n) (hi Z).
Proof. exact kpow_double. Qed.
Print Assumptions C88_double_ends.
Theorem C88_negative_base_refuted : 
  exists X, kd X = Kaucher /\ int_ends X /\ num_val (hi X) < num_val (lo X) /\ forall L m,
  exists Z, returns (itv_pow L X (PInt 2)) m Z /\ ~ range_ends (fun x => x ^ 2) X Z /\
    num_val (lo X) ^ 2 = num_val (lo Z) /\ num_val (hi X) ^ 2 = num_val (hi Z) /\ num_val (lo Z) < num_val (hi Z).
Proof. exact kpow_neg_refuted. Qed.
Print Assumptions C88_negative_base_refuted.
Theorem C88_zero_exponent_refuted : 
  exists X, kd X = Kaucher /\ int_ends X /\ forall L m,
  exists Z, returns (itv_pow L X (PInt 0)) m Z /\ num_val (lo Z) = 1 /\ num_val (hi Z) = 0 /\ ~ range_ends (fun x => x ^ 0) X Z.
Proof. exact kpow_zero_refuted. Qed.
Print Assumptions C88_zero_exponent_refuted.

(** Concrete cases: the improper intervals [3, -2], [5, 2] and [2, -1]; the first lies inside the third. *)
Definition imp1 : itv := mkitv Kaucher (PInt 3) (PInt (-2)).
Definition imp2 : itv := mkitv Kaucher (PInt 5) (PInt 2).
Definition imp3 : itv := mkitv Kaucher (PInt 2) (PInt (-1)).
Example C85_case : kd imp1 = Kaucher /\ small_itv imp1 /\ small_itv imp2 /\ finite_itv imp1 /\ finite_itv imp2 /\ divisor imp2.
Proof.
  split; [reflexivity|]. split; [split; simpl; lia|]. split; [split; simpl; lia|]. split; [split; exact I|]. split; [split; exact I|].
  left. assert (min_normal <= 1) by (unfold min_normal; change 1 with (bpow radix2 0); apply bpow_le; lia). simpl. lra.
Qed.
Example C86_case : well_kinded imp1 /\ well_kinded imp2 /\ well_kinded imp3 /\ small_itv imp3 /\ finite_itv imp3 /\ inside imp1 imp3 /\ ~ inside imp3 imp1.
Proof.
  split; [split; [discriminate | intro H; vm_compute in H; discriminate]|]. split; [split; [discriminate | intro H; vm_compute in H; discriminate]|].
  split; [split; [discriminate | intro H; vm_compute in H; discriminate]|]. split; [split; simpl; lia|]. split; [split; exact I|].
  split; [split; vm_compute; reflexivity|]. intros [H _]. vm_compute in H. discriminate.
Qed.
Example C87_case : exp_faithful perfect_libm /\ log_directed perfect_libm /\ log_faithful perfect_libm /\ sin_faithful perfect_libm /\ cos_faithful perfect_libm /\
  exp (num_val (lo imp2)) <= max_double /\ exp (num_val (hi imp2)) <= max_double /\
  0 < num_val (lo imp2) /\ 0 < num_val (hi imp2) /\ num_val (hi imp1) < num_val (lo imp1) /\ Rabs (num_val (lo imp1)) <= 1048576 /\ Rabs (num_val (hi imp1)) <= 1048576.
Proof.
  split; [exact perfect_exp|]. split; [exact perfect_log_dir|]. split; [exact perfect_log|]. split; [exact perfect_sin|]. split; [exact perfect_cos|].
  assert (E : exp 5 <= max_double).
  { assert (B := exp_le_3). assert (P := exp_pos 1). replace (exp 5) with (exp 1 ^ 5) by (simpl; rewrite Rmult_1_r, <- !exp_plus; f_equal; lra).
    apply Rle_trans with (3 ^ 5); [apply pow_incr; lra|]. apply Rle_trans with 1024; [lra|].
    assert (A := abs_flt_le_max (fl 1024 0)). destruct (xval_fl_small 1024) as [_ V]; [lia|]. rewrite V, Rabs_pos_eq in A by lra. exact A. }
  assert (E2 : exp 2 <= exp 5) by (left; apply exp_increasing; lra). cbn [num_val lo hi imp1 imp2]. repeat split; try lra; apply Rabs_le; lra.
Qed.
Example C88_case : int_ends imp1 /\ between (num_val (lo imp1)) (num_val (hi imp1)) 0 /\ Rabs (num_val (lo imp1) ^ 4) <= 9007199254740992 /\
  pow_directed perfect_libm 4 /\ fin_double_itv (mkitv Kaucher (PFlt (fl 2 0)) (PFlt f1)).
Proof.
  split; [now exists 3%Z, (-2)%Z|]. split; [unfold between; cbn [num_val lo hi imp1]; rewrite Rmin_right, Rmax_left by lra; lra|].
  split; [cbn [num_val lo imp1]; rewrite Rabs_pos_eq by (apply pow_le; lra); simpl; lra|]. split; [apply perfect_pow; lia | split; vm_compute; reflexivity].
Qed.
