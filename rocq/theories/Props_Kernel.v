(** Property theorems about the scalar kernel.  Statements use only the model's
    entry points (Kernel.v, Expr.v) and the vocabulary of Spec.v. *)
From Coq Require Import ZArith Reals List Bool Lia Lra Psatz.
From Flocq Require Import Core IEEE754.BinarySingleNaN.
From Verif Require Import Base PyNum Kernel Spec Expr XReal XArith KernelProofs ExprProofs KernelAlg KaucherProofs KernelRefute KernelMore KaucherDiv SpecIso IsoProofs.
Open Scope R_scope.

(** Concrete intervals used to show that hypotheses can be met. *)
Definition ex1 : itv := mkitv Classical (PFlt (fl 3 (-1))) (PInt 7).     (* [1.5, 7] *)
Definition ex2 : itv := mkitv Classical (PInt (-2)) (PFlt (fl 5 (-2))).  (* [-2, 1.25] *)
Definition ex3 : itv := mkitv Kaucher (PInt 4) (PInt (-3)).              (* [4, -3] *)
Lemma val_15 : B2R (fl 3 (-1)) = 3 / 2.
Proof. rewrite (Witness.B2R_sf _ false 6755399441055744 (-52)) by (vm_compute; reflexivity). Witness.feval. lra. Qed.
Lemma val_125 : B2R (fl 5 (-2)) = 5 / 4.
Proof. rewrite (Witness.B2R_sf _ false 5629499534213120 (-52)) by (vm_compute; reflexivity). Witness.feval. lra. Qed.
Lemma ex1_small : small_itv ex1. Proof. split; simpl; lia. Qed.
Lemma ex2_small : small_itv ex2. Proof. split; simpl; lia. Qed.
Lemma ex1_x : xval (lo ex1) = XFin (3 / 2) /\ xval (hi ex1) = XFin 7.
Proof. split; [|reflexivity]. rewrite (proj1 (finite_num_x (lo ex1)) eq_refl). f_equal. exact val_15. Qed.
Lemma ex2_x : xval (lo ex2) = XFin (-2) /\ xval (hi ex2) = XFin (5 / 4).
Proof. split; [reflexivity|]. rewrite (proj1 (finite_num_x (hi ex2)) eq_refl). f_equal. exact val_125. Qed.
Lemma ex1_proper : proper_fin ex1.
Proof. split; [split; [reflexivity | exact I]|]. change (B2R (fl 3 (-1)) <= 7). rewrite val_15. lra. Qed.
Lemma ex2_proper : proper_fin ex2.
Proof. split; [split; [exact I | reflexivity]|]. change (-2 <= B2R (fl 5 (-2))). rewrite val_125. lra. Qed.
Lemma ex1_member x : 3 / 2 <= x <= 7 -> member ex1 x.
Proof. rewrite member_x. destruct ex1_x as [-> ->]. simpl. tauto. Qed.
Lemma ex2_member x : -2 <= x <= 5 / 4 -> member ex2 x.
Proof. rewrite member_x. destruct ex2_x as [-> ->]. simpl. tauto. Qed.
Lemma ex1_good : good ex1.
Proof. split; [reflexivity|]. split; [exact ex1_small|]. right. exists 2. apply ex1_member. lra. Qed.
Lemma ex2_good : good ex2.
Proof. split; [reflexivity|]. split; [exact ex2_small|]. right. exists 0. apply ex2_member. lra. Qed.
Lemma ex1_no0 : ~ member ex1 0.
Proof. rewrite member_x. destruct ex1_x as [-> _]. simpl. lra. Qed.

(** ** C01 *)
Theorem C01_add_encloses : forall X Y m, small_itv X -> small_itv Y ->
  exists Z, returns (py_add (OItv X) (OItv Y)) m Z /\
    forall x y, member X x -> member Y y -> member Z (x + y).
Proof. exact add_encl. Qed.
Print Assumptions C01_add_encloses.
Example C01_case : small_itv ex1 /\ small_itv ex2 /\ member ex1 2 /\ member ex2 (-1).
Proof. split; [exact ex1_small|]. split; [exact ex2_small|]. split; [apply ex1_member; lra | apply ex2_member; lra]. Qed.

(** ** C02 *)
Theorem C02_sub_encloses : forall X Y m, small_itv X -> small_itv Y ->
  exists Z, returns (py_sub (OItv X) (OItv Y)) m Z /\
    forall x y, member X x -> member Y y -> member Z (x - y).
Proof. exact sub_encl. Qed.
Print Assumptions C02_sub_encloses.
Example C02_case : exists Z, small_itv ex1 /\ small_itv ex2 /\ member ex1 2 /\ member ex2 (-1) /\ returns (py_sub (OItv ex1) (OItv ex2)) mode_NE Z /\ member Z (2 - (-1)).
Proof.
  destruct (C02_sub_encloses ex1 ex2 mode_NE ex1_small ex2_small) as (Z & H & E).
  exists Z. split; [exact ex1_small|]. split; [exact ex2_small|]. split; [apply ex1_member; lra|]. split; [apply ex2_member; lra|].
  split; [exact H|]. apply E; [apply ex1_member; lra | apply ex2_member; lra].
Qed.

(** ** C03 *)
Theorem C03_mul_encloses : forall X Y m, small_itv X -> small_itv Y -> kd X = Classical -> kd Y = Classical ->
  exists Z, returns (py_mul (OItv X) (OItv Y)) m Z /\
    forall x y, member X x -> member Y y -> member_or_nan Z (x * y).
Proof. exact mul_encl. Qed.
Print Assumptions C03_mul_encloses.
Theorem C03_mul_finite_never_nan : forall X Y m, small_itv X -> small_itv Y -> kd X = Classical -> kd Y = Classical ->
  finite_itv X -> finite_itv Y ->
  exists Z, returns (py_mul (OItv X) (OItv Y)) m Z /\ is_nan_num (lo Z) = false /\ is_nan_num (hi Z) = false.
Proof. exact mul_finite_not_nan. Qed.
Print Assumptions C03_mul_finite_never_nan.
Example C03_case : kd ex1 = Classical /\ kd ex2 = Classical /\ finite_itv ex1 /\ finite_itv ex2.
Proof. repeat split; try exact I; reflexivity. Qed.

(** ** C04 *)
Theorem C04_div_encloses : forall X Y m, good X -> good Y ->
  (member Y 0 -> raises (py_div (OItv X) (OItv Y)) m ValueError) /\
  (~ member Y 0 -> exists Z, returns (py_div (OItv X) (OItv Y)) m Z /\
     forall x y, member X x -> member Y y -> member_or_nan Z (x / y)).
Proof. exact div_full. Qed.
Print Assumptions C04_div_encloses.
Example C04_case : good ex1 /\ good ex2 /\ ~ member ex1 0 /\ member ex2 0.
Proof. split; [exact ex1_good|]. split; [exact ex2_good|]. split; [exact ex1_no0 | apply ex2_member; lra]. Qed.

(** ** C05 *)
Theorem C05_ops_tight : forall o X Y m, kd X = Classical -> kd Y = Classical -> small_itv X -> small_itv Y ->
  proper_fin X -> proper_fin Y -> (o = OpDiv -> ~ member Y 0) ->
  exists Z, returns (py_op o (OItv X) (OItv Y)) m Z /\
    greatest_lower_double (image2 (opR o) X Y) (lo Z) /\ least_upper_double (image2 (opR o) X Y) (hi Z).
Proof. exact op_tight_m. Qed.
Print Assumptions C05_ops_tight.
Example C05_case : proper_fin ex1 /\ proper_fin ex2 /\ ~ member ex1 0.
Proof. split; [exact ex1_proper|]. split; [exact ex2_proper | exact ex1_no0]. Qed.

(** ** C06 *)
Theorem C06_rounding_mode_restored : forall L m,
  (forall o x y, snd (py_op o x y m) = m) /\
  (forall u x y, snd (np_binary L u x y m) = m) /\
  (forall X e, snd (itv_pow L X e m) = m) /\
  (forall X, snd (itv_exp L X m) = m) /\ (forall X, snd (itv_log L X m) = m) /\
  (forall X, snd (itv_sin L X m) = m) /\ (forall X, snd (itv_cos L X m) = m) /\
  (forall X, snd (itv_sqrt L X m) = m) /\ (forall X, snd (abs_itv X m) = m) /\
  (forall X, snd (inv X m) = m) /\ (forall X, snd (mid X m) = m) /\ (forall X, snd (rad X m) = m) /\
  (forall X, snd (wid X m) = m) /\ (forall X, snd (mig X m) = m) /\ (forall X, snd (mag X m) = m) /\
  (forall X, snd (khi X m) = m) /\ (forall env e, snd (eval env e m) = m).
Proof. exact all_keep_mode. Qed.
Print Assumptions C06_rounding_mode_restored.
(** ... also when the operation raises. *)
Example C06_case : raises (py_div (OItv ex1) (OItv ex2)) mode_ZR ValueError /\ snd (py_div (OItv ex1) (OItv ex2) mode_ZR) = mode_ZR.
Proof. split; [|reflexivity]. apply (proj1 (C04_div_encloses ex1 ex2 mode_ZR ex1_good ex2_good)). apply ex2_member; lra. Qed.

(** ** C07 *)
Theorem C07_mixed_encloses : forall X c m, kd X = Classical -> small_itv X -> small_num c -> finite_num c ->
  (exists Z, returns (py_add (OItv X) (ONum c)) m Z /\ forall x, member X x -> member Z (x + num_val c)) /\
  (exists Z, returns (py_add (ONum c) (OItv X)) m Z /\ forall x, member X x -> member Z (num_val c + x)) /\
  (exists Z, returns (py_sub (OItv X) (ONum c)) m Z /\ forall x, member X x -> member Z (x - num_val c)) /\
  (exists Z, returns (py_sub (ONum c) (OItv X)) m Z /\ forall x, member X x -> member Z (num_val c - x)) /\
  (exists Z, returns (py_mul (OItv X) (ONum c)) m Z /\ forall x, member X x -> member_or_nan Z (x * num_val c)) /\
  (exists Z, returns (py_mul (ONum c) (OItv X)) m Z /\ forall x, member X x -> member_or_nan Z (num_val c * x)).
Proof. exact mixed_encl. Qed.
Print Assumptions C07_mixed_encloses.
Theorem C07_number_over_interval : forall X c m, good X -> small_num c -> finite_num c ->
  (member X 0 -> raises (py_div (ONum c) (OItv X)) m ValueError) /\
  (~ member X 0 -> exists Z, returns (py_div (ONum c) (OItv X)) m Z /\
     forall x, member X x -> member_or_nan Z (num_val c / x)).
Proof. exact rdiv_full. Qed.
Print Assumptions C07_number_over_interval.
Example C07_case : good ex1 /\ small_num (PFlt (fl 1 (-10))) /\ finite_num (PFlt (fl 1 (-10))) /\ ~ member ex1 0.
Proof. split; [exact ex1_good|]. split; [exact I|]. split; [reflexivity | exact ex1_no0]. Qed.

(** ** C08 *)
Theorem C08_div_by_number_encloses : forall X c m, kd X = Classical -> small_itv X -> finite_itv X ->
  small_num c -> finite_num c -> exact_reciprocal c ->
  exists Z, returns (py_div (OItv X) (ONum c)) m Z /\ forall x, member X x -> member Z (x / num_val c).
Proof. exact div_num_encl. Qed.
Print Assumptions C08_div_by_number_encloses.
Theorem C08_div_by_number_refuted : exists X c m Z x,
  small_itv X /\ kd X = Classical /\ finite_num c /\ num_val c <> 0 /\
  returns (py_div (OItv X) (ONum c)) m Z /\ member X x /\ ~ member Z (x / num_val c).
Proof. exact div_num_refuted. Qed.
Print Assumptions C08_div_by_number_refuted.
Example C08_case : exact_reciprocal (PInt 8).
Proof. exists (fl 1 (-3)). split; [reflexivity|]. rewrite (Witness.B2R_sf _ false 4503599627370496 (-55)) by (vm_compute; reflexivity). Witness.feval. simpl. lra. Qed.

(** ** C09 *)
Theorem C09_medium_integers_enclose : forall X Y m, medium_itv X -> medium_itv Y ->
  (exists Z, returns (py_add (OItv X) (OItv Y)) m Z /\ forall x y, member X x -> member Y y -> member Z (x + y)) /\
  (exists Z, returns (py_sub (OItv X) (OItv Y)) m Z /\ forall x y, member X x -> member Y y -> member Z (x - y)).
Proof. exact medium_add_sub. Qed.
Print Assumptions C09_medium_integers_enclose.
Theorem C09_big_integers_refuted : exists X Y m Z x y,
  kd X = Classical /\ kd Y = Classical /\ finite_itv X /\ finite_itv Y /\
  returns (py_add (OItv X) (OItv Y)) m Z /\ member X x /\ member Y y /\ ~ member Z (x + y).
Proof. exact big_int_refuted. Qed.
Print Assumptions C09_big_integers_refuted.
Example C09_case : medium_itv (mkitv Classical (PInt (-4503599627370496)) (PInt 4503599627370496)).
Proof. split; simpl; lia. Qed.

(** ** C10 *)
Theorem C10_numpy_scalar_left : forall L o X c m, good X -> small_num c -> finite_num c ->
  (o = OpDiv -> ~ member X 0) ->
  exists Z1 Z2, returns (np_binary L (np_op o) (ONum c) (OItv X)) m Z1 /\
    returns (py_op o (ONum c) (OItv X)) m Z2 /\ same_itv Z1 Z2.
Proof. exact np_scalar. Qed.
Print Assumptions C10_numpy_scalar_left.
Theorem C10_numpy_scalar_divide_refuted : forall L, exists c X m Z x,
  small_itv X /\ kd X = Classical /\ finite_num c /\ member X 0 /\
  raises (py_div (ONum c) (OItv X)) m ValueError /\
  returns (np_binary L U_divide (ONum c) (OItv X)) m Z /\ member X x /\ x <> 0 /\ ~ member Z (num_val c / x).
Proof. exact np_div_refuted. Qed.
Print Assumptions C10_numpy_scalar_divide_refuted.
Example C10_case : good ex1 /\ small_num (PFlt (fl 1 (-10))) /\ finite_num (PFlt (fl 1 (-10))) /\ ~ member ex1 0.
Proof. exact C07_case. Qed.

(** ** C11 *)
Theorem C11_ufunc_interval_first_refuted : forall L, exists X c m Z1 Z2,
  small_itv X /\ small_num c /\
  returns (np_binary L U_add (OItv X) (ONum c)) m Z1 /\ returns (py_add (OItv X) (ONum c)) m Z2 /\
  py_eq Z1 (OItv Z2) = false.
Proof. exact ufunc_first_refuted. Qed.
Print Assumptions C11_ufunc_interval_first_refuted.
(** What the interval-first form computes instead: the second argument is ignored. *)
Theorem C11_ufunc_interval_first_ignores_second : forall L u X o o2 m,
  np_binary L u (OItv X) o m = np_binary L u (OItv X) o2 m.
Proof. exact ufunc_first_ignores. Qed.
Print Assumptions C11_ufunc_interval_first_ignores_second.

(** ** C12 *)
Theorem C12_class_invariant : forall env e m Z,
  (forall n, good (env n)) -> good_consts e -> returns (eval env e) m Z ->
  kd Z = Classical /\ (nan_itv Z \/ num_le (lo Z) (hi Z) = true).
Proof. exact eval_invariant. Qed.
Print Assumptions C12_class_invariant.

(** ** C13 *)
Definition ex_env (n : nat) : itv := match n with O => ex1 | _ => ex2 end.
(** (x0 * x1 - 3) / |x0| + x1 / 8 *)
Definition ex_expr : expr :=
  EBin OpAdd (EBin OpDiv (EBinR OpSub (EBin OpMul (EVar 0) (EVar 1)) (PInt 3)) (EAbs (EVar 0))) (EBinR OpDiv (EVar 1) (PInt 8)).
Theorem C13_fundamental_theorem : forall env e m Z,
  (forall n, good (env n)) -> good_consts e -> returns (eval env e) m Z ->
  good Z /\ forall rho, (forall n, member_or_nan (env n) (rho n)) ->
     nan_itv Z \/ exists r, real_eval rho e = Some r /\ member Z r.
Proof. exact eval_sound. Qed.
Print Assumptions C13_fundamental_theorem.
Example C13_case : (forall n, good (ex_env n)) /\ good_consts ex_expr /\
  match outcome (eval ex_env ex_expr) mode_NE with Ok _ => True | Err _ => False end.
Proof.
  split; [intros [|n]; [exact ex1_good | exact ex2_good]|]. split.
  - simpl. repeat split; try discriminate; try lia. intros _. exact C08_case.
  - assert (H : match outcome (eval ex_env ex_expr) mode_NE with Ok _ => true | Err _ => false end = true) by (vm_compute; reflexivity).
    destruct (outcome (eval ex_env ex_expr) mode_NE); [exact I | discriminate].
Qed.

(** ** C14 *)
Theorem C14_inclusion_isotonic : forall o X X2 Y Y2 m,
  kd X = Classical -> kd Y = Classical -> kd X2 = Classical -> kd Y2 = Classical ->
  small_itv X -> small_itv Y -> small_itv X2 -> small_itv Y2 ->
  proper_fin X -> proper_fin Y -> proper_fin X2 -> proper_fin Y2 ->
  inside X X2 -> inside Y Y2 -> (o = OpDiv -> ~ member Y2 0) ->
  exists Z Z2, returns (py_op o (OItv X) (OItv Y)) m Z /\ returns (py_op o (OItv X2) (OItv Y2)) m Z2 /\ inside Z Z2.
Proof. exact op_isotonic_m. Qed.
Print Assumptions C14_inclusion_isotonic.
Example C14_case : inside (mkitv Classical (PInt 2) (PInt 3)) ex1 /\ inside (mkitv Classical (PInt (-1)) (PInt 1)) ex2.
Proof. split; split; vm_compute; reflexivity. Qed.

(** The same for arbitrarily nested expressions, if nothing overflows on the larger intervals. *)
Theorem C14_expressions_isotonic : forall env env2 e m, (forall n, plain (env n)) -> (forall n, plain (env2 n)) -> (forall n, inside (env n) (env2 n)) ->
  plain_consts e -> finite_values env2 m e ->
  exists Z Z2, returns (eval env e) m Z /\ returns (eval env2 e) m Z2 /\ inside Z Z2.
Proof. exact eval_isotonic. Qed.
Print Assumptions C14_expressions_isotonic.
Example C14_expressions_case : (forall n, plain (iso_small n)) /\ (forall n, plain (iso_big n)) /\ (forall n, inside (iso_small n) (iso_big n)) /\
  plain_consts iso_expr /\ finite_values iso_big mode_NE iso_expr.
Proof. exact iso_case. Qed.
(** With overflow it fails: 0 times infinity is NaN. *)
Theorem C14_overflow_refuted : exists env env2 e m Z Z2, (forall n, plain (env n)) /\ (forall n, plain (env2 n)) /\ (forall n, inside (env n) (env2 n)) /\ plain_consts e /\
  returns (eval env e) m Z /\ returns (eval env2 e) m Z2 /\ finite_itv Z /\ ~ inside Z Z2.
Proof. exact overflow_not_isotonic. Qed.
Print Assumptions C14_overflow_refuted.

(** ** C15 *)
Theorem C15_dual_opp_neg_pro :
  (forall X, neg (neg X) = X) /\
  (forall X, well_kinded X -> dual (dual X) = X) /\
  (forall X, well_kinded X -> opp (opp X) = X) /\
  (forall X, lo (dual X) = hi X /\ hi (dual X) = lo X) /\
  (forall X, lo (opp X) = num_neg (lo X) /\ hi (opp X) = num_neg (hi X)) /\
  (forall X, opp X = neg (dual X)) /\
  (forall X, well_kinded (dual X)) /\ (forall X, well_kinded (opp X)) /\
  (forall X, pro (pro X) = pro X) /\
  (forall X, no_nan X -> (kd X = Classical -> num_le (lo X) (hi X) = true) ->
     kd (pro X) = Classical /\ num_le (lo (pro X)) (hi (pro X)) = true /\
     ((lo (pro X) = lo X /\ hi (pro X) = hi X) \/ (lo (pro X) = hi X /\ hi (pro X) = lo X) \/
      (num_eq (lo X) (hi X) = true /\ lo (pro X) = lo X /\ hi (pro X) = lo X))).
Proof. exact dual_algebra. Qed.
Print Assumptions C15_dual_opp_neg_pro.
Example C15_case : well_kinded ex1 /\ well_kinded ex3 /\ no_nan ex3.
Proof. split; [split; reflexivity|]. split; [split; discriminate|]. split; reflexivity. Qed.

(** ** C16 *)
Theorem C16_opposite_cancels : forall X m, small_itv X -> finite_itv X ->
  exists Z, returns (py_add (OItv X) (OItv (opp X))) m Z /\ py_eq Z (ONum (PInt 0)) = true.
Proof. exact add_opp_zero. Qed.
Print Assumptions C16_opposite_cancels.
Theorem C16_inverse_endpoints : forall X m, small_itv X -> finite_itv X -> num_val (lo X) <> 0 -> num_val (hi X) <> 0 ->
  exists Z, returns (inv X) m Z /\
    greatest_lower_double (fun r => r = 1 / num_val (lo X)) (lo Z) /\
    least_upper_double (fun r => r = 1 / num_val (hi X)) (hi Z) /\
    (kd Z = Classical <-> num_val (hi X) <= num_val (lo X)).
Proof. exact inv_ends. Qed.
Print Assumptions C16_inverse_endpoints.
Theorem C16_inverse_cancels_refuted : exists X m Z,
  small_itv X /\ proper_fin X /\ ~ member X 0 /\ returns (mul_inv X) m Z /\ py_eq Z (ONum (PInt 1)) = false.
Proof. exact mul_inv_refuted. Qed.
Print Assumptions C16_inverse_cancels_refuted.
Example C16_case : small_itv ex3 /\ finite_itv ex3 /\ num_val (lo ex3) <> 0 /\ num_val (hi ex3) <> 0.
Proof. split; [split; simpl; lia|]. split; [split; exact I|]. split; simpl; lra. Qed.

(** ** C17 *)
Theorem C17_product_is_kaucher : forall X Y m, int_itv X -> int_itv Y ->
  (kd X = Classical -> well_kinded X /\ well_kinded Y) ->
  exists Z, returns (py_mul (OItv X) (OItv Y)) m Z /\ kaucher_product X Y Z.
Proof. exact mul_exact. Qed.
Print Assumptions C17_product_is_kaucher.
Theorem C17_proper_operands_give_range : forall X Y m, int_itv X -> int_itv Y ->
  (kd X = Classical -> kd Y = Classical) -> proper_fin X -> proper_fin Y ->
  exists Z, returns (py_mul (OItv X) (OItv Y)) m Z /\
    (forall x y, member X x -> member Y y -> member Z (x * y)) /\
    (exists x y, member X x /\ member Y y /\ num_val (lo Z) = x * y) /\
    (exists x y, member X x /\ member Y y /\ num_val (hi Z) = x * y).
Proof. exact mul_proper_range. Qed.
Print Assumptions C17_proper_operands_give_range.
Theorem C17_commutative : forall X Y m, int_itv X -> int_itv Y -> well_kinded X -> well_kinded Y ->
  exists Z1 Z2, returns (py_mul (OItv X) (OItv Y)) m Z1 /\ returns (py_mul (OItv Y) (OItv X)) m Z2 /\
    same_num (lo Z1) (lo Z2) /\ same_num (hi Z1) (hi Z2).
Proof. exact mul_comm_exact. Qed.
Print Assumptions C17_commutative.
Theorem C17_dual_homomorphism : forall X Y m, int_itv X -> int_itv Y -> well_kinded X -> well_kinded Y ->
  exists Z1 Z2, returns (py_mul (OItv X) (OItv Y)) m Z1 /\
    returns (py_mul (OItv (dual X)) (OItv (dual Y))) m Z2 /\
    same_num (lo (dual Z1)) (lo Z2) /\ same_num (hi (dual Z1)) (hi Z2).
Proof. exact mul_dual_exact. Qed.
Print Assumptions C17_dual_homomorphism.
Example C17_case : int_itv ex3 /\ well_kinded ex3.
Proof. split; [|split; discriminate]. split; (split; [exact I|]); [exists 4%Z | exists (-3)%Z]; (split; [reflexivity | simpl; lia]). Qed.

(** ** C18 *)
Theorem C18_mixed_product_commutes : forall X Y m, small_itv X -> small_itv Y -> finite_itv X -> finite_itv Y ->
  kd X = Classical -> kd Y = Kaucher -> well_kinded X -> well_kinded Y ->
  exists Z1 Z2, returns (py_mul (OItv X) (OItv Y)) m Z1 /\ returns (py_mul (OItv Y) (OItv X)) m Z2 /\ same_itv Z1 Z2.
Proof. exact mixed_comm_same. Qed.
Print Assumptions C18_mixed_product_commutes.
Theorem C18_reachable_mixed_product_refuted : exists X Y0 Y1 Y m Z1 Z2,
  small_itv X /\ finite_itv X /\ kd X = Classical /\ well_kinded X /\
  kd Y0 = Kaucher /\ well_kinded Y0 /\ kd Y1 = Classical /\ well_kinded Y1 /\
  returns (py_add (OItv Y0) (OItv Y1)) m Y /\ kd Y = Kaucher /\
  returns (py_mul (OItv X) (OItv Y)) m Z1 /\ returns (py_mul (OItv Y) (OItv X)) m Z2 /\ py_eq Z1 (OItv Z2) = false.
Proof. exact mixed_comm_refuted. Qed.
Print Assumptions C18_reachable_mixed_product_refuted.
Example C18_case : small_itv ex1 /\ small_itv ex3 /\ finite_itv ex1 /\ finite_itv ex3 /\ kd ex1 = Classical /\ kd ex3 = Kaucher /\ well_kinded ex1 /\ well_kinded ex3.
Proof.
  split; [exact ex1_small|]. split; [split; simpl; lia|]. split; [exact (proj1 ex1_proper)|]. split; [split; exact I|].
  split; [reflexivity|]. split; [reflexivity|]. split; [split; reflexivity | split; discriminate].
Qed.

(** ** C19 *)
Theorem C19_outward_on_nonnegative : forall X Y m, kd X = Kaucher -> small_itv X -> small_itv Y -> finite_itv X -> finite_itv Y ->
  0 <= num_val (lo X) -> 0 <= num_val (hi X) -> 0 <= num_val (lo Y) -> 0 <= num_val (hi Y) ->
  exists Z, returns (py_mul (OItv X) (OItv Y)) m Z /\
    (forall l, kaucher_lo (num_val (lo X)) (num_val (hi X)) (num_val (lo Y)) (num_val (hi Y)) l -> num_le_R (lo Z) l) /\
    (forall u, kaucher_hi (num_val (lo X)) (num_val (hi X)) (num_val (lo Y)) (num_val (hi Y)) u -> R_le_num u (hi Z)).
Proof. exact kaucher_outward_nonneg. Qed.
Print Assumptions C19_outward_on_nonnegative.
Theorem C19_outward_refuted : exists X Y m Z l,
  kd X = Kaucher /\ well_kinded X /\ fin_double_itv X /\ kd Y = Kaucher /\ well_kinded Y /\ fin_double_itv Y /\
  returns (py_mul (OItv X) (OItv Y)) m Z /\
  kaucher_lo (num_val (lo X)) (num_val (hi X)) (num_val (lo Y)) (num_val (hi Y)) l /\ ~ num_le_R (lo Z) l.
Proof. exact kaucher_outward_refuted. Qed.
Print Assumptions C19_outward_refuted.
Definition ex4 : itv := mkitv Kaucher (PFlt (fl 3 (-1))) (PInt 1).
Example C19_case : kd ex4 = Kaucher /\ small_itv ex4 /\ finite_itv ex4 /\ 0 <= num_val (lo ex4) /\ 0 <= num_val (hi ex4).
Proof.
  split; [reflexivity|]. split; [split; simpl; [exact I | lia]|]. split; [split; [reflexivity | exact I]|].
  split; [|simpl; lra]. change (0 <= B2R (fl 3 (-1))). rewrite val_15. lra.
Qed.

(** ** C61 *)
Theorem C61_kaucher_division_outward : forall X Y m, ~ (kd X = Classical /\ kd Y = Classical) -> small_itv X -> small_itv Y -> finite_itv X -> finite_itv Y ->
  0 <= num_val (lo X) -> 0 <= num_val (hi X) -> min_normal <= num_val (lo Y) -> min_normal <= num_val (hi Y) ->
  exists Z, returns (py_div (OItv X) (OItv Y)) m Z /\ kd Z = Kaucher /\
    num_le_R (lo Z) (num_val (lo X) / num_val (hi Y)) /\
    R_le_num (num_val (hi X) / num_val (lo Y)) (hi Z).
Proof. exact kaucher_div. Qed.
Print Assumptions C61_kaucher_division_outward.
Example C61_case : ~ (kd ex1 = Classical /\ kd ex4 = Classical) /\ min_normal <= num_val (lo ex4) /\ min_normal <= num_val (hi ex4) /\ 0 <= num_val (lo ex1).
Proof.
  assert (H : min_normal <= 1) by (unfold min_normal; change 1 with (bpow radix2 0); apply bpow_le; lia).
  split; [intros [_ H2]; discriminate|]. split; [|split; [exact H|]].
  - change (min_normal <= B2R (fl 3 (-1))). rewrite val_15. lra.
  - change (0 <= B2R (fl 3 (-1))). rewrite val_15. lra.
Qed.

(** ** C20 *)
Theorem C20_mid_inside : forall X m, small_itv X -> proper_fin X -> no_overflow m (num_val (lo X) + num_val (hi X)) ->
  exists v, returns (mid X) m v /\ num_le (lo X) v = true /\ num_le v (hi X) = true.
Proof. exact mid_in. Qed.
Print Assumptions C20_mid_inside.
Theorem C20_mid_overflow_refuted : exists X m v, proper_fin X /\ small_itv X /\ returns (mid X) m v /\ num_le v (hi X) = false.
Proof. exact mid_refuted. Qed.
Print Assumptions C20_mid_overflow_refuted.
Example C20_case : small_itv ex2 /\ proper_fin ex2 /\ no_overflow mode_NE (num_val (lo ex2) + num_val (hi ex2)).
Proof.
  split; [exact ex2_small|]. split; [exact ex2_proper|]. unfold no_overflow.
  assert (E : num_val (lo ex2) + num_val (hi ex2) = - (3) / 4) by (change (-2 + B2R (fl 5 (-2)) = - (3) / 4); rewrite val_125; lra).
  rewrite E. apply Rle_lt_trans with (bpow radix2 0).
  - apply abs_round_le_generic; auto with typeclass_instances; [apply generic_format_bpow; vm_compute; discriminate|]. simpl. rewrite Rabs_left; lra.
  - apply bpow_lt. lia.
Qed.

(** ** C21 *)
Theorem C21_mig_exact : forall X m, small_itv X -> proper_fin X ->
  exists f, returns (mig X) m f /\ is_finite f = true /\
    (exists x, member X x /\ B2R f = Rabs x) /\ forall x, member X x -> B2R f <= Rabs x.
Proof. exact mig_exact. Qed.
Print Assumptions C21_mig_exact.
Theorem C21_mag_exact : forall X m, small_itv X -> proper_fin X ->
  exists f, returns (mag X) m f /\ is_finite f = true /\
    (exists x, member X x /\ B2R f = Rabs x) /\ forall x, member X x -> Rabs x <= B2R f.
Proof. exact mag_exact. Qed.
Print Assumptions C21_mag_exact.
Theorem C21_abs_exact : forall X m, small_itv X -> proper_fin X ->
  exists Z, returns (abs_itv X) m Z /\ forall r, member Z r <-> exists x, member X x /\ r = Rabs x.
Proof. exact abs_exact. Qed.
Print Assumptions C21_abs_exact.

(** ** C22 *)
Theorem C22_order_laws :
  (forall X o, py_ne X o = negb (py_eq X o)) /\
  (forall X, no_nan X -> py_eq X (OItv X) = true) /\
  (forall X Y, py_eq X (OItv Y) = py_eq Y (OItv X)) /\
  (forall X Y Z, py_eq X (OItv Y) = true -> py_eq Y (OItv Z) = true -> py_eq X (OItv Z) = true) /\
  (forall X, no_nan X -> py_le X (OItv X) = true) /\
  (forall X Y Z, py_le X (OItv Y) = true -> py_le Y (OItv Z) = true -> py_le X (OItv Z) = true) /\
  (forall X Y, py_le X (OItv Y) = true -> py_le Y (OItv X) = true -> py_eq X (OItv Y) = true) /\
  (forall X, py_lt X (OItv X) = false) /\
  (forall X Y Z, py_lt X (OItv Y) = true -> py_lt Y (OItv Z) = true -> py_lt X (OItv Z) = true) /\
  (forall X Y, py_lt X (OItv Y) = true -> py_le X (OItv Y) = true /\ py_eq X (OItv Y) = false) /\
  (forall X Y, py_gt X (OItv Y) = py_lt Y (OItv X)) /\
  (forall X Y, py_ge X (OItv Y) = py_le Y (OItv X)).
Proof. exact order_laws. Qed.
Print Assumptions C22_order_laws.
(** What == means: same endpoint values. *)
Theorem C22_equality_is_endpoint_equality : forall X Y, finite_itv X -> finite_itv Y ->
  (py_eq X (OItv Y) = true <-> num_val (lo X) = num_val (lo Y) /\ num_val (hi X) = num_val (hi Y)) /\
  (py_le X (OItv Y) = true <-> num_val (lo X) <= num_val (lo Y) /\ num_val (hi X) <= num_val (hi Y)) /\
  (py_lt X (OItv Y) = true <-> num_val (lo X) < num_val (lo Y) /\ num_val (hi X) < num_val (hi Y)).
Proof. exact cmp_meaning. Qed.
Print Assumptions C22_equality_is_endpoint_equality.

(** ** C23 *)
Theorem C23_number_membership : forall X c, finite_num c -> (py_contains X (ONum c) = true <-> member X (num_val c)).
Proof. exact contains_num_spec. Qed.
Print Assumptions C23_number_membership.
Theorem C23_interval_membership : forall X Y, proper_fin Y ->
  (py_contains X (OItv Y) = true <-> forall r, member Y r -> member X r).
Proof. exact contains_itv_spec. Qed.
Print Assumptions C23_interval_membership.
Example C21_C23_case : proper_fin ex2 /\ small_itv ex2 /\ py_contains ex2 (ONum (PInt 1)) = true /\ py_contains ex2 (ONum (PInt 2)) = false /\ no_nan ex2.
Proof. split; [exact ex2_proper|]. split; [exact ex2_small|]. split; [reflexivity|]. split; [reflexivity|]. split; reflexivity. Qed.
