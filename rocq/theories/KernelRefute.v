(** Counterexamples in the kernel. *)
From Coq Require Import ZArith Reals List Bool Lia Lra Psatz.
From Coq Require Import Floats.SpecFloat.
From Flocq Require Import Core IEEE754.BinarySingleNaN.
From Verif Require Import Base PyNum Kernel Spec XReal XArith Witness Expr ExprProofs.
Open Scope R_scope.

Definition ival (k : kind) (a b : Z) : itv := mkitv k (PInt a) (PInt b).

Lemma div_num_refuted : exists X c m Z x,
  small_itv X /\ kd X = Classical /\ finite_num c /\ num_val c <> 0 /\
  returns (py_div (OItv X) (ONum c)) m Z /\ member X x /\ ~ member Z (x / num_val c).
Proof.
  destruct (view_returns (py_div (OItv (ival Classical 1 1)) (ONum (PInt 3))) mode_NE Classical
             (inr (S754_finite false 6004799503160661 (-54))) (inr (S754_finite false 6004799503160661 (-54))))
    as (Z & HZ & _ & Hl & Hh); [vm_compute; reflexivity|].
  exists (ival Classical 1 1), (PInt 3), mode_NE, Z, 1.
  split; [split; simpl; lia|]. split; [reflexivity|]. split; [exact I|]. split; [simpl; lra|]. split; [exact HZ|].
  split; [split; simpl; lra|].
  rewrite member_x, Hl, Hh. simpl. feval. lra.
Qed.

Lemma big_int_refuted : exists X Y m Z x y,
  kd X = Classical /\ kd Y = Classical /\ finite_itv X /\ finite_itv Y /\
  returns (py_add (OItv X) (OItv Y)) m Z /\ member X x /\ member Y y /\ ~ member Z (x + y).
Proof.
  set (X := ival Classical 9007199254740993 9007199254740993). set (Y := ival Classical 0 0).
  destruct (view_returns (py_add (OItv X) (OItv Y)) mode_NE Classical
             (inr (S754_finite false 4503599627370496 1)) (inr (S754_finite false 4503599627370496 1)))
    as (Z & HZ & _ & Hl & Hh); [vm_compute; reflexivity|].
  exists X, Y, mode_NE, Z, 9007199254740993, 0.
  split; [reflexivity|]. split; [reflexivity|]. split; [split; exact I|]. split; [split; exact I|]. split; [exact HZ|].
  split; [split; simpl; lra|]. split; [split; simpl; lra|].
  rewrite member_x, Hl, Hh. simpl. feval. lra.
Qed.

Lemma np_div_refuted (L : libm) : exists c X m Z x,
  small_itv X /\ kd X = Classical /\ finite_num c /\ member X 0 /\
  raises (py_div (ONum c) (OItv X)) m ValueError /\
  returns (np_binary L U_divide (ONum c) (OItv X)) m Z /\ member X x /\ x <> 0 /\ ~ member Z (num_val c / x).
Proof.
  set (X := ival Classical (-1) 1). set (c := PFlt f1).
  destruct (view_returns (np_binary L U_divide (ONum c) (OItv X)) mode_NE Classical
             (inr (S754_finite true 4503599627370496 (-52))) (inr (S754_finite false 4503599627370496 (-52))))
    as (Z & HZ & _ & Hl & Hh); [vm_compute; reflexivity|].
  exists c, X, mode_NE, Z, (/2).
  split; [split; simpl; lia|]. split; [reflexivity|]. split; [reflexivity|]. split; [split; simpl; lra|].
  split; [reflexivity|]. split; [exact HZ|]. split; [split; simpl; lra|]. split; [lra|].
  assert (E : num_val c = 1).
  { assert (E1 := xval_pn1). assert (F : finite_num c) by reflexivity. apply finite_num_x in F. change c with pn1 in *. congruence. }
  rewrite member_x, Hl, Hh, E. simpl. feval. lra.
Qed.

Lemma ufunc_first_refuted (L : libm) : exists X c m Z1 Z2,
  small_itv X /\ small_num c /\
  returns (np_binary L U_add (OItv X) (ONum c)) m Z1 /\ returns (py_add (OItv X) (ONum c)) m Z2 /\
  py_eq Z1 (OItv Z2) = false.
Proof.
  set (X := ival Classical 1 1). set (c := PInt 5).
  destruct (view_returns (np_binary L U_add (OItv X) (ONum c)) mode_NE Classical
             (inr (S754_finite false 4503599627370496 (-51))) (inr (S754_finite false 4503599627370496 (-51))))
    as (Z1 & HZ1 & _ & Hl1 & Hh1); [vm_compute; reflexivity|].
  destruct (view_returns (py_add (OItv X) (ONum c)) mode_NE Classical
             (inr (S754_finite false 6755399441055744 (-50))) (inr (S754_finite false 6755399441055744 (-50))))
    as (Z2 & HZ2 & _ & Hl2 & Hh2); [vm_compute; reflexivity|].
  exists X, c, mode_NE, Z1, Z2. split; [split; simpl; lia|]. split; [simpl; lia|]. split; [exact HZ1|]. split; [exact HZ2|].
  unfold py_eq, cmp_both. rewrite num_eq_x, Hl1, Hl2. simpl. unfold xeqb. simpl. feval.
  rewrite Rcompare_Lt by lra. reflexivity.
Qed.

Lemma mul_inv_refuted : exists X m Z,
  small_itv X /\ proper_fin X /\ ~ member X 0 /\ returns (mul_inv X) m Z /\ py_eq Z (ONum (PInt 1)) = false.
Proof.
  set (X := ival Classical 49 49).
  assert (H : match outcome (mul_inv X) mode_NE with Ok Z => py_eq Z (ONum (PInt 1)) | Err _ => true end = false) by (vm_compute; reflexivity).
  unfold raises, returns. destruct (outcome (mul_inv X) mode_NE) as [Z|] eqn:E; [|discriminate].
  exists X, mode_NE, Z. split; [split; simpl; lia|]. split; [split; [split; exact I | simpl; lra]|].
  split; [intros [? ?]; simpl in *; lra|]. split; assumption.
Qed.

(** mid overflows *)
Lemma mid_refuted : exists X m v, proper_fin X /\ small_itv X /\ returns (mid X) m v /\ num_le v (hi X) = false.
Proof.
  set (X := mkitv Classical (PFlt fmaxfloat) (PFlt fmaxfloat)).
  assert (H : match outcome (mid X) mode_NE with Ok v => num_le v (hi X) | Err _ => true end = false) by (vm_compute; reflexivity).
  unfold returns. destruct (outcome (mid X) mode_NE) as [v|] eqn:E; [|discriminate].
  exists X, mode_NE, v. split; [split; [split; reflexivity | simpl; lra]|]. split; [split; exact I|]. split; assumption.
Qed.
