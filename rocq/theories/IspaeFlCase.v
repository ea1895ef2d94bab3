(** Examples for the values of ISPAE in binary64. *)
From Coq Require Import ZArith Reals List Bool Arith Lia Lra.
From Flocq Require Import Core IEEE754.BinarySingleNaN.
From Verif Require Import Base PyNum Kernel Spec Expr XReal XArith KernelProofs Witness SpecModels IspaeFl SpecIspaeFl IspaeFlProofs IspaeFlRange.
Import ListNotations.
Open Scope R_scope.

Lemma deriv_unique f x a b : derivable_pt_lim f x a -> derivable_pt_lim f x b -> a = b.
Proof. intros. eapply uniqueness_limite; eassumption. Qed.
Lemma linear_critical (c l u : flt) delta : B2R c <> 0 -> critical_near (polynomial [c]) l u delta [].
Proof.
  intro N. left. intros x _ H. exfalso. apply N. apply (deriv_unique (polynomial [c]) x); [|exact H].
  assert (D : derivable_pt_lim (fun y => B2R c * y) x (B2R c * 1)) by (apply derivable_pt_lim_scal, derivable_pt_lim_id). rewrite Rmult_1_r in D.
  intros e He. destruct (D e He) as [d Hd]. exists d. intros h H1 H2. replace (polynomial [c] (x + h)) with (B2R c * (x + h)) by (unfold polynomial, reals; cbn [map combination pow]; ring). replace (polynomial [c] x) with (B2R c * x) by (unfold polynomial, reals; cbn [map combination pow]; ring). now apply Hd.
Qed.
Lemma small_bulk k : 1 <= k <= bpow radix2 900 -> 100 * k <= bpow radix2 960.
Proof.
  intros [K1 K2]. apply Rle_trans with (bpow radix2 7 * bpow radix2 900).
  - apply Rmult_le_compat; try lra. change (bpow radix2 7) with 128. lra.
  - rewrite <- bpow_plus. apply bpow_le. lia.
Qed.
Lemma tiny : 0 < bpow radix2 (-1000) <= 1.
Proof. split; [apply bpow_gt_0|]. change 1 with (bpow radix2 0). apply bpow_le. lia. Qed.
(** ** The number 3 in a column with the coefficient 0.1 *)
Definition tenth : flt := fl 3602879701896397 (-55).
Definition three : flt := fl 3 0.
Lemma tenth_val : B2R tenth = 3602879701896397 / 36028797018963968.
Proof. unfold tenth. rewrite (B2R_sf _ false 7205759403792794 (-56)) by (vm_compute; reflexivity). feval. lra. Qed.
Lemma three_val : B2R three = 3.
Proof. unfold three. rewrite (B2R_sf _ false 6755399441055744 (-51)) by (vm_compute; reflexivity). feval. lra. Qed.
Lemma tenth_tame : tame 3 [tenth] three three.
Proof.
  assert (T := tiny). assert (B := small_bulk 1 ltac:(split; [lra|]; change 1 with (bpow radix2 0); apply bpow_le; lia)).
  split; [repeat (constructor; [vm_compute; reflexivity|]); constructor|]. split; [vm_compute; reflexivity|]. split; [vm_compute; reflexivity|]. rewrite three_val. split; [lra|]. split; [lra|]. rewrite Rabs_pos_eq by lra. split; [lra|]. split; [lra|]. split.
  - unfold reals; cbn [map bulk]; rewrite Rabs_R0, tenth_val, Rabs_pos_eq by lra. lra.
  - cbn [length INR]. apply Rle_trans with (bpow radix2 1); [cbn; lra | apply bpow_le; lia].
Qed.
Theorem not_enclosure m : exists M beta l u Z x, tame M beta l u /\ critical_near (polynomial beta) l u 0 [] /\ returns (col_fl [] beta l u) m Z /\
  B2R l <= x <= B2R u /\ ~ member Z (polynomial beta x).
Proof.
  exists 3, [tenth], three, three.
  destruct (IspaeFlRange.column_within 3 0 [tenth] three three [] m tenth_tame (Rle_refl 0) (linear_critical tenth three three 0 ltac:(rewrite tenth_val; lra))) as (Z & R & _).
  exists Z, 3. split; [exact tenth_tame|]. split; [apply linear_critical; rewrite tenth_val; lra|]. split; [exact R|]. rewrite three_val. split; [lra|].
  assert (TZ : match lo Z with PFlt v => flt_eqb v (fl 5404319552844596 (-54)) | PInt _ => false end = true).
  { assert (G : match fst (col_fl [] [tenth] three three m) with Ok z => match lo z with PFlt v => flt_eqb v (fl 5404319552844596 (-54)) | PInt _ => false end | Err _ => false end = true) by (vm_compute; reflexivity).
    unfold returns, outcome in R. rewrite R in G. exact G. }
  intros [H _]. destruct (lo Z) as [z|v]; [discriminate TZ|]. unfold num_le_R in H.
  assert (L : B2R (fl 5404319552844596 (-54)) = 5404319552844596 / 18014398509481984) by (rewrite (B2R_sf _ false 5404319552844596 (-54)) by (vm_compute; reflexivity); feval; lra).
  assert (FL : is_finite (fl 5404319552844596 (-54)) = true) by (vm_compute; reflexivity).
  set (w := fl 5404319552844596 (-54)) in *. clearbody w. rewrite flt_eqb_x, (proj1 (is_finite_x w) FL) in TZ.
  assert (H' : B2R v <= polynomial [tenth] 3 /\ B2R v = B2R w).
  { unfold flt_le_R in H. destruct v as [s|[|]| |s mm e HH]; try discriminate TZ; (split; [exact H|]); cbn [xflt] in TZ; now apply xeqb_fin in TZ. }
  destruct H' as [H1 H2]. rewrite H2, L in H1. unfold polynomial, reals in H1. cbn [map combination pow] in H1. rewrite tenth_val in H1. lra.
Qed.
(** ** x + x^2 over [-1, 1], plus a bias with coefficient 3 *)
Definition neg1 : flt := fl (-1) 0.
Definition half_down : flt := fl (-1) (-1).
Definition c_beta : list flt := [f1; f1; three].
Definition c_cols : list (nat * (flt * flt)) := [(2%nat, (neg1, f1)); (1%nat, (f1, f1))].
Definition c_roots (b : list flt) : list flt := match b with [_; _] => [half_down] | _ => [] end.
Lemma one_val : B2R f1 = 1. Proof. unfold f1. rewrite (B2R_sf _ false 4503599627370496 (-52)) by (vm_compute; reflexivity). feval. lra. Qed.
Lemma neg1_val : B2R neg1 = -1. Proof. unfold neg1. rewrite (B2R_sf _ true 4503599627370496 (-52)) by (vm_compute; reflexivity). feval. lra. Qed.
Lemma half_val : B2R half_down = - / 2. Proof. unfold half_down. rewrite (B2R_sf _ true 4503599627370496 (-53)) by (vm_compute; reflexivity). feval. lra. Qed.
Lemma case_first : tame 1 [f1; f1] neg1 f1.
Proof.
  assert (T := tiny). assert (B := small_bulk 1 ltac:(split; [lra|]; change 1 with (bpow radix2 0); apply bpow_le; lia)).
  split; [repeat (constructor; [vm_compute; reflexivity|]); constructor|]. split; [vm_compute; reflexivity|]. split; [vm_compute; reflexivity|]. rewrite neg1_val, one_val. split; [lra|]. split; [lra|]. rewrite (Rabs_left (-1)), Rabs_R1 by lra. split; [lra|]. split; [lra|]. split.
  - unfold reals; cbn [map bulk]. rewrite one_val, Rabs_R0, Rabs_R1. lra.
  - cbn [length INR]. apply Rle_trans with (bpow radix2 2); [cbn; lra | apply bpow_le; lia].
Qed.
Lemma case_tame : tame_row 1 0 c_roots c_beta c_cols.
Proof.
  assert (T := tiny). assert (B := small_bulk 1 ltac:(split; [lra|]; change 1 with (bpow radix2 0); apply bpow_le; lia)).
  unfold c_cols, c_beta. cbn [tame_row firstn skipn c_roots]. split; [|split; [|split; [|split; [|exact Logic.I]]]].
  - exact case_first.
  - left. intros x _ H. exists half_down. split; [now left|]. split; [vm_compute; reflexivity|]. rewrite neg1_val, one_val, half_val. split; [lra|].
    assert (E : forall y, polynomial [f1; f1] y = y + y ^ 2) by (intro y; unfold polynomial; unfold reals; cbn [map combination pow]; rewrite one_val; ring).
    assert (X : 1 + INR 2 * x ^ 1 = 0).
    { apply (deriv_unique (fun y => y + y ^ 2) x).
      - apply (derivable_pt_lim_plus (fun y => y) (fun y => y ^ 2)); [apply derivable_pt_lim_id | apply (derivable_pt_lim_pow x 2)].
      - intros e He. destruct (H e He) as [d Hd]. exists d. intros h H1 H2. rewrite <- !E. now apply Hd. }
    cbn [INR pow] in X. assert (x = - / 2) by lra. subst x. rewrite Rminus_eq_0, Rabs_R0. lra.
  - split; [repeat (constructor; [vm_compute; reflexivity|]); constructor|]. split; [vm_compute; reflexivity|]. split; [vm_compute; reflexivity|]. rewrite one_val. split; [lra|]. split; [lra|]. rewrite Rabs_R1. split; [lra|]. split; [lra|]. split.
    + unfold reals; cbn [map bulk]. rewrite three_val, Rabs_R0, Rabs_pos_eq by lra. lra.
    + cbn [length INR]. apply Rle_trans with (bpow radix2 1); [cbn; lra | apply bpow_le; lia].
  - apply linear_critical. rewrite three_val. lra.
Qed.
Definition c_value : bool := match fst (value_fl c_roots c_beta c_cols mode_NE) with
  | Ok (OItv Z) => num_eq (lo Z) (PFlt (fl 11 (-2))) && num_eq (hi Z) (PFlt (fl 5 0)) | _ => false end.
Lemma case_value : exists Z, returns (value_fl c_roots c_beta c_cols) mode_NE (OItv Z) /\ num_eq (lo Z) (PFlt (fl 11 (-2))) = true /\ num_eq (hi Z) (PFlt (fl 5 0)) = true.
Proof.
  assert (H : c_value = true) by (vm_compute; reflexivity). unfold c_value in H. unfold returns, outcome.
  destruct (fst (value_fl c_roots c_beta c_cols mode_NE)) as [[|Z]|]; [discriminate H | | discriminate H]. apply andb_prop in H. exists Z. split; [reflexivity | exact H].
Qed.
