(** Example for the predictions of ISPAE in binary64: x + x^2 over [-1, 1] and a bias 3. *)
From Coq Require Import ZArith Reals List Bool Arith Lia Lra.
From Flocq Require Import Core IEEE754.BinarySingleNaN.
From Verif Require Import Base PyNum Kernel Spec Expr Witness IspaeFl SpecIspaeFl IspaeFlCase IspaeFlPred SpecIspaeFlPred IspaeFlPredProofs.
Import ListNotations.
Open Scope R_scope.

Definition p_roots (b : list flt) : list flt := match b with [_; _] => [f0] | _ => [] end.
Lemma mono_tame d l u : (1 <= d <= 2)%nat -> is_finite l = true -> is_finite u = true -> -1 <= B2R l -> B2R l <= B2R u -> B2R u <= 1 -> tame 1 (monomial d) l u.
Proof.
  intros Hd Fl Fu L LU U. assert (T := tiny). assert (B := small_bulk 1 ltac:(split; [lra|]; change 1 with (bpow radix2 0); apply bpow_le; lia)).
  assert (C : d = 1%nat \/ d = 2%nat) by lia.
  split; [destruct C as [-> | ->]; repeat (constructor; [vm_compute; reflexivity|]); constructor|]. split; [exact Fl|]. split; [exact Fu|]. split; [exact LU|]. split; [lra|].
  split; [apply Rabs_le; lra|]. split; [apply Rabs_le; lra|]. destruct C as [-> | ->]; (split; [unfold monomial, reals; cbn [Nat.pred repeat app map bulk]; rewrite one_val, ?Rabs_R1, ?Rabs_R0; change (B2R f0) with 0; rewrite ?Rabs_R0; lra|]);
    cbn [monomial Nat.pred repeat app length INR]; (apply Rle_trans with (bpow radix2 2); [cbn; lra | apply bpow_le; lia]).
Qed.
Lemma case_powers : tame_powers 1 0 p_roots c_cols.
Proof.
  intros o l u I d Hd. assert (L1 : forall a b, critical_near (fun x => x ^ 1) a b 0 []).
  { intros a b. left. intros x _ H. exfalso. assert (Q := deriv_unique (fun x => x ^ 1) x (INR 1 * x ^ 0) 0 (derivable_pt_lim_pow x 1) H). cbn in Q. lra. }
  destruct I as [E|[E|[]]]; injection E as <- <- <-.
  - split; [apply mono_tame; [exact Hd | vm_compute; reflexivity | vm_compute; reflexivity | rewrite neg1_val; lra | rewrite neg1_val, one_val; lra | rewrite one_val; lra]|].
    assert (C : d = 1%nat \/ d = 2%nat) by lia. destruct C as [-> | ->]; [apply L1|]. left. intros x _ H. exists f0. split; [now left|]. split; [reflexivity|]. change (B2R f0) with 0. rewrite neg1_val, one_val. split; [lra|].
    assert (Q := deriv_unique (fun x => x ^ 2) x (INR 2 * x ^ 1) 0 (derivable_pt_lim_pow x 2) H). cbn in Q. assert (x = 0) by lra. subst x. rewrite Rminus_eq_0, Rabs_R0. lra.
  - assert (d = 1%nat) by lia. subst d. split; [apply mono_tame; [lia | vm_compute; reflexivity | vm_compute; reflexivity | rewrite one_val; lra | lra | rewrite one_val; lra] | apply L1].
Qed.
Definition p_value : bool := match fst (predict_fl p_roots c_beta c_cols mode_NE) with
  | Ok (OItv Z) => num_eq (lo Z) (PFlt (fl 2 0)) && num_eq (hi Z) (PFlt (fl 5 0)) | _ => false end.
Lemma case_predict : exists Z, returns (predict_fl p_roots c_beta c_cols) mode_NE (OItv Z) /\ num_eq (lo Z) (PFlt (fl 2 0)) = true /\ num_eq (hi Z) (PFlt (fl 5 0)) = true.
Proof.
  assert (H : p_value = true) by (vm_compute; reflexivity). unfold p_value in H. unfold returns, outcome.
  destruct (fst (predict_fl p_roots c_beta c_cols mode_NE)) as [[|Z]|]; [discriminate H | | discriminate H]. apply andb_prop in H. exists Z. split; [reflexivity | exact H].
Qed.
Lemma case_size : power_size 1 c_beta (powers c_cols) <= bpow radix2 1000 /\ INR (length c_beta) <= bpow radix2 40.
Proof.
  assert (T := tiny). assert (B := small_bulk 1 ltac:(split; [lra|]; change 1 with (bpow radix2 0); apply bpow_le; lia)). assert (B2 : bpow radix2 960 <= bpow radix2 1000) by (apply bpow_le; lia). split.
  - unfold c_beta, c_cols, powers. cbn [flat_map map seq app fst snd power_size monomial Nat.pred repeat reals bulk]. rewrite three_val, one_val. change (B2R f0) with 0. rewrite (Rabs_right 3), Rabs_R1, Rabs_R0 by lra. lra.
  - cbn [length c_beta INR]. apply Rle_trans with (bpow radix2 2); [cbn; lra | apply bpow_le; lia].
Qed.
