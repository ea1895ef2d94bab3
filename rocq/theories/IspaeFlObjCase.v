(** Examples for the objectives of ISPAE in binary64. *)
From Coq Require Import ZArith Reals List Bool Arith Lia Lra.
From Flocq Require Import Core IEEE754.BinarySingleNaN.
From Verif Require Models.
From Verif Require Import Base PyNum Kernel Spec Expr XReal KernelProofs Witness SpecRecogFl Ralgb5 RecogOpt SpecRecogOpt WilsFl IspaeFl SpecIspaeFl IspaeFlCase IspaeFlObj SpecIspaeFlObj.
Import ListNotations.
Open Scope R_scope.

Definition no_sum (l : list flt) : flt := f0.
Definition obs (l u : Z) : observation := ((c_cols, mkitv Classical (PInt l) (PInt u)), f1).
Lemma obs_usable l u : (-100 <= l)%Z -> (l <= u)%Z -> (u <= 100)%Z -> usable 1 0 c_roots c_beta (obs l u).
Proof.
  intros L LU U. split; [exact case_tame|]. split; [discriminate|]. split; [vm_compute; discriminate|]. split; [split; cbn [lo hi small_num]; lia|].
  split; [split; [split; exact Logic.I | cbn [lo hi num_val]; now apply IZR_le]|]. split.
  - unfold bounded_entry, magnitude. cbn [lo hi num_val]. apply Rle_trans with (bpow radix2 7); [|apply bpow_le; lia]. change (bpow radix2 7) with 128.
    apply Rmax_lub; rewrite <- abs_IZR; apply IZR_le; lia.
  - split; [vm_compute; reflexivity|]. rewrite one_val. lra.
Qed.
Definition signs (o : ispae_objective) (rows : list observation) : option (bool * bool) :=
  match fst (ispae_value c_roots no_sum o Models.NInf c_beta rows mode_NE) with Ok v => Some (flt_leb f0 v, flt_ltb v f0) | Err _ => None end.
Lemma signs_run o rows p : signs o rows = Some p -> exists v, returns (ispae_value c_roots no_sum o Models.NInf c_beta rows) mode_NE v /\ (flt_leb f0 v, flt_ltb v f0) = p.
Proof. unfold signs, returns, outcome. destruct (fst _) as [v|]; [|discriminate]. intro H. injection H as <-. now exists v. Qed.
(** The value is [11/4, 5]: within [2, 6], not within [3, 6], apart from [6, 9]. *)
Lemma case_signs : signs ITol [obs 2 6; obs 1 5] = Some (true, false) /\ signs ITol [obs 2 6; obs 3 6] = Some (false, true) /\
  signs IUni [obs 2 6; obs 3 6] = Some (true, false) /\ signs IUni [obs 2 6; obs 6 9] = Some (false, true).
Proof. vm_compute. auto. Qed.
(** Five steps of the optimizer, and the sign of the slope in the bias. *)
Definition five_steps : params (ops_of flt_vops) :=
  let p := default_params flt_vops in mkparams (ops_of flt_vops) (tolx _ p) (tolg _ p) (tolf _ p) 5%Z (alpha _ p) (k_sims _ p) (h0 _ p) (nh _ p) (q1 _ p) (q2 _ p).
Definition slope (b : list flt) : list flt := [f0; f0; if flt_ltb (nth 2 b f0) (fl 5 (-1)) then neg1 else f1].
Definition fitted : bool := let '(x, v) := ispae_fit_fl c_roots no_sum ITol Models.NInf flt_vops five_steps slope [obs 2 6; obs 1 5] c_beta in
  negb (is_nan v) && flt_leb f0 v.
Lemma case_fit : exists x v, ispae_fit_fl c_roots no_sum ITol Models.NInf flt_vops five_steps slope [obs 2 6; obs 1 5] c_beta = (x, v) /\ is_nan v = false /\ flt_leb f0 v = true.
Proof.
  assert (F : fitted = true) by (vm_compute; reflexivity). unfold fitted in F. destruct (ispae_fit_fl _ _ _ _ _ _ _ _ _) as [x v]. apply andb_prop in F. destruct F as [F1 F2]. exists x, v. split; [reflexivity|]. split; [now apply negb_true_iff | exact F2].
Qed.
