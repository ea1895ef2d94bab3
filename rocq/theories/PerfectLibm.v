(** A C library whose functions are correctly rounded in every mode: it shows
    that the hypotheses about the platform library can be met (it is not a
    model of any code of /repo). *)
From Coq Require Import ZArith Reals List Bool Lia Lra Psatz.
From Coq Require Import Floats.SpecFloat.
From Flocq Require Import Core IEEE754.BinarySingleNaN.
From Verif Require Import Base PyNum Kernel Spec SpecElem XReal XArith KernelProofs Witness ElemProofs.
Open Scope R_scope.

Definition fin_of (y : R) : flt :=
  BinarySingleNaN.binary_normalize 53 1024 prec53 prec53_lt mode_NE (Ztrunc (scaled_mantissa radix2 fexp y)) (cexp radix2 fexp y) false.
Definition Rflt (m : rmode) (x : R) : flt :=
  if Rlt_bool (Rabs (rnd m x)) (bpow radix2 1024) then fin_of (rnd m x)
  else if Rlt_bool x 0
       then (if overflow_to_inf m true then fninf else fneg fmaxfloat)
       else (if overflow_to_inf m false then finf else fmaxfloat).

Definition perfect_libm : libm := {|
  c_exp m d := match d with
    | B754_nan => d | B754_infinity true => f0 | B754_infinity false => finf
    | _ => Rflt m (exp (B2R d)) end;
  c_log m d := match d with
    | B754_nan => d | B754_infinity true => fnan | B754_infinity false => finf
    | _ => Rflt m (ln (B2R d)) end;
  c_sin m d := if is_finite d then Rflt m (sin (B2R d)) else fnan;
  c_cos m d := if is_finite d then Rflt m (cos (B2R d)) else fnan;
  c_pow m d w :=
    let r := Rflt m (Rpower (B2R d) (B2R w)) in
    if is_finite r then Ok r else Err OverflowError
|}.

Lemma fin_of_x y : generic_format radix2 fexp y -> Rabs y < bpow radix2 1024 -> xflt (fin_of y) = XFin y.
Proof.
  intros Hg Hl. unfold fin_of.
  assert (H := binary_normalize_correct 53 1024 prec53 prec53_lt mode_NE (Ztrunc (scaled_mantissa radix2 fexp y)) (cexp radix2 fexp y) false).
  cbv zeta in H. replace (F2R _) with y in H by (rewrite Hg at 1; reflexivity).
  rewrite round_generic in H by auto with typeclass_instances. rewrite Rlt_bool_true in H by assumption.
  destruct H as (H1 & H2 & _). apply is_finite_x in H2. rewrite H2. f_equal. exact H1.
Qed.
Lemma Rflt_x m x : xflt (Rflt m x) = xround m x.
Proof.
  unfold Rflt, xround. destruct (Rlt_bool_spec (Rabs (rnd m x)) (bpow radix2 1024)).
  - apply fin_of_x; [apply gen_rnd | assumption].
  - destruct (Rlt_bool x 0); destruct overflow_to_inf; try reflexivity. apply xmaxneg.
Qed.

Lemma rnd_max m v : Rabs v <= fmaxR -> Rabs (rnd m v) <= fmaxR.
Proof.
  intro H. apply Rabs_le_inv in H. apply Rabs_le. split.
  - apply round_ge_generic; auto using gen_max_opp with typeclass_instances. lra.
  - apply round_le_generic; auto using gen_max with typeclass_instances. lra.
Qed.
Lemma Rflt_faithful m v : Rabs v <= max_double -> faithful (Rflt m v) v.
Proof.
  change max_double with fmaxR. intro H. assert (X := Rflt_x m v). unfold xround in X.
  assert (B := rnd_max m v H). rewrite Rlt_bool_true in X by (generalize fmaxR_lt; lra).
  destruct (xfin_flt _ _ X) as [F V]. split; [assumption|]. rewrite V.
  destruct (round_DN_or_UP radix2 fexp (round_mode m) v) as [E|E].
  - left. rewrite E. change (round radix2 fexp Zfloor v) with (rnd mode_DN v). split; [apply rnd_DN_le|].
    intros g _ Hg. apply gen_le_DN; [apply gen_B2R | assumption].
  - right. rewrite E. change (round radix2 fexp Zceil v) with (rnd mode_UP v). split; [apply rnd_UP_ge|].
    intros g _ Hg. apply gen_UP_le; [apply gen_B2R | assumption].
Qed.

Lemma one_le_max : 1 <= max_double.
Proof.
  change max_double with fmaxR. rewrite fmaxR_val.
  assert (1 <= bpow radix2 971) by (change 1 with (bpow radix2 0); apply bpow_le; lia).
  assert (bpow radix2 1024 = bpow radix2 53 * bpow radix2 971) by (rewrite <- bpow_plus; reflexivity).
  assert (4 <= bpow radix2 53). { change 4 with (bpow radix2 2). apply bpow_le. lia. }
  nra.
Qed.
Lemma perfect_exp : exp_faithful perfect_libm.
Proof.
  split; [|reflexivity]. intros m d Fd H. destruct d as [s|[|]| |s mm e B]; try discriminate;
  simpl c_exp; apply Rflt_faithful; rewrite Rabs_pos_eq; try assumption; left; apply exp_pos.
Qed.
Lemma perfect_sin : sin_faithful perfect_libm.
Proof.
  intros m d Fd. simpl c_sin. rewrite Fd. apply Rflt_faithful.
  apply Rle_trans with 1; [|exact one_le_max]. apply Rabs_le. apply SIN_bound.
Qed.
Lemma perfect_cos : cos_faithful perfect_libm.
Proof.
  intros m d Fd. simpl c_cos. rewrite Fd. apply Rflt_faithful.
  apply Rle_trans with 1; [|exact one_le_max]. apply Rabs_le. apply COS_bound.
Qed.

Lemma ln_flt_max (d : flt) : 0 < B2R d -> Rabs (ln (B2R d)) <= max_double.
Proof.
  intro H.
  assert (P : is_finite d = true) by (destruct d as [s|[|]| |s mm e B]; simpl in *; try lra; reflexivity).
  assert (L1 := ln_flt_le d H).
  assert (Mn : bpow radix2 (-1074) <= B2R d).
  { assert (G := gen_B2R d). change (-1074)%Z with (3 - 1024 - 53)%Z.
    apply (generic_format_ge_bpow radix2 fexp); [|assumption|assumption].
    intro e. unfold SpecFloat.fexp, SpecFloat.emin. lia. }
  assert (L2 : - 1074 <= ln (B2R d)).
  { apply Rle_trans with (ln (bpow radix2 (-1074))); [|apply ln_mono; [apply bpow_gt_0 | assumption]].
    rewrite bpow_powerRZ. rewrite powerRZ_Rpower by (simpl; lra). unfold Rpower. rewrite ln_exp.
    change (IZR radix2) with 2. generalize ln2_le. assert (0 < ln 2) by (rewrite <- ln_1; apply ln_increasing; lra). lra. }
  apply Rle_trans with 2048; [apply Rabs_le; lra|].
  change max_double with fmaxR. rewrite fmaxR_val.
  assert (bpow radix2 11 <= bpow radix2 971) by (apply bpow_le; lia).
  assert (bpow radix2 1024 = bpow radix2 53 * bpow radix2 971) by (rewrite <- bpow_plus; reflexivity).
  assert (4 <= bpow radix2 53). { change 4 with (bpow radix2 2). apply bpow_le. lia. }
  change (bpow radix2 11) with 2048 in *. nra.
Qed.
Lemma perfect_log : log_faithful perfect_libm.
Proof.
  intros m d Fd H. destruct d as [s|[|]| |s mm e B]; try discriminate; simpl c_log; apply Rflt_faithful; now apply ln_flt_max.
Qed.
Lemma perfect_log_dir : log_directed perfect_libm.
Proof.
  split; [|reflexivity]. intros d Fd H.
  assert (E : forall m, c_log perfect_libm m d = Rflt m (ln (B2R d))) by (intro m; destruct d as [s|[|]| |s mm e B]; try discriminate; reflexivity).
  rewrite !E, flt_le_R_x, R_le_flt_x, !Rflt_x. split; [apply xround_DN_le | apply xround_UP_ge].
Qed.
Lemma perfect_pow n : (Z.of_nat n <= 2 ^ 53)%Z -> pow_directed perfect_libm n.
Proof.
  intros Hn w d Hw Fd Hd.
  assert (W : B2R w = INR n).
  { destruct (to_double_exact (PInt (Z.of_nat n))) as (f & Hf & Xf); [simpl; lia|]. simpl in Hf. rewrite Hw in Hf.
    inversion Hf; subst f. cbn [xval] in Xf. apply xfin_flt in Xf. rewrite INR_IZR_INZ. tauto. }
  simpl c_pow. rewrite W, Rpower_pow by assumption.
  split; intros r; match goal with |- context [if ?b then _ else _] => destruct b end; try discriminate; intros H; apply Ok_inj in H; subst r.
  - rewrite flt_le_R_x, Rflt_x. apply xround_DN_le.
  - rewrite R_le_flt_x, Rflt_x. apply xround_UP_ge.
Qed.
