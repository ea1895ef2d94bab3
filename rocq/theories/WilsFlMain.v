(** WILS.fit in binary64: weights, signs of the reported value, predictions. *)
From Coq Require Import ZArith Reals List Bool Arith Lia Lra.
From Flocq Require Import Core IEEE754.BinarySingleNaN.
From Flocq.Prop Require Import Mult_error.
From Verif Require Models.
From Verif Require Import Base PyNum Kernel Spec Expr Arrays Construct SpecArray XReal XArith KernelProofs KernelMore KernelAlg ExprProofs ArrayProofs ArrayMore ArrayMat ConstructProofs KaucherProofs
  RecogFl SpecRecogFl RecogFlProofs RecogFlCor HbrFl HbrFlProofs RohnFl GSProofs UssFl SpecUssFl UssFlProofs Ralgb5 RalgbProofs RalgbMore ConstrainedProofs RecogOpt SpecRecogOpt RecogOptProofs RecogOptMargin RecogOptSign RecogOptRun RecogOptTotal RecogOptFinal RecogOptAccuracy
  RecogOptCon SpecRecogOptCon RecogOptConProofs Witness WilsFl SpecWilsFl WilsFlProofs.
Import ListNotations.
Open Scope R_scope.

(** ** Small weights *)
Lemma pow_dbl k : (-1074 <= k <= 1023)%Z -> is_dbl (XFin (bpow radix2 k)).
Proof. intros [K1 K2]. apply generic_dbl; [apply generic_format_bpow; unfold SpecFloat.fexp, SpecFloat.emin; lia | rewrite Rabs_pos_eq by apply bpow_ge_0; apply bpow_lt; lia]. Qed.
(** A weight of at least 2^-500 cannot hide a shortfall of more than 2^-574. *)
Lemma weak_weight wi ti d z : small_num wi -> finite_num wi -> bpow radix2 (-500) <= num_val wi -> returns (mul_ wi (PFlt d)) mode_NE ti ->
  num_le (PInt 0) ti = true -> xflt d = xround mode_NE z -> - bpow radix2 (-574) <= rnd mode_NE z.
Proof.
  intros S F W RT L XD. rewrite num_le_x, (con_x wi ti d S F RT), XD in L. change (xval (PInt 0)) with (XFin 0) in L.
  assert (P5 := bpow_gt_0 radix2 (-500)). assert (P57 := bpow_gt_0 radix2 (-574)). unfold xround in L.
  destruct (Rlt_bool_spec (Rabs (rnd mode_NE z)) (bpow radix2 1024)) as [B|B].
  - apply Rnot_lt_le. intro N. cbn [xmul] in L.
    assert (E : bpow radix2 (-1074) = bpow radix2 (-500) * bpow radix2 (-574)) by (rewrite <- bpow_plus; reflexivity).
    assert (Q := xround_le_dbl mode_NE (num_val wi * rnd mode_NE z) (- bpow radix2 (-1074)) (is_dbl_opp _ (pow_dbl (-1074) ltac:(lia))) ltac:(rewrite E; nra)).
    assert (Q2 := xleb_trans _ _ _ L Q). apply xleb_fin in Q2. assert (0 < bpow radix2 (-1074)) by apply bpow_gt_0. lra.
  - destruct (Rlt_bool_spec z 0) as [N|N].
    + exfalso. cbn in L. unfold xinf_times in L. destruct (Rcompare_spec (num_val wi) 0); try lra; discriminate.
    + assert (0 <= rnd mode_NE z) by now apply rnd_nn. lra.
Qed.

(** ** Signs *)
Section Meaning.
Variables (fdot : list (flt * flt) -> flt) (g h : R) (r n : nat) (A b : aitv) (w : arr pynum) (x : list flt).
Hypothesis HD : dot_within fdot n g h.
Hypothesis Hg : 0 <= g <= 1.
Hypothesis Hh : 0 <= h <= 1.
Hypothesis Hn : (Z.of_nat n <= 2 ^ 100)%Z.
Hypothesis SY : system r n A b (point x).
Hypothesis MO : moderate A b (point x).
Hypothesis Hw : weights_from (bpow radix2 (-500)) r w.
Notation margin := (uss_margin g h n A b (point x)).
Theorem tol_small_nn T : returns (tol_calc fdot A b (point x) w) mode_NE T -> all_nn T ->
  forall P, in_matrix A P -> in_rhs_by b (fun i => 2 * margin i + bpow radix2 (-535)) (row_value n P (point x)).
Proof.
  intros H NN. destruct (tol_rows fdot g h r n A b (point x) w HD Hg Hh Hn SY MO (proj1 (proj2 Hw)) T H) as (ST & WT & R0 & PR). apply (every_matrix r n A b (point x) SY MO). intros i Hi.
  destruct (PR i Hi) as (wi & ti & d & fq & fm & c & C & G & q & m & H1 & H2 & H3 & H4 & H5 & H6 & H7 & H8). destruct (weight_of r w _ i wi Hw H1) as (S1 & F1 & W1).
  assert (XD : xflt d = xround mode_NE (q - m)) by (rewrite H4, fsub_x, H5, H6; reflexivity).
  assert (L := weak_weight wi ti d _ S1 F1 W1 H3 (NN ti (aget_in _ _ _ H2)) XD).
  assert (Q := row_tol_acc g h r n A b (point x) i Hg Hh SY MO Hi c C G q m H8 H7). apply Rabs_def2 in Q.
  assert (bpow radix2 (-574) <= bpow radix2 (-535)) by (apply bpow_le; lia). lra.
Qed.
Theorem uni_small_nn T : returns (uni_calc fdot A b (point x) w) mode_NE T -> all_nn T ->
  exists P, in_matrix A P /\ in_rhs_by b (fun i => 2 * margin i + bpow radix2 (-535)) (row_value n P (point x)).
Proof.
  intros H NN. destruct (uni_rows fdot g h r n A b (point x) w HD Hg Hh Hn SY MO (proj1 (proj2 Hw)) T H) as (ST & WT & R0 & PR).
  assert (B1 : bpow radix2 (-574) <= bpow radix2 (-536)) by (apply bpow_le; lia).
  assert (B2 : bpow radix2 (-535) = 2 * bpow radix2 (-536)) by (change (-535)%Z with (1 + -536)%Z; rewrite bpow_plus; reflexivity). assert (B0 := bpow_gt_0 radix2 (-574)).
  apply (some_matrix r n A b (point x) SY MO); intros i Hi; cbv beta;
    destruct (PR i Hi) as (wi & ti & d & fq & fm & c & C & G & q & m & H1 & H2 & H3 & H4 & H5 & H6 & H7 & H8); destruct (weight_of r w _ i wi Hw H1) as (S1 & F1 & W1);
    assert (XD : xflt d = xround mode_NE (q - m)) by (rewrite H4, fsub_x, H5, H6; reflexivity);
    assert (L := weak_weight wi ti d _ S1 F1 W1 H3 (NN ti (aget_in _ _ _ H2)) XD);
    destruct (row_uni_acc g h r n A b (point x) i Hg Hh SY MO Hi c C G q m H8 H7) as (U1 & U2 & _); lra.
Qed.
Theorem uss_small_nn T : returns (uss_calc fdot A b (point x) w) mode_NE T -> all_nn T ->
  exists P, in_matrix A P /\ in_rhs_by b (fun i => 2 * margin i + bpow radix2 (-535)) (row_value n P (point x)).
Proof.
  intros H NN. destruct (uss_rows fdot g h r n A b (point x) HD Hg Hh Hn SY MO w T (proj1 (proj2 Hw)) H) as (ST & WT & R0 & PR).
  assert (B1 : bpow radix2 (-574) <= bpow radix2 (-535)) by (apply bpow_le; lia). assert (B0 := bpow_gt_0 radix2 (-574)).
  apply (some_matrix r n A b (point x) SY MO); intros i Hi; cbv beta;
    destruct (PR i Hi) as (wi & ti & d & p & z & H1 & H2 & H3 & H4 & _ & _ & H7); destruct (weight_of r w _ i wi Hw H1) as (S1 & F1 & W1);
    assert (L := weak_weight wi ti d (rnd mode_NE p - Rabs (rnd mode_NE z)) S1 F1 W1 H3 (NN ti (aget_in _ _ _ H2)) H4);
    assert (Q := row_uss_acc g h r n A b (point x) i p z Hg Hh SY MO Hi H7);
    assert (K := Rabs_pos (rnd mode_NE (rnd mode_NE p - Rabs (rnd mode_NE z)) - (rad_at b [i] + sum_rad n A (point x) i - Rabs (mid_at b [i] - sum_mid n A (point x) i)))).
  - destruct (rads_nn r n A b (point x) i SY MO Hi) as (RB & _ & _). lra.
  - apply Rabs_def2 in Q. lra.
Qed.
Theorem uss_small_neg T : returns (uss_calc fdot A b (point x) w) mode_NE T -> some_neg T ->
  forall P, in_matrix A P -> ~ in_rhs_by b (fun i => - (2 * margin i)) (row_value n P (point x)).
Proof.
  intros H NN. destruct (uss_rows fdot g h r n A b (point x) HD Hg Hh Hn SY MO w T (proj1 (proj2 Hw)) H) as (ST & WT & R0 & PR).
  assert (NR : exists i v, (i < r)%nat /\ aget T [i] = Some v /\ num_lt v (PInt 0) = true) by (eapply neg_row; eassumption). destruct NR as (i & v & Hi & Hv & L).
  destruct (PR i Hi) as (wi & ti & d & p & z & H1 & H2 & H3 & H4 & _ & _ & H7). assert (ti = v) by congruence. subst v. destruct (weight_of r w _ i wi Hw H1) as (S1 & F1 & W1).
  apply (no_matrix r n A b (point x) SY MO (fun i => 2 * margin i) i Hi). left. cbv beta.
  assert (Q := row_uss_acc g h r n A b (point x) i p z Hg Hh SY MO Hi H7). apply Rabs_def2 in Q.
  assert (LT : rnd mode_NE (rnd mode_NE p - Rabs (rnd mode_NE z)) < 0); [|lra].
  apply Rnot_le_lt. intro Z. assert (P5 := bpow_gt_0 radix2 (-500)). rewrite num_lt_x, (con_x wi ti d S1 F1 H3), H4 in L. change (xval (PInt 0)) with (XFin 0) in L.
  unfold xsub in L. cbn [xopp xadd] in L. change (rnd mode_NE p + - Rabs (rnd mode_NE z)) with (rnd mode_NE p - Rabs (rnd mode_NE z)) in L.
  set (y := rnd mode_NE p - Rabs (rnd mode_NE z)) in *. unfold xround in L. destruct (Rlt_bool (Rabs (rnd mode_NE y)) (bpow radix2 1024)) eqn:B.
  - cbn [xmul] in L. assert (K := xround_nn mode_NE (num_val wi * rnd mode_NE y) ltac:(apply Rmult_le_pos; lra)). destruct (xround mode_NE _); try discriminate. apply xleb_fin in K. apply xltb_fin in L. lra.
  - destruct (Rlt_bool_spec y 0) as [N|N].
    + assert (rnd mode_NE y <= 0) by (rewrite <- (round_0 radix2 fexp (round_mode mode_NE)); apply round_le; auto with typeclass_instances; lra).
      assert (E : rnd mode_NE y = 0) by lra. rewrite E, Rabs_R0 in B. rewrite (Rlt_bool_true 0 (bpow radix2 1024)) in B by apply bpow_gt_0. discriminate.
    + cbn in L. unfold xinf_times in L. destruct (Rcompare_spec (num_val wi) 0); try lra; discriminate.
Qed.
End Meaning.

(** ** The smoothed weights *)
Lemma xfin_flt (f : flt) a : xflt f = XFin a -> is_finite f = true /\ B2R f = a.
Proof. destruct f as [s|[|]| |s m e H]; simpl; intro E; inversion E; auto. Qed.
Lemma one_val : B2R f1 = 1.
Proof. unfold f1. rewrite (B2R_sf _ false 4503599627370496 (-52)) by (vm_compute; reflexivity). feval. lra. Qed.
Lemma round_in (f : flt) z a b : xflt f = xround mode_NE z -> is_dbl (XFin a) -> is_dbl (XFin b) -> a <= z <= b -> is_finite f = true /\ a <= B2R f <= b.
Proof.
  intros E Da Db [H1 H2]. assert (Q1 := xround_ge_dbl mode_NE z a Da H1). assert (Q2 := xround_le_dbl mode_NE z b Db H2). rewrite <- E in Q1, Q2.
  destruct (xflt f) as [| | |v] eqn:X; try discriminate. destruct (xfin_flt _ _ X) as [F V]. split; [exact F|]. rewrite V. apply xleb_fin in Q1, Q2. lra.
Qed.
Lemma fin_x f : is_finite f = true -> xflt f = XFin (B2R f). Proof. apply is_finite_x. Qed.
Lemma mul_in (f p : flt) a b : is_finite f = true -> is_finite p = true -> is_dbl (XFin a) -> is_dbl (XFin b) -> a <= B2R f * B2R p <= b ->
  is_finite (fmul mode_NE f p) = true /\ a <= B2R (fmul mode_NE f p) <= b.
Proof. intros Ff Fp Da Db H. apply (round_in _ (B2R f * B2R p)); auto. rewrite fmul_x, (fin_x f Ff), (fin_x p Fp). reflexivity. Qed.
Lemma add_in (f p : flt) a b : is_finite f = true -> is_finite p = true -> is_dbl (XFin a) -> is_dbl (XFin b) -> a <= B2R f + B2R p <= b ->
  is_finite (fadd mode_NE f p) = true /\ a <= B2R (fadd mode_NE f p) <= b.
Proof. intros Ff Fp Da Db H. apply (round_in _ (B2R f + B2R p)); auto. rewrite fadd_x, (fin_x f Ff), (fin_x p Fp). reflexivity. Qed.
Lemma below_one (a : flt) : is_finite a = true -> B2R a < 1 -> B2R a <= 1 - bpow radix2 (-53).
Proof.
  intros F L. destruct (dbl_gen _ (fin_dbl a F)) as [G _].
  assert (E : pred radix2 fexp (bpow radix2 0) = 1 - bpow radix2 (-53)) by (rewrite pred_bpow; reflexivity).
  rewrite <- E. apply pred_ge_gt; auto with typeclass_instances. apply generic_format_bpow. unfold SpecFloat.fexp, SpecFloat.emin. lia.
Qed.
(** The complement of alpha. *)
Lemma complement (a : flt) : is_finite a = true -> 0 <= B2R a < 1 ->
  is_finite (fsub mode_NE f1 a) = true /\ bpow radix2 (-53) <= B2R (fsub mode_NE f1 a) <= 1 /\ B2R (fsub mode_NE f1 a) + B2R a <= 1 + bpow radix2 (-54).
Proof.
  intros F [A0 A1]. assert (A2 := below_one a F A1). assert (P53 := bpow_gt_0 radix2 (-53)). assert (P54 := bpow_gt_0 radix2 (-54)).
  assert (X : xflt (fsub mode_NE f1 a) = xround mode_NE (1 - B2R a)).
  { rewrite fsub_x, (fin_x a F). replace (xflt f1) with (XFin 1). reflexivity. symmetry. apply (eq_trans (fin_x f1 eq_refl)). f_equal. apply one_val. }
  destruct (round_in _ _ (bpow radix2 (-53)) (bpow radix2 0) X (pow_dbl (-53) ltac:(lia)) (pow_dbl (0) ltac:(lia))) as [F2 B2]; [change (bpow radix2 0) with 1; lra|].
  change (bpow radix2 0) with 1 in B2. split; [exact F2|]. split; [exact B2|].
  destruct (Req_dec (B2R a) 0) as [Z|Z]; [lra|].
  assert (V : B2R (fsub mode_NE f1 a) = rnd mode_NE (1 - B2R a)).
  { rewrite (fin_x _ F2) in X. now apply fin_eq in X. }
  rewrite V. assert (E := error_le_half_ulp radix2 fexp (fun x => negb (Z.even x)) (1 - B2R a)).
  assert (U : ulp radix2 fexp (1 - B2R a) <= bpow radix2 (-53)).
  { rewrite ulp_neq_0 by lra. apply bpow_le. unfold cexp, SpecFloat.fexp, SpecFloat.emin.
    assert (MG : (Raux.mag radix2 (1 - B2R a) <= 0)%Z) by (apply mag_le_bpow; [lra|]; change (bpow radix2 0) with 1; rewrite Rabs_pos_eq by lra; lra). lia. }
  change (round radix2 fexp (Znearest (fun x => negb (Z.even x))) (1 - B2R a)) with (rnd mode_NE (1 - B2R a)) in E.
  assert (E53 : bpow radix2 (-53) = 2 * bpow radix2 (-54)) by (change (-53)%Z with (1 + -54)%Z; rewrite bpow_plus; reflexivity).
  apply Rabs_le_inv in E. lra.
Qed.
Lemma scaled_dbl r : is_dbl (XFin r) -> Rabs r <= 1 -> is_dbl (XFin (r * bpow radix2 300)).
Proof.
  intros D B. destruct (dbl_gen r D) as [G _]. apply generic_dbl.
  - exact (mult_bpow_pos_exact_FLT radix2 (-1074) 53 r 300 G ltac:(lia)).
  - rewrite Rabs_mult, (Rabs_pos_eq (bpow radix2 300)) by apply bpow_ge_0. assert (bpow radix2 300 < bpow radix2 1024) by (apply bpow_lt; lia). assert (P := bpow_gt_0 radix2 300). assert (Q := Rabs_pos r). nra.
Qed.
Lemma nearly_pow z : z <= bpow radix2 300 * (1 + bpow radix2 (-54)) -> rnd mode_NE z <= bpow radix2 300.
Proof.
  intro H. apply round_N_le_midp; auto with typeclass_instances; [apply generic_format_bpow; unfold SpecFloat.fexp, SpecFloat.emin; lia|].
  rewrite succ_eq_pos by apply bpow_ge_0. rewrite ulp_bpow. change (SpecFloat.fexp 53 1024 (300 + 1)) with 248%Z.
  assert (E : bpow radix2 248 = bpow radix2 300 * bpow radix2 (-52)) by (rewrite <- bpow_plus; reflexivity). rewrite E.
  assert (E2 : bpow radix2 (-52) = 4 * bpow radix2 (-54)) by (change (-52)%Z with (2 + -54)%Z; rewrite bpow_plus; reflexivity). rewrite E2.
  assert (P := bpow_gt_0 radix2 300). assert (Q := bpow_gt_0 radix2 (-54)). assert (0 < bpow radix2 300 * bpow radix2 (-54)) by nra. lra.
Qed.
Section Smooth.
Variables (alpha beta : flt).
Hypothesis Fa : is_finite alpha = true.
Hypothesis Ra : 0 <= B2R alpha < 1.
Hypothesis Fb : is_finite beta = true.
Hypothesis Rb : bpow radix2 (-100) <= B2R beta <= 1.
Notation lo_w := (bpow radix2 (-453)). Notation hi_w := (bpow radix2 300).
Lemma shrunk w : is_finite w = true -> bpow radix2 (-300) <= B2R w <= hi_w ->
  let p := fmul mode_NE w (fsub mode_NE f1 alpha) in is_finite p = true /\ bpow radix2 (-353) <= B2R p <= B2R (fsub mode_NE f1 alpha) * hi_w.
Proof.
  intros Fw Hw p. destruct (complement alpha Fa Ra) as (F1 & B1 & _). set (c := fsub mode_NE f1 alpha) in *.
  assert (E : bpow radix2 (-353) = bpow radix2 (-300) * bpow radix2 (-53)) by (rewrite <- bpow_plus; reflexivity).
  assert (P1 := bpow_gt_0 radix2 (-300)). assert (P2 := bpow_gt_0 radix2 (-53)). assert (P3 := bpow_gt_0 radix2 300).
  apply mul_in; auto; [apply pow_dbl; lia | apply scaled_dbl; [now apply fin_dbl | rewrite Rabs_pos_eq by lra; lra]|].
  rewrite E. split; [apply Rmult_le_compat; lra|]. rewrite (Rmult_comm (B2R c)). apply Rmult_le_compat_r; lra.
Qed.
Lemma times_beta s : is_finite s = true -> bpow radix2 (-353) <= B2R s <= hi_w -> is_finite (fmul mode_NE beta s) = true /\ lo_w <= B2R (fmul mode_NE beta s) <= hi_w.
Proof.
  intros Fs Hs. assert (E : lo_w = bpow radix2 (-100) * bpow radix2 (-353)) by (rewrite <- bpow_plus; reflexivity).
  assert (P1 := bpow_gt_0 radix2 (-100)). assert (P2 := bpow_gt_0 radix2 (-353)). assert (P3 := bpow_gt_0 radix2 300).
  apply mul_in; auto; try (apply pow_dbl; lia). rewrite E. split; [apply Rmult_le_compat; lra | nra].
Qed.
Lemma step_in prev w : is_finite prev = true -> lo_w <= B2R prev <= hi_w -> is_finite w = true -> bpow radix2 (-300) <= B2R w <= hi_w ->
  is_finite (smooth_step alpha beta prev w) = true /\ lo_w <= B2R (smooth_step alpha beta prev w) <= hi_w.
Proof.
  intros Fp Hp Fw Hw. unfold smooth_step. destruct (shrunk w Fw Hw) as (F1 & B1). destruct (complement alpha Fa Ra) as (F0 & B0 & CA). set (c := fsub mode_NE f1 alpha) in *. set (s := fmul mode_NE w c) in *.
  assert (P1 := bpow_gt_0 radix2 (-453)). assert (P2 := bpow_gt_0 radix2 (-353)). assert (P3 := bpow_gt_0 radix2 300).
  destruct (mul_in alpha prev 0 (B2R alpha * hi_w) Fa Fp zero_dbl (scaled_dbl _ (fin_dbl alpha Fa) ltac:(rewrite Rabs_pos_eq by lra; lra))) as (F2 & B2); [split; [apply Rmult_le_pos; lra | apply Rmult_le_compat_l; lra]|].
  set (q := fmul mode_NE alpha prev) in *.
  assert (ADD : is_finite (fadd mode_NE s q) = true /\ bpow radix2 (-353) <= B2R (fadd mode_NE s q) <= hi_w); [|destruct ADD; now apply times_beta].
  assert (X : xflt (fadd mode_NE s q) = xround mode_NE (B2R s + B2R q)) by (rewrite fadd_x, (fin_x s F1), (fin_x q F2); reflexivity).
  assert (SUM : B2R s + B2R q <= hi_w * (1 + bpow radix2 (-54))) by nra.
  assert (D : is_dbl (XFin (bpow radix2 301))) by (apply pow_dbl; lia).
  assert (E301 : bpow radix2 301 = 2 * hi_w) by (change 301%Z with (1 + 300)%Z; rewrite bpow_plus; reflexivity).
  assert (S54 : bpow radix2 (-54) <= 1) by (change 1 with (bpow radix2 0); apply bpow_le; lia).
  destruct (round_in _ _ (bpow radix2 (-353)) (bpow radix2 301) X (pow_dbl (-353) ltac:(lia)) D) as (F3 & B3); [split; [lra | nra]|].
  split; [exact F3|]. split; [lra|]. rewrite (fin_x _ F3) in X. apply fin_eq in X. rewrite X. now apply nearly_pow.
Qed.
Lemma rest_in l : forall prev, is_finite prev = true -> lo_w <= B2R prev <= hi_w -> between (bpow radix2 (-300)) hi_w l ->
  between lo_w hi_w (smooth_rest alpha beta prev l) /\ length (smooth_rest alpha beta prev l) = length l.
Proof.
  induction l as [|w l IH]; intros prev Fp Hp B; [split; [constructor | reflexivity]|]. inversion B as [|? ? [Fw Hw] B']; subst. cbn [smooth_rest length].
  destruct (step_in prev w Fp Hp Fw Hw) as [F1 B1]. destruct (IH _ F1 B1 B') as [H1 H2]. split; [constructor; [split; assumption | exact H1] | now rewrite H2].
Qed.
Lemma smooth_in weight : weight <> [] -> between (bpow radix2 (-300)) hi_w weight ->
  exists w, smooth_fl alpha beta weight = Ok w /\ length w = length weight /\ between lo_w hi_w w.
Proof.
  intros N B. destruct weight as [|w l]; [congruence|]. inversion B as [|? ? [Fw Hw] B']; subst. cbn [smooth_fl].
  destruct (complement alpha Fa Ra) as (F1 & B1 & _). set (c := fsub mode_NE f1 alpha) in *.
  assert (P1 := bpow_gt_0 radix2 (-100)). assert (P2 := bpow_gt_0 radix2 (-300)). assert (P3 := bpow_gt_0 radix2 300). assert (P4 := bpow_gt_0 radix2 (-53)).
  assert (E : bpow radix2 (-400) = bpow radix2 (-100) * bpow radix2 (-300)) by (rewrite <- bpow_plus; reflexivity).
  assert (E2 : lo_w = bpow radix2 (-400) * bpow radix2 (-53)) by (rewrite <- bpow_plus; reflexivity). assert (P5 := bpow_gt_0 radix2 (-400)).
  destruct (mul_in beta w (bpow radix2 (-400)) hi_w Fb Fw (pow_dbl (-400) ltac:(lia)) (pow_dbl (300) ltac:(lia))) as [F2 B2]; [rewrite E; split; [apply Rmult_le_compat; lra | nra]|].
  destruct (mul_in (fmul mode_NE beta w) c lo_w hi_w F2 F1 (pow_dbl (-453) ltac:(lia)) (pow_dbl (300) ltac:(lia))) as [F3 B3]; [rewrite E2; split; [apply Rmult_le_compat; lra | nra]|].
  destruct (rest_in l _ F3 B3 B') as [H1 H2]. eexists. split; [reflexivity|]. split; [cbn [length]; now rewrite H2|]. constructor; [split; assumption | exact H1].
Qed.
End Smooth.
