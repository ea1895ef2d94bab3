(** Counterexamples for the elementary functions outside the ranges for which
    enclosure is proved. *)
From Coq Require Import ZArith Reals List Bool Lia Lra Psatz Machin Ratan.
From Coq Require Import Floats.SpecFloat.
From Flocq Require Import Core IEEE754.BinarySingleNaN.
From Verif Require Import Base PyNum Kernel Spec SpecElem XReal XArith KernelProofs ExprProofs KernelMore Witness ElemProofs TrigProofs.
Open Scope R_scope.

(** exp([0, 1000]): the overflow handler returns [inf, inf]. *)
Lemma exp_overflow_refuted L : exp_faithful L ->
  forall m, c_exp L m (fl 1000 0) = finf ->
  exists Z, returns (itv_exp L (mkitv Classical (PInt 0) (PInt 1000))) m Z /\
    member (mkitv Classical (PInt 0) (PInt 1000)) 0 /\ ~ member Z (exp 0).
Proof.
  intros [HE _] m H. exists (mkitv Classical (PFlt finf) (PFlt finf)). split; [|split].
  - unfold returns, outcome, itv_exp. cbn [lo hi].
    assert (D0 : exists f, to_double (PInt 0) = Ok f /\ B2SF f = B2SF f0).
    { eexists. split; [reflexivity|]. vm_compute. reflexivity. }
    destruct D0 as (d0 & D0 & V0). apply B2SF_inj in V0. subst d0.
    assert (D1 : exists f, to_double (PInt 1000) = Ok f /\ B2SF f = B2SF (fl 1000 0)).
    { eexists. split; [reflexivity|]. vm_compute. reflexivity. }
    destruct D1 as (d1 & D1 & V1). apply B2SF_inj in V1. subst d1.
    assert (F0 : is_finite (c_exp L m f0) = true).
    { apply (HE m f0); [reflexivity|]. change (B2R f0) with 0. rewrite exp_0. change max_double with fmaxR. exact fmax_ge1. }
    rewrite (bind_ok _ _ _ _ _ (math_exp_fin L m (PInt 0) f0 D0 F0)).
    assert (E : math_exp L (PInt 1000) m = (Err OverflowError, m)).
    { unfold math_exp. erewrite bind_ok; [|unfold mlift; rewrite D1; reflexivity]. unfold mprim. rewrite H. reflexivity. }
    unfold mbind at 1. rewrite E. reflexivity.
  - split; simpl; lra.
  - intros [C _]. simpl in C. discriminate.
Qed.

(** ** sin of a huge argument *)
Definition big_a : flt := fl 6524543200830959 (-10).
Definition big_b : flt := fl 6524543200830960 (-10).
Definition bigX : itv := mkitv Classical (PFlt big_a) (PFlt big_b).
Definition big_top : R := PI / 2 + 2 * IZR 1014075490067 * PI.

Lemma PI_sharp : 3.1415926535897932384 <= PI <= 3.1415926535897932395.
Proof.
  assert (H := PI_2_3_7_ineq 9).
  change (S (2 * 9))%nat with 19%nat in H. change (2 * 9)%nat with 18%nat in H.
  cbn [sum_f_R0] in H. rewrite !Machin_term in H.
  cbn [Z.of_nat Nat.mul Nat.add Pos.of_succ_nat Pos.succ] in H.
  cbn [pow] in H. lra.
Qed.
Lemma big_a_val : is_finite big_a = true /\ B2R big_a = 6524543200830959 / 1024.
Proof. split; [vm_compute; reflexivity|]. rewrite (B2R_sf _ false 6524543200830959 (-10)) by (vm_compute; reflexivity). feval. lra. Qed.
Lemma big_b_val : is_finite big_b = true /\ B2R big_b = 6524543200830960 / 1024.
Proof. split; [vm_compute; reflexivity|]. rewrite (B2R_sf _ false 6524543200830960 (-10)) by (vm_compute; reflexivity). feval. lra. Qed.
Lemma big_dist : 1 / 4096 <= big_top - B2R big_a <= 1 /\ 1 / 4096 <= B2R big_b - big_top <= 1.
Proof. rewrite (proj2 big_a_val), (proj2 big_b_val). unfold big_top. assert (P := PI_sharp). lra. Qed.

Lemma sin_half_lower z : 0 <= z <= 1 -> z / 2 <= sin z.
Proof.
  intros Hz. assert (B := PI_bounds). assert (C := PIr_range). assert (S := sin_bound z 0).
  destruct S as [S _]; [lra|lra|]. unfold sin_approx, sin_term in S. simpl in S. nra.
Qed.
Lemma cos_away y : 1 / 4096 <= Rabs y <= 1 -> cos y <= 1 - 1 / 1000000000.
Proof.
  intro H. assert (E : cos y = cos (Rabs y)) by (unfold Rabs; destruct Rcase_abs; [now rewrite cos_neg | reflexivity]).
  rewrite E. set (z := Rabs y) in *. replace z with (2 * (z / 2)) by field. rewrite cos_2a_sin.
  assert (S := sin_half_lower (z / 2)). nra.
Qed.
Lemma sin_big x : sin x = cos (x - big_top).
Proof.
  unfold big_top. replace (x - (PI / 2 + 2 * IZR 1014075490067 * PI)) with ((x - PI / 2) + 2 * IZR (-1014075490067) * PI).
  2:{ change (-1014075490067)%Z with (- (1014075490067))%Z. rewrite opp_IZR. ring. }
  assert (P := cos_periodZ (x - PI / 2) 1014075490067).
  replace ((x - PI / 2) + 2 * IZR (-1014075490067) * PI) with (x - PI / 2 - 2 * IZR 1014075490067 * PI).
  2:{ change (-1014075490067)%Z with (- (1014075490067))%Z. rewrite opp_IZR. ring. }
  rewrite P. rewrite <- cos_neg. replace (- (x - PI / 2)) with (PI / 2 - x) by ring. now rewrite cos_shift.
Qed.

Lemma round_up_below1 r v : faithful r v -> v <= 1 - 1 / 1000000000 -> xltb (xflt (round_up r)) (XFin 1) = true.
Proof.
  intros (F & H) Hv. destruct p1_val as [Fp Vp].
  assert (L : B2R r < 1 - 1 / 9007199254740992).
  { destruct H as [[H _]|[_ H]]; [lra|].
    set (q := fl 9007199254740990 (-53)).
    assert (Fq : is_finite q = true) by (vm_compute; reflexivity).
    assert (Vq : B2R q = 9007199254740990 / 9007199254740992).
    { rewrite (B2R_sf _ false 9007199254740990 (-53)) by (vm_compute; reflexivity). feval. lra. }
    specialize (H q Fq). rewrite Vq in H. lra. }
  assert (OM := fmax_ge1). unfold round_up, nextafter.
  assert (N2 : is_nan fmaxfloat = false) by reflexivity.
  rewrite (fin_not_nan _ F), N2. cbn [orb]. rewrite flt_eqb_x, flt_ltb_x, xmaxpos, (xround_fin_of _ F).
  rewrite (proj2 (xltb_fin (B2R r) fmaxR)) by lra.
  assert (xeqb (XFin (B2R r)) (XFin fmaxR) = false) as ->.
  { apply not_true_is_false. intro C. apply xeqb_fin in C. lra. }
  destruct (Bsucc_fin r F) as [F1 _]; [lra|]. rewrite (xround_fin_of _ F1). apply xltb_fin.
  assert (S := Bsucc_correct 53 1024 _ _ r F).
  assert (Le : succ radix2 fexp (B2R r) <= B2R p1) by (apply succ_le_lt; auto using gen_B2R with typeclass_instances; lra).
  rewrite Rlt_bool_true in S; [destruct S as (-> & _)|]; [|generalize fmaxR_lt]; lra.
Qed.

Lemma sin_large_refuted L : sin_faithful L -> forall m,
  exists Z x, returns (itv_sin L bigX) m Z /\ member bigX x /\ ~ member Z (sin x).
Proof.
  intros HL m. destruct big_a_val as [Fa Va], big_b_val as [Fb Vb]. destruct big_dist as [Da Db].
  assert (Xa : xval (lo bigX) = XFin (B2R big_a)) by (exact (proj1 (is_finite_x _) Fa)).
  assert (Xb : xval (hi bigX) = XFin (B2R big_b)) by (exact (proj1 (is_finite_x _) Fb)).
  destruct (math_trig_run (c_sin L) sin (lo bigX) (B2R big_a) m HL I Xa) as (fi & Ri & Fi).
  destruct (math_trig_run (c_sin L) sin (hi bigX) (B2R big_b) m HL I Xb) as (fs & Rs & Fs).
  assert (T1 : extremum_test (add_ (lo bigX) (PFlt PI_half)) (add_ (hi bigX) (PFlt PI_half)) FE_DOWNWARD = (Ok false, FE_DOWNWARD)) by (vm_compute; reflexivity).
  assert (T2 : extremum_test (sub_ (lo bigX) (PFlt PI_half)) (sub_ (hi bigX) (PFlt PI_half)) FE_UPWARD = (Ok false, FE_UPWARD)) by (vm_compute; reflexivity).
  set (minv := flt_min2 fi fs). set (maxv := flt_max2 fi fs).
  exists (mkitv Classical (PFlt (round_down minv)) (PFlt (round_up maxv))), big_top.
  split; [|split].
  - unfold returns, outcome, itv_sin. change (pro bigX) with bigX.
    rewrite (bind_ok _ _ _ _ _ Ri), (bind_ok _ _ _ _ _ Rs). unfold trig_range.
    assert (num_le (lo bigX) (hi bigX) = true) as -> by (vm_compute; reflexivity).
    assert (W1 : forall t1, t1 FE_DOWNWARD = (Ok false, FE_DOWNWARD) -> with_rounding FE_DOWNWARD (t <- t1 ;; mret (if t then fneg f1 else round_down minv)) m = (Ok (round_down minv), m)).
    { intros t1 H. apply (with_rounding_ok _ _ m _ FE_DOWNWARD). rewrite (bind_ok _ _ _ _ _ H). reflexivity. }
    assert (W2 : forall t1, t1 FE_UPWARD = (Ok false, FE_UPWARD) -> with_rounding FE_UPWARD (t <- t1 ;; mret (if t then f1 else round_up maxv)) m = (Ok (round_up maxv), m)).
    { intros t1 H. apply (with_rounding_ok _ _ m _ FE_UPWARD). rewrite (bind_ok _ _ _ _ _ H). reflexivity. }
    fold minv maxv. rewrite (bind_ok _ _ _ _ _ (W1 _ T1)), (bind_ok _ _ _ _ _ (W2 _ T2)). reflexivity.
  - apply member_x. rewrite Xa, Xb. cbn [xle_R R_xle]. lra.
  - rewrite sin_big. replace (big_top - big_top) with 0 by ring. rewrite cos_0. intro M. apply member_x in M.
    destruct M as [_ M]. cbn [hi xval] in M.
    assert (C : xltb (xflt (round_up maxv)) (XFin 1) = true).
    { unfold maxv, flt_max2. destruct (flt_ltb fi fs); [apply (round_up_below1 _ _ Fs) | apply (round_up_below1 _ _ Fi)];
        rewrite sin_big; apply cos_away; unfold Rabs; destruct Rcase_abs; lra. }
    destruct (xflt (round_up maxv)) as [| | |r]; try contradiction; try discriminate.
    apply xltb_fin in C. simpl in M. lra.
Qed.

(** ** Packaged forms *)
From Verif Require Import PowProofs.
Lemma pow_int_all L n X m : kd X = Classical -> int_ends X ->
  exists Z, returns (itv_pow L X (PInt (Z.of_nat n))) m Z /\
    (forall x, member X x -> member Z (x ^ n)) /\
    ((0 < n)%nat -> (exists x, member X x) ->
       (exists x, member X x /\ num_val (lo Z) = x ^ n) /\ (exists x, member X x /\ num_val (hi Z) = x ^ n)).
Proof.
  intros kX HI. destruct (pow_int_returns L n X m kX HI) as [Z HZ]. exists Z. split; [exact HZ|].
  split; [exact (pow_encl_gen L n X m Z kX (or_intror HI) (or_intror (or_intror HI)) HZ)|].
  intros Hn Hx. exact (proj2 (pow_int_exact L n X m Z kX HI Hn Hx HZ)).
Qed.
Lemma pow_encl_dbl L n X m Z : kd X = Classical -> pow_directed L n ->
  (Nat.even n = true \/ nonneg_itv X) ->
  returns (itv_pow L X (PInt (Z.of_nat n))) m Z ->
  forall x, member X x -> member Z (x ^ n).
Proof.
  intros kX HL Hs HZ. apply (pow_encl_gen L n X m Z kX (or_introl HL)); [|exact HZ]. tauto.
Qed.
Lemma pow_odd_refuted_x : exists X, kd X = Classical /\ proper_fin X /\ small_itv X /\
  forall L, pow_directed L 3 ->
  (forall d w : flt, 1 <= B2R d <= 2 -> B2R w = 3 -> exists r, c_pow L FE_DOWNWARD d w = Ok r /\ is_finite r = true) ->
  forall m Z, returns (itv_pow L X (PInt 3)) m Z -> exists x, member X x /\ ~ member Z (x ^ 3).
Proof.
  exists (mkitv Classical (PFlt e52) (PFlt e52)). destruct e52_val as [Fe Ve].
  split; [reflexivity|]. split; [split; [split; exact Fe | right; reflexivity]|]. split; [split; exact I|].
  intros L HL HF m Z HZ. exists (- b52).
  assert (Va : B2R (fabs e52) = b52). { unfold fabs. rewrite B2R_Babs, Ve, Rabs_Ropp, Rabs_pos_eq; unfold b52; lra. }
  refine (pow_odd_refuted L HL (HF _ _ _ _) m Z HZ).
  - rewrite Va. unfold b52. lra.
  - rewrite (B2R_sf _ false 6755399441055744 (-51)) by (vm_compute; reflexivity). feval. lra.
Qed.
Lemma exp_overflow_x L : exp_faithful L -> forall m, c_exp L m (fl 1000 0) = finf ->
  exists X Z x, small_itv X /\ proper_fin X /\ returns (itv_exp L X) m Z /\ member X x /\ ~ member Z (exp x).
Proof.
  intros HL m H. destruct (exp_overflow_refuted L HL m H) as (Z & HZ & M & C).
  exists (mkitv Classical (PInt 0) (PInt 1000)), Z, 0. split; [split; simpl; lia|].
  split; [split; [split; exact I | simpl; lra]|]. auto.
Qed.
Lemma sin_large_x : exists X, kd X = Classical /\ small_itv X /\ proper_fin X /\
  Rabs (num_val (hi X)) <= bpow radix2 43 /\
  forall L, sin_faithful L -> forall m, exists Z x, returns (itv_sin L X) m Z /\ member X x /\ ~ member Z (sin x).
Proof.
  exists bigX. destruct big_a_val as [Fa Va], big_b_val as [Fb Vb].
  split; [reflexivity|]. split; [split; exact I|].
  split; [split; [split; assumption|]|].
  - change (B2R big_a <= B2R big_b). lra.
  - split; [|exact sin_large_refuted]. change (Rabs (B2R big_b) <= bpow radix2 43). rewrite Vb.
    change (bpow radix2 43) with 8796093022208. apply Rabs_le. lra.
Qed.
From Verif Require Import PerfectLibm.
Lemma nine_small : 9 <= max_double.
Proof.
  assert (A := abs_flt_le_max (fl 9 0)). rewrite (B2R_sf _ false 5066549580791808 (-49)) in A by (vm_compute; reflexivity).
  revert A. feval. intro A. apply Rle_trans with (2 := A). rewrite Rabs_pos_eq; lra.
Qed.
Lemma perfect_pow3_finite : forall d w : flt, 1 <= B2R d <= 2 -> B2R w = 3 ->
  exists r, c_pow perfect_libm FE_DOWNWARD d w = Ok r /\ is_finite r = true.
Proof.
  intros d w Hd Hw. exists (Rflt FE_DOWNWARD (Rpower (B2R d) (B2R w))).
  assert (F : is_finite (Rflt FE_DOWNWARD (Rpower (B2R d) (B2R w))) = true).
  { apply (Rflt_faithful FE_DOWNWARD). rewrite Hw. replace 3 with (INR 3) by (simpl; lra). rewrite Rpower_pow by lra.
    assert (N := nine_small). rewrite Rabs_pos_eq; [|apply pow_le; lra]. apply Rle_trans with (2 ^ 3); [apply pow_incr; lra | lra]. }
  split; [|exact F]. simpl c_pow. now rewrite F.
Qed.
Lemma exp_125_small : exp (5 / 4) <= max_double.
Proof.
  assert (E : exp (5 / 4) <= 9).
  { apply Rle_trans with (exp 1 * exp 1).
    - rewrite <- exp_plus. destruct (Req_dec (5/4) (1+1)); [lra|]. left. apply exp_increasing. lra.
    - assert (exp 1 <= 3) by exact exp_le_3. assert (0 < exp 1) by apply exp_pos. nra. }
  assert (N := nine_small). lra.
Qed.
Lemma exp_1000_big : bpow radix2 1024 <= exp 1000.
Proof.
  assert (E8 : 9 / 8 <= exp (1 / 8)). { apply Rle_trans with (1 + 1 / 8); [lra|]. left. apply exp_ineq1. lra. }
  assert (E2 : 2 <= exp (3 / 4)).
  { replace (3 / 4) with (1 / 8 + 1 / 8 + (1 / 8 + 1 / 8) + (1 / 8 + 1 / 8)) by lra. rewrite !exp_plus.
    set (e := exp (1 / 8)) in *. assert (Q : 81 / 64 <= e * e) by nra. set (q := e * e) in *. assert (6561 / 4096 <= q * q) by nra. nra. }
  apply Rle_trans with (exp 768); [|left; apply exp_increasing; lra].
  replace 768 with (INR 1024 * (3 / 4)) by (rewrite INR_IZR_INZ; change (Z.of_nat 1024) with 1024%Z; lra).
  assert (Hn : forall n, exp (INR n * (3 / 4)) = exp (3 / 4) ^ n).
  { induction n as [|n IH]; [simpl; rewrite Rmult_0_l; apply exp_0|].
    rewrite S_INR, Rmult_plus_distr_r, exp_plus, IH, Rmult_1_l. simpl. ring. }
  rewrite Hn. change 1024%Z with (Z.of_nat 1024). rewrite bpow_powerRZ, <- pow_powerRZ. apply pow_incr. simpl. lra.
Qed.
Lemma perfect_exp_1000 : c_exp perfect_libm FE_UPWARD (fl 1000 0) = finf.
Proof.
  assert (F : is_finite (fl 1000 0) = true) by (vm_compute; reflexivity).
  assert (E : c_exp perfect_libm FE_UPWARD (fl 1000 0) = Rflt FE_UPWARD (exp 1000)).
  { assert (V : B2R (fl 1000 0) = 1000).
    { rewrite (B2R_sf _ false 8796093022208000 (-43)) by (vm_compute; reflexivity). feval. lra. }
    rewrite <- V. destruct (fl 1000 0) as [s|s| |s m e B]; try discriminate; reflexivity. }
  rewrite E. unfold Rflt. assert (B := exp_1000_big).
  rewrite Rlt_bool_false.
  - rewrite Rlt_bool_false by (left; apply exp_pos). reflexivity.
  - unfold rnd. apply Rle_trans with (exp 1000); [exact B|]. apply Rle_trans with (2 := Rle_abs _). apply (round_UP_pt radix2 fexp).
Qed.
