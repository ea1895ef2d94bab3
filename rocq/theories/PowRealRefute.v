(** Powers with exponents that are not natural numbers: exceptions, the case
    1/2, and two ways in which the enclosure fails. *)
From Coq Require Import ZArith Reals List Bool Lia Lra Psatz.
From Coq Require Import Floats.SpecFloat.
From Flocq Require Import Core IEEE754.BinarySingleNaN.
From Verif Require Import Base PyNum Kernel Spec SpecElem SpecPow XReal XArith KernelProofs ExprProofs KernelMore Witness ElemProofs
  PerfectLibm ElemRefute PowRealProofs.
Import ListNotations.
Open Scope R_scope.

Lemma ge_zero X : finite_itv X -> py_ge X (ONum (PInt 0)) = true <-> 0 <= num_val (lo X) /\ 0 <= num_val (hi X).
Proof.
  intros [Fl Fh]. unfold py_ge, cmp_both, num_ge. rewrite andb_true_iff, !num_le_x.
  rewrite (proj1 (finite_num_x _) Fl), (proj1 (finite_num_x _) Fh). change (xval (PInt 0)) with (XFin 0).
  rewrite !xleb_fin. reflexivity.
Qed.
Lemma power_raises L X e m : finite_itv X -> not_natural e -> (num_val (lo X) < 0 \/ num_val (hi X) < 0) ->
  raises (itv_pow L X e) m ValueError.
Proof.
  intros F N H. unfold raises, outcome. rewrite pow_negative; [reflexivity | exact N|].
  apply not_true_is_false. intro C. apply ge_zero in C; [lra | exact F].
Qed.
Lemma power_half L X m : finite_itv X -> 0 <= num_val (lo X) -> 0 <= num_val (hi X) ->
  itv_pow L X (PFlt fhalf) m = itv_sqrt L X m.
Proof.
  intros F H1 H2. rewrite pow_general; [reflexivity | exact I|]. apply ge_zero; auto.
Qed.

(** ** [0, 1] ** 0.0 *)
Definition unitX : itv := mkitv Classical (PInt 0) (PInt 1).
Lemma nan_flt (f : flt) : xflt f = XNan -> f = B754_nan.
Proof. destruct f; simpl; try discriminate; auto. destruct s; discriminate. Qed.
Lemma down_nan : xflt (round_down B754_nan) = XNan.
Proof. reflexivity. Qed.
Lemma zero_power L m : log_directed L -> is_nan (c_exp L m fnan) = true ->
  exists Z, returns (itv_pow L unitX (PFlt f0)) m Z /\ nan_itv Z.
Proof.
  intros HL HN. unfold returns, outcome.
  assert (Pw : py_ge unitX (ONum (PInt 0)) = true) by (apply ge_zero; [split; exact I | simpl; lra]).
  rewrite (pow_general L unitX (PFlt f0) I Pw).
  assert (M1 : member unitX 1) by (apply member_x; simpl; lra).
  destruct (log_ends L unitX m 1 0 HL) as (i & u & HZ & Hlow & Hup & HD & HA); try (simpl; lra); auto.
  { split; simpl; lia. }
  destruct HA as [(C & _)|(_ & ->)]; [lra|].
  set (l := mkitv (kd unitX) (PFlt fninf) (PFlt u)) in *.
  destruct (rmul_gives l (PFlt f0) m) as (p & q & Hmul & Xp & Xq); [split; exact I | exact I | reflexivity|].
  change (xval (PFlt f0)) with (XFin 0) in Xp, Xq. cbn [lo hi l xval] in Xp, Xq. change (xflt fninf) with XNInf in Xp, Xq.
  assert (E0 : forall md, xmul md (XFin 0) XNInf = XNan).
  { intro md. cbn [xmul xinf_times]. rewrite (Rcompare_Eq 0 0 eq_refl). reflexivity. }
  rewrite E0, xmin2_nan_l in Xp. rewrite E0, xmax2_nan_l in Xq. apply nan_flt in Xp, Xq. subst p q.
  unfold general_pow. rewrite (bind_ok _ _ _ _ _ HZ), (bind_ok _ _ _ _ _ Hmul).
  unfold itv_exp. cbn [lo hi kd].
  assert (EX : math_exp L (PFlt B754_nan) m = (Ok (c_exp L m B754_nan), m)).
  { unfold math_exp. erewrite bind_ok; [|reflexivity]. unfold mprim. rewrite (HN : is_nan (c_exp L m B754_nan) = true). reflexivity. }
  rewrite (bind_ok _ _ _ _ _ EX), (bind_ok _ _ _ _ _ EX).
  assert (EN : c_exp L m B754_nan = B754_nan).
  { change fnan with (B754_nan : flt) in HN. destruct (c_exp L m B754_nan); try discriminate; reflexivity. }
  rewrite EN. eexists. split; [reflexivity|]. split; reflexivity.
Qed.

(** ** [1, 2^1000] ** 2.0 *)
Definition longX : itv := mkitv Classical (PInt 1) (PFlt (fl 1 1000)).
Definition two : flt := fl 2 0.
Lemma two_val : is_finite two = true /\ B2R two = 2.
Proof. split; [vm_compute; reflexivity|]. unfold two. rewrite (B2R_sf _ false 4503599627370496 (-51)) by (vm_compute; reflexivity). feval. lra. Qed.
Lemma long_hi : is_finite (fl 1 1000) = true /\ B2R (fl 1 1000) = bpow radix2 1000.
Proof.
  split; [vm_compute; reflexivity|]. rewrite (B2R_sf _ false 4503599627370496 948) by (vm_compute; reflexivity).
  unfold F2R. cbn [Fnum Fexp cond_Zopp]. change (IZR 4503599627370496) with (bpow radix2 52). rewrite <- bpow_plus. reflexivity.
Qed.
Lemma long_ok : small_itv longX /\ proper_fin longX /\ 0 < num_val (lo longX) /\ member longX 1.
Proof.
  destruct long_hi as [F V].
  assert (G : 1 <= bpow radix2 1000) by (change 1 with (bpow radix2 0); apply bpow_le; lia).
  split; [split; simpl; [lia | exact I]|]. split; [split; [split; [exact I | exact F]|]|split].
  - change (1 <= B2R (fl 1 1000)). rewrite V. exact G.
  - simpl. lra.
  - apply member_x. split; [simpl; lra|]. change (R_xle 1 (xflt (fl 1 1000))). rewrite (proj1 (is_finite_x _) F), V. exact G.
Qed.
Lemma overflow_power L m : exp_faithful L -> log_directed L -> log_faithful L ->
  (forall d : flt, is_finite d = true -> 1000 <= B2R d -> c_exp L m d = finf) ->
  returns (itv_pow L longX (PFlt two)) m (mkitv Classical (PFlt finf) (PFlt finf)).
Proof.
  intros [HE HI] HL HF HO. destruct long_ok as (S1 & P1 & L1 & M1). destruct long_hi as [Fh Vh]. destruct two_val as [F2 V2].
  assert (Pw : py_ge longX (ONum (PInt 0)) = true).
  { apply ge_zero; [apply P1|]. split; [lra|]. destruct P1 as [_ P1]. lra. }
  unfold returns, outcome. rewrite (pow_general L longX (PFlt two) I Pw).
  destruct (log_ends L longX m 1 1 HL S1 M1) as (i & u & HZ & Hlow & Hup & HD & _); [lra | reflexivity | lra |].
  destruct (HD (bpow radix2 1000)) as (d & Fd & Vd & Hu).
  { change (xflt (fl 1 1000) = XFin (bpow radix2 1000)). rewrite (proj1 (is_finite_x _) Fh), Vh. reflexivity. }
  assert (Pd : 0 < B2R d) by (rewrite Vd; apply bpow_gt_0).
  assert (FU := HF FE_UPWARD d Fd Pd). rewrite <- Hu in FU.
  assert (Xu : xflt u = XFin (B2R u)) by (apply is_finite_x; apply FU).
  assert (Bu : B2R u <= 768) by (apply (faithful_le_int u _ 768 FU); [now apply ln_flt_le | lia]).
  assert (Lu : 500 <= B2R u).
  { assert (Q : R_xle (ln (bpow radix2 1000)) (xflt u)).
    { apply Hup; [|apply bpow_gt_0]. apply member_x. split.
      - change (1 <= bpow radix2 1000). change 1 with (bpow radix2 0). apply bpow_le. lia.
      - change (R_xle (bpow radix2 1000) (xflt (fl 1 1000))). rewrite (proj1 (is_finite_x _) Fh), Vh. simpl. lra. }
    rewrite Xu, ln_bpow in Q. simpl in Q. generalize ln_half. lra. }
  set (l := mkitv (kd longX) (PFlt i) (PFlt u)) in *.
  destruct (rmul_gives l (PFlt two) m) as (p & q & Hmul & Xp & Xq); [split; exact I | exact I | reflexivity|].
  assert (X2 : xval (PFlt two) = XFin 2). { cbn [xval]. rewrite (proj1 (is_finite_x _) F2), V2. reflexivity. }
  rewrite X2 in Xp, Xq. cbn [lo hi l xval] in Xp, Xq. rewrite Xu in Xp, Xq.
  unfold general_pow. rewrite (bind_ok _ _ _ _ _ HZ), (bind_ok _ _ _ _ _ Hmul).
  assert (NI : xflt i <> XNan) by (eapply xle_R_nnan; apply (Hlow 1 M1); lra).
  assert (Li : xle_R (xflt i) 0) by (rewrite <- ln_1; apply (Hlow 1 M1); lra).
  assert (EI : xmul mode_DN (XFin 2) (xflt i) <> XNan /\ xle_R (xmul mode_DN (XFin 2) (xflt i)) 0 /\ xleb (xmul mode_UP (XFin 2) (xflt i)) (XFin 0) = true).
  { destruct (xflt i) as [| | |ii]; simpl in Li; try contradiction.
    - cbn [xmul]. rewrite ninf_pos by lra. repeat split; discriminate.
    - cbn [xmul]. split; [apply xround_not_nan|]. split.
      + eapply xle_R_trans; [apply xround_DN_le | lra].
      + apply xround_UP_least; [apply zero_dbl | simpl; lra]. }
  destruct EI as (N1 & D1 & U1).
  assert (Lp : xle_R (xflt p) 0).
  { rewrite Xp. eapply xleb_xle_R; [|exact D1]. now apply xmin2_le_l. }
  assert (Q1 : R_xle 1000 (xflt q)).
  { rewrite Xq. eapply R_xle_xleb; [|apply xmax2_ge_r].
    - cbn [xmul]. eapply R_xle_trans; [apply xround_UP_ge | lra].
    - eapply xleb_nnan_l; exact U1.
    - cbn [xmul]. apply xround_not_nan. }
  assert (Q2 : xleb (xflt q) (XFin 1536) = true).
  { rewrite Xq. destruct (xmax2_or (xmul mode_UP (XFin 2) (xflt i)) (xmul mode_UP (XFin 2) (XFin (B2R u)))) as [-> | ->].
    - eapply xleb_trans; [exact U1 | apply xleb_fin; lra].
    - cbn [xmul]. apply xround_UP_least; [|simpl; lra]. change 1536 with (IZR 1536). apply int_dbl. lia. }
  assert (Fq : is_finite q = true /\ 1000 <= B2R q).
  { destruct (xflt q) as [| | |qq] eqn:E; try discriminate; try contradiction. destruct (xfin_flt _ _ E) as [Fq Vq].
    split; [exact Fq|]. rewrite Vq. exact Q1. }
  destruct Fq as [Fq Vq].
  assert (FP : is_finite (c_exp L m p) = true).
  { destruct (xflt p) as [| | |pp] eqn:E; simpl in Lp; try contradiction.
    - apply xninf_flt in E. subst p. rewrite HI. reflexivity.
    - destruct (xfin_flt _ _ E) as [Fp Vp]. apply (HE m p Fp). rewrite Vp.
      apply exp_384. lra. }
  unfold itv_exp. cbn [lo hi kd].
  rewrite (bind_ok _ _ _ _ _ (math_exp_fin L m (PFlt p) p eq_refl FP)).
  assert (E : math_exp L (PFlt q) m = (Err OverflowError, m)).
  { unfold math_exp. erewrite bind_ok; [|reflexivity]. unfold mprim. rewrite (HO q Fq Vq), Fq. reflexivity. }
  unfold mbind at 1. rewrite E. reflexivity.
Qed.

Lemma perfect_exp_big (d : flt) : is_finite d = true -> 1000 <= B2R d -> c_exp perfect_libm FE_UPWARD d = finf.
Proof.
  intros F H.
  assert (E : c_exp perfect_libm FE_UPWARD d = Rflt FE_UPWARD (exp (B2R d))) by (destruct d as [s|s| |s m e B]; try discriminate; reflexivity).
  rewrite E. unfold Rflt. assert (B := exp_1000_big).
  assert (B2 : exp 1000 <= exp (B2R d)) by (destruct H as [H|H]; [left; now apply exp_increasing | rewrite H; right; reflexivity]).
  rewrite Rlt_bool_false.
  - rewrite Rlt_bool_false by (left; apply exp_pos). reflexivity.
  - unfold rnd. apply Rle_trans with (exp (B2R d)); [lra|]. apply Rle_trans with (2 := Rle_abs _). apply (round_UP_pt radix2 fexp).
Qed.
Lemma perfect_exp_nan m : is_nan (c_exp perfect_libm m fnan) = true.
Proof. reflexivity. Qed.
