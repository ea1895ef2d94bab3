(** Proofs about sin and cos: the range over an interval, the bound on pi, and
    the rounding-error analysis of the extremum tests. *)
From Coq Require Import ZArith Reals List Bool Lia Lra Psatz Machin Ratan.
From Coq Require Import Floats.SpecFloat.
From Flocq Require Import Core IEEE754.BinarySingleNaN.
From Verif Require Import Base PyNum Kernel Spec SpecElem XReal XArith KernelProofs ExprProofs KernelMore Witness ElemProofs.
Import ListNotations.
Open Scope R_scope.

(** ** pi *)
Lemma Machin_term n : tg_alt PI_2_3_7_tg n = (-1) ^ n * (2 * (/ 3) ^ (2 * n + 1) + (/ 7) ^ (2 * n + 1)) / IZR (Z.of_nat (2 * n + 1)).
Proof. unfold tg_alt, PI_2_3_7_tg, Ratan_seq. rewrite INR_IZR_INZ. unfold Rdiv. ring. Qed.
Definition PIr : R := 7074237752028440 / 2251799813685248.
Lemma PI_bounds : PIr - 1 / 1000000000000000 <= PI <= PIr + 1 / 1000000000000000.
Proof.
  unfold PIr. assert (H := PI_2_3_7_ineq 8).
  change (S (2 * 8))%nat with 17%nat in H. change (2 * 8)%nat with 16%nat in H.
  cbn [sum_f_R0] in H. rewrite !Machin_term in H.
  cbn [Z.of_nat Nat.mul Nat.add Pos.of_succ_nat Pos.succ] in H.
  cbn [pow] in H. lra.
Qed.
Lemma PIr_val : PIr = 3537118876014220 / 1125899906842624.
Proof. unfold PIr. lra. Qed.
Lemma PIr_range : 3.1415926 <= PIr <= 3.1415927.
Proof. unfold PIr. lra. Qed.

Lemma xPI_two : xval (PFlt PI_two) = XFin (2 * PIr).
Proof.
  cbn [xval]. rewrite xflt_sf. replace (B2SF PI_two) with (S754_finite false 7074237752028440 (-50)) by (vm_compute; reflexivity).
  cbn [xsf]. apply (f_equal XFin). feval; unfold PIr; lra.
Qed.
Lemma xPI_half : xval (PFlt PI_half) = XFin (PIr / 2).
Proof.
  cbn [xval]. rewrite xflt_sf. replace (B2SF PI_half) with (S754_finite false 7074237752028440 (-52)) by (vm_compute; reflexivity).
  cbn [xsf]. apply (f_equal XFin). feval; unfold PIr; lra.
Qed.
Lemma xPI_flt : xval (PFlt PI_flt) = XFin PIr.
Proof.
  cbn [xval]. rewrite xflt_sf. replace (B2SF PI_flt) with (S754_finite false 7074237752028440 (-51)) by (vm_compute; reflexivity).
  cbn [xsf]. apply (f_equal XFin). feval; unfold PIr; lra.
Qed.

(** ** cos over an interval *)
Lemma cos_periodZ x (k : Z) : cos (x - 2 * IZR k * PI) = cos x.
Proof.
  destruct (Z_le_gt_dec 0 k) as [H|H].
  - rewrite <- (cos_period _ (Z.to_nat k)). f_equal. rewrite INR_IZR_INZ, Z2Nat.id by assumption. ring.
  - rewrite <- (cos_period x (Z.to_nat (- k))). f_equal. rewrite INR_IZR_INZ, Z2Nat.id by lia. rewrite opp_IZR. ring.
Qed.

(** Either the interval contains a maximum point of cos(x - s), or the maximum
    is at an end. *)
Lemma cos_range s a b x : a <= x <= b ->
  (exists k : Z, a <= s + 2 * IZR k * PI <= b) \/ cos (x - s) <= Rmax (cos (a - s)) (cos (b - s)).
Proof.
  intros [H1 H2]. assert (P := PI_RGT_0).
  set (k := Zfloor ((a - s) / (2 * PI))).
  assert (K1 : IZR k <= (a - s) / (2 * PI)) by apply Zfloor_lb.
  assert (K2 : (a - s) / (2 * PI) < IZR k + 1) by apply Zfloor_ub.
  assert (E : (a - s) / (2 * PI) * (2 * PI) = a - s) by (field; lra).
  assert (A1 : s + 2 * IZR k * PI <= a) by nra.
  assert (A2 : a < s + 2 * IZR (k + 1) * PI) by (rewrite plus_IZR; nra).
  destruct (Rle_lt_dec (s + 2 * IZR (k + 1) * PI) b) as [C|C]; [left; exists (k + 1)%Z; lra|].
  destruct A1 as [A1|A1]; [|left; exists k; lra].
  right. rewrite plus_IZR in A2, C.
  rewrite <- (cos_periodZ (x - s) k), <- (cos_periodZ (a - s) k), <- (cos_periodZ (b - s) k).
  destruct (Rle_lt_dec (x - s - 2 * IZR k * PI) PI) as [D|D].
  - eapply Rle_trans; [|apply Rmax_l]. apply cos_decr_1; lra.
  - eapply Rle_trans; [|apply Rmax_r]. apply cos_incr_1; lra.
Qed.

Lemma sin_abs_le x : Rabs (sin x) <= Rabs x.
Proof.
  assert (P : forall y, 0 <= y -> Rabs (sin y) <= y).
  { intros y [Hy|<-]; [|rewrite sin_0, Rabs_R0; lra].
    destruct (Rle_lt_dec y 1).
    - assert (sin y < y) by now apply sin_lt_x.
      assert (0 <= sin y) by (apply sin_ge_0; [lra | generalize PI_bounds PIr_range; lra]).
      rewrite Rabs_pos_eq; lra.
    - apply Rle_trans with 1; [|lra]. apply Rabs_le. apply SIN_bound. }
  destruct (Rle_lt_dec 0 x) as [H|H].
  - rewrite (Rabs_pos_eq x) by assumption. now apply P.
  - rewrite (Rabs_left x) by assumption. rewrite <- (Rabs_Ropp (sin x)), <- sin_neg. apply P. lra.
Qed.
Lemma cos_near y d : Rabs y <= d -> 1 - d * d / 2 <= cos y.
Proof.
  intro H. replace y with (2 * (y / 2)) by field. rewrite cos_2a_sin.
  assert (S := sin_abs_le (y / 2)).
  assert (Rabs (y / 2) <= d / 2). { unfold Rdiv. rewrite Rabs_mult, (Rabs_pos_eq (/ 2)) by lra. lra. }
  assert (sin (y / 2) * sin (y / 2) <= d / 2 * (d / 2)).
  { rewrite <- (Rabs_pos_eq (sin (y / 2) * sin (y / 2))) by apply Rle_0_sqr. rewrite Rabs_mult.
    assert (0 <= Rabs (sin (y / 2))) by apply Rabs_pos. nra. }
  nra.
Qed.

(** ** Rounding errors *)
Lemma rnd_err m x e : (-1074 <= e - 52)%Z -> Rabs x <= bpow radix2 e -> Rabs (rnd m x - x) <= bpow radix2 (e - 52).
Proof.
  intros He H. eapply Rle_trans; [apply error_le_ulp; auto with typeclass_instances|].
  eapply Rle_trans; [apply ulp_le; [auto with typeclass_instances..|rewrite <- (Rabs_pos_eq (bpow radix2 e)) in H by apply bpow_ge_0; exact H]|].
  rewrite ulp_bpow. apply bpow_le. unfold SpecFloat.fexp, SpecFloat.emin. lia.
Qed.
Lemma xround_err m x : Rabs x <= 2097152 -> exists v, xround m x = XFin v /\ Rabs (v - x) <= 1 / 2147483648.
Proof.
  intro H. exists (rnd m x).
  assert (E : Rabs (rnd m x - x) <= 1 / 2147483648).
  { replace (1 / 2147483648) with (bpow radix2 (21 - 52)) by (simpl; lra). apply rnd_err; [lia|]. exact H. }
  split; [|exact E]. unfold xround. rewrite Rlt_bool_true; [reflexivity|].
  apply Rle_lt_trans with (bpow radix2 22); [|apply bpow_lt; lia]. change (bpow radix2 22) with 4194304.
  replace (rnd m x) with ((rnd m x - x) + x) by ring. eapply Rle_trans; [apply Rabs_triang|]. lra.
Qed.

Definition eta : R := 1 / 1000000000.
(** A is the rounded a - S, u the rounded A / (2*PI_flt): u is within eta of (a - s)/(2 pi). *)
Lemma quot_err a s A u : Rabs (a - s) <= 1048600 -> Rabs (A - (a - s)) <= 1 / 2147483648 + 1 / 500000000000000 ->
  Rabs (u - A / (2 * PIr)) <= 1 / 2147483648 -> Rabs (u - (a - s) / (2 * PI)) <= eta.
Proof.
  intros H1 H2 H3. assert (B := PI_bounds). assert (R := PIr_range).
  set (w := (a - s) / (2 * PI)). assert (W : w * (2 * PI) = a - s) by (unfold w; field; lra).
  set (v := A / (2 * PIr)) in *. assert (V : v * (2 * PIr) = A) by (unfold v; field; lra).
  assert (Hw : Rabs w <= 200000).
  { apply Rabs_le_inv in H1. apply Rabs_le. split; nra. }
  apply Rabs_le_inv in H1, H2, H3, Hw.
  assert (D : (v - w) * (2 * PIr) = A - (a - s) + w * (2 * PI - 2 * PIr)) by nra.
  assert (Q : Rabs (w * (2 * PI - 2 * PIr)) <= 200000 * (2 / 1000000000000000)).
  { rewrite Rabs_mult. apply Rmult_le_compat; try apply Rabs_pos; apply Rabs_le; lra. }
  apply Rabs_le_inv in Q.
  assert (Rabs (v - w) <= 1 / 2147483648). { apply Rabs_le. split; nra. }
  apply Rabs_le_inv in H. unfold eta. apply Rabs_le. lra.
Qed.

(** ** The extremum test *)
Definition near (s a : R) : Prop := exists k : Z, Rabs (a - s - 2 * IZR k * PI) <= 1 / 100000000.

Lemma ceil_val (p : flt) : is_finite p = true -> xflt (c_ceil p) = XFin (IZR (Zceil (B2R p))).
Proof.
  intro F. unfold c_ceil. destruct (Bnearbyint_correct 53 1024 _ mode_UP p) as (H1 & H2 & _).
  rewrite F in H2. apply is_finite_x in H2. rewrite H2, H1. f_equal. apply round_FIX_IZR.
Qed.
Lemma floor_val (p : flt) : is_finite p = true -> xflt (c_floor p) = XFin (IZR (Zfloor (B2R p))).
Proof.
  intro F. unfold c_floor. destruct (Bnearbyint_correct 53 1024 _ mode_DN p) as (H1 & H2 & _).
  rewrite F in H2. apply is_finite_x in H2. rewrite H2, H1. f_equal. apply round_FIX_IZR.
Qed.

Lemma shift_div_run sh r v A : sh r = (Ok v, r) -> small_num v -> xval v = XFin A -> Rabs A <= 1048700 ->
  exists p, shift_div sh r = (Ok p, r) /\ is_finite p = true /\ Rabs (B2R p - A / (2 * PIr)) <= 1 / 2147483648.
Proof.
  intros Hsh Sv Xv HA. assert (R := PIr_range). unfold shift_div. rewrite (bind_ok _ _ _ _ _ Hsh).
  destruct (div_run r v (PFlt PI_two) Sv I) as (p & Hp & Xp).
  { rewrite xPI_two. intro C. inversion C. lra. }
  exists p. split; [exact Hp|]. rewrite xPI_two, Xv in Xp. cbn [xdiv] in Xp.
  destruct (xround_err r (A / (2 * PIr))) as (u & Hu & Eu).
  { apply Rabs_le_inv in HA. apply Rabs_le.
    assert (E : A / (2 * PIr) * (2 * PIr) = A) by (field; lra). split; nra. }
  rewrite Hu in Xp. destruct (xfin_flt _ _ Xp) as [F V]. split; [exact F|]. now rewrite V.
Qed.

Definition shift_ok (sh : M pynum) (r : rmode) (a s : R) : Prop :=
  exists v A, sh r = (Ok v, r) /\ small_num v /\ xval v = XFin A /\ Rabs (A - (a - s)) <= 1 / 2147483648 + 1 / 500000000000000.

Lemma test_run r sa sb a b s : a <= b -> Rabs a <= 1048576 -> Rabs b <= 1048576 -> Rabs s <= 4 ->
  shift_ok sa r a s -> shift_ok sb r b s ->
  exists t, extremum_test sa sb r = (Ok t, r) /\
    ((exists k : Z, a <= s + 2 * IZR k * PI <= b) -> t = true \/ near s a \/ near s b).
Proof.
  intros Hab Ba Bb Bs (va & A & Ra & Sa & Xa & Ea) (vb & B & Rb & Sb & Xb & Eb).
  assert (PB := PI_bounds). assert (PR := PIr_range).
  assert (Ba' := Ba). assert (Bb' := Bb). assert (Bs' := Bs). apply Rabs_le_inv in Ba', Bb', Bs'.
  destruct (shift_div_run sa r va A Ra Sa Xa) as (p & Rp & Fp & Ep).
  { apply Rabs_le_inv in Ea. apply Rabs_le; lra. }
  destruct (shift_div_run sb r vb B Rb Sb Xb) as (q & Rq & Fq & Eq).
  { apply Rabs_le_inv in Eb. apply Rabs_le; lra. }
  assert (Qa : Rabs (B2R p - (a - s) / (2 * PI)) <= eta) by (apply (quot_err a s A); trivial; apply Rabs_le; lra).
  assert (Qb : Rabs (B2R q - (b - s) / (2 * PI)) <= eta) by (apply (quot_err b s B); trivial; apply Rabs_le; lra).
  exists (flt_leb (c_ceil p) (c_floor q)). split.
  { unfold extremum_test. rewrite (bind_ok _ _ _ _ _ Rp), (bind_ok _ _ _ _ _ Rq). reflexivity. }
  intros [k [K1 K2]]. rewrite flt_leb_x, ceil_val, floor_val by assumption.
  set (wa := (a - s) / (2 * PI)) in *. assert (Wa : wa * (2 * PI) = a - s) by (unfold wa; field; lra).
  set (wb := (b - s) / (2 * PI)) in *. assert (Wb : wb * (2 * PI) = b - s) by (unfold wb; field; lra).
  apply Rabs_le_inv in Qa, Qb. unfold eta in *.
  destruct (Rle_lt_dec (B2R p) (IZR k)) as [Pk|Pk].
  - destruct (Rle_lt_dec (IZR k) (B2R q)) as [Qk|Qk].
    + left. apply xleb_fin. apply IZR_le. transitivity k; [now apply Zceil_glb | now apply Zfloor_lub].
    + right; right. exists k. apply Rabs_le. assert (IZR k <= wb) by nra. split; nra.
  - right; left. exists k. apply Rabs_le. assert (wa <= IZR k) by nra. split; nra.
Qed.

(** Shifts by plus/minus a double close to the true shift. *)
Lemma arith2_flt fz ff x (S : flt) v : arith2 fz ff x (PFlt S) = Ok v -> exists f, v = PFlt f.
Proof.
  unfold arith2. destruct x as [z|f]; unfold rbind, to_double.
  - destruct (int_to_double z); [|discriminate]. intro H. apply Ok_inj in H. eauto.
  - intro H. apply Ok_inj in H. eauto.
Qed.
Lemma small_PFlt f : small_num (PFlt f). Proof. exact I. Qed.
Lemma sub_shift r x S s a : small_num x -> xval x = XFin a -> xval (PFlt S) = XFin s -> Rabs a <= 1048576 -> Rabs s <= 4 ->
  forall s', Rabs (s' - s) <= 1 / 500000000000000 -> shift_ok (sub_ x (PFlt S)) r a s'.
Proof.
  intros Sx Xx XS Ha Hs s' Hs'. destruct (num_sub_x r x (PFlt S) Sx I) as (v & Hv & Ev & Xv).
  rewrite Xx, XS in Xv. unfold xsub in Xv. cbn [xopp xadd] in Xv.
  destruct (xround_err r (a + - s)) as (w & Hw & Ew).
  { apply Rabs_le_inv in Ha, Hs. apply Rabs_le; lra. }
  rewrite Hw in Xv. exists v, w. split; [unfold sub_, mprim; now rewrite Hv|].
  assert (V : exists f, v = PFlt f) by (eapply arith2_flt; exact Hv).
  destruct V as [f ->]. split; [exact I|]. split; [exact Xv|].
  apply Rabs_le_inv in Ew, Hs'. apply Rabs_le. lra.
Qed.
Lemma add_shift r x S s a : small_num x -> xval x = XFin a -> xval (PFlt S) = XFin s -> Rabs a <= 1048576 -> Rabs s <= 4 ->
  forall s', Rabs (s' - (- s)) <= 1 / 500000000000000 -> shift_ok (add_ x (PFlt S)) r a s'.
Proof.
  intros Sx Xx XS Ha Hs s' Hs'. destruct (num_add_x r x (PFlt S) Sx I) as (v & Hv & Ev & Xv).
  rewrite Xx, XS in Xv. cbn [xadd] in Xv.
  destruct (xround_err r (a + s)) as (w & Hw & Ew).
  { apply Rabs_le_inv in Ha, Hs. apply Rabs_le; lra. }
  rewrite Hw in Xv. exists v, w. split; [unfold add_, mprim; now rewrite Hv|].
  assert (V : exists f, v = PFlt f) by (eapply arith2_flt; exact Hv).
  destruct V as [f ->]. split; [exact I|]. split; [exact Xv|].
  apply Rabs_le_inv in Ew, Hs'. apply Rabs_le. lra.
Qed.
Lemma no_shift r x a : small_num x -> xval x = XFin a -> shift_ok (mret x) r a 0.
Proof.
  intros Sx Xx. exists x, a. split; [reflexivity|]. split; [assumption|]. split; [assumption|].
  replace (a - (a - 0)) with 0 by ring. rewrite Rabs_R0. lra.
Qed.

(** ** Covering by round_up and round_down *)
Definition Ucov (r : R) (v : R) : Prop := v <= fmaxR /\ forall g : flt, is_finite g = true -> r < B2R g -> v <= B2R g.
Definition Dcov (r : R) (v : R) : Prop := - fmaxR <= v /\ forall g : flt, is_finite g = true -> B2R g < r -> B2R g <= v.
Lemma Ucov_up (r : flt) v : is_finite r = true -> Ucov (B2R r) v -> R_xle v (xflt (round_up r)).
Proof. intros F [H1 H2]. destruct (round_up_fin r F) as [[_ ->]|(q & Fq & Lq & ->)]; simpl; auto. Qed.
Lemma Dcov_down (r : flt) v : is_finite r = true -> Dcov (B2R r) v -> xle_R (xflt (round_down r)) v.
Proof. intros F [H1 H2]. destruct (round_down_fin r F) as [[_ ->]|(q & Fq & Lq & ->)]; simpl; auto. Qed.
Lemma Ucov_mono r r' v v' : r <= r' -> v' <= v -> Ucov r v -> Ucov r' v'.
Proof. intros H Hv [H1 H2]. split; [lra|]. intros g Fg Lg. apply Rle_trans with v; [assumption|]. apply H2; [assumption|lra]. Qed.
Lemma Dcov_mono r r' v v' : r' <= r -> v <= v' -> Dcov r v -> Dcov r' v'.
Proof. intros H Hv [H1 H2]. split; [lra|]. intros g Fg Lg. apply Rle_trans with v; [|assumption]. apply H2; [assumption|lra]. Qed.
Lemma faithful_Ucov r v : faithful r v -> v <= fmaxR -> Ucov (B2R r) v.
Proof.
  intros (F & H) Hm. split; [assumption|]. intros g Fg Lg. destruct H as [[_ H]|[H _]]; [|lra].
  destruct (Rle_lt_dec v (B2R g)) as [|C]; [assumption|]. specialize (H g Fg). lra.
Qed.
Lemma faithful_Dcov r v : faithful r v -> - fmaxR <= v -> Dcov (B2R r) v.
Proof.
  intros (F & H) Hm. split; [assumption|]. intros g Fg Lg. destruct H as [[H _]|[_ H]]; [lra|].
  destruct (Rle_lt_dec (B2R g) v) as [|C]; [assumption|]. specialize (H g Fg). lra.
Qed.

(** Faithful values of a number extremely close to 1. *)
Definition p1 : flt := fl 9007199254740991 (-53).
Lemma p1_val : is_finite p1 = true /\ B2R p1 = 1 - 1 / 9007199254740992.
Proof.
  split; [vm_compute; reflexivity|]. rewrite (B2R_sf _ false 9007199254740991 (-53)) by (vm_compute; reflexivity). feval. lra.
Qed.
Lemma above_p1 (g : flt) : is_finite g = true -> B2R p1 < B2R g -> 1 <= B2R g.
Proof.
  intros Fg Lg.
  assert (E : pred radix2 fexp 1 = B2R p1).
  { replace 1 with (bpow radix2 0) at 1 by reflexivity. rewrite pred_bpow by reflexivity || auto with typeclass_instances.
    rewrite (proj2 p1_val). change (SpecFloat.fexp 53 1024 0) with (-53)%Z. simpl. lra. }
  assert (G1 : generic_format radix2 fexp 1). { apply (dbl_gen 1). change 1 with (IZR 1). apply int_dbl. lia. }
  destruct (Rle_lt_dec 1 (B2R g)) as [|C]; [assumption|].
  assert (B2R g <= pred radix2 fexp 1) by (apply pred_ge_gt; auto using gen_B2R with typeclass_instances). lra.
Qed.
Lemma near_one r v : faithful r v -> 1 - 1 / 9007199254740992 < v -> Ucov (B2R r) 1.
Proof.
  intros (F & H) Hv. assert (OM : 1 <= fmaxR).
  { assert (A := abs_flt_le_max f1). assert (X1 : xflt f1 = XFin 1) by exact xval_pn1.
    destruct (xfin_flt _ _ X1) as [_ V1]. rewrite V1, Rabs_R1 in A. exact A. }
  split; [exact OM|]. intros g Fg Lg. destruct p1_val as [Fp Vp]. apply above_p1; [assumption|].
  destruct H as [[_ H]|[H _]]; [|lra]. specialize (H p1 Fp). lra.
Qed.
Lemma near_mone r v : faithful r v -> v < - (1 - 1 / 9007199254740992) -> Dcov (B2R r) (-1).
Proof.
  intros (F & H) Hv. assert (OM : 1 <= fmaxR).
  { assert (A := abs_flt_le_max f1). assert (X1 : xflt f1 = XFin 1) by exact xval_pn1.
    destruct (xfin_flt _ _ X1) as [_ V1]. rewrite V1, Rabs_R1 in A. exact A. }
  split; [lra|]. intros g Fg Lg. destruct p1_val as [Fp Vp].
  assert (Fn : forall f : flt, is_finite f = true -> is_finite (fneg f) = true /\ B2R (fneg f) = - B2R f).
  { intros f Ff. unfold fneg. now rewrite is_finite_Bopp, B2R_Bopp. }
  destruct (Fn g Fg) as [Fg' Vg']. destruct (Fn p1 Fp) as [Fp' Vp'].
  assert (1 <= B2R (fneg g)); [|lra]. apply above_p1; [assumption|]. rewrite Vg'.
  destruct H as [[H _]|[_ H]]; [lra|]. specialize (H (fneg p1) Fp'). lra.
Qed.

(** ** Assembling *)
Lemma xround_fin_of (f : flt) : is_finite f = true -> xflt f = XFin (B2R f).
Proof. apply is_finite_x. Qed.
Lemma flt_max2_fin (f h : flt) : is_finite f = true -> is_finite h = true ->
  is_finite (flt_max2 f h) = true /\ B2R f <= B2R (flt_max2 f h) /\ B2R h <= B2R (flt_max2 f h).
Proof.
  intros Ff Fh. unfold flt_max2. rewrite flt_ltb_x, (xround_fin_of _ Ff), (xround_fin_of _ Fh).
  destruct (xltb (XFin (B2R f)) (XFin (B2R h))) eqn:E.
  - apply xltb_fin in E. split; [assumption|]. lra.
  - split; [assumption|]. split; [lra|]. destruct (Rle_lt_dec (B2R h) (B2R f)) as [|C]; [assumption|].
    apply (proj2 (xltb_fin _ _)) in C. congruence.
Qed.
Lemma flt_min2_fin (f h : flt) : is_finite f = true -> is_finite h = true ->
  is_finite (flt_min2 f h) = true /\ B2R (flt_min2 f h) <= B2R f /\ B2R (flt_min2 f h) <= B2R h.
Proof.
  intros Ff Fh. unfold flt_min2. rewrite flt_ltb_x, (xround_fin_of _ Ff), (xround_fin_of _ Fh).
  destruct (xltb (XFin (B2R h)) (XFin (B2R f))) eqn:E.
  - apply xltb_fin in E. split; [assumption|]. lra.
  - split; [assumption|]. split; [lra|]. destruct (Rle_lt_dec (B2R f) (B2R h)) as [|C]; [assumption|].
    apply (proj2 (xltb_fin _ _)) in C. congruence.
Qed.
Lemma near_cos s a : near s a -> 1 - 1 / 9007199254740992 < cos (a - s).
Proof.
  intros [k Hk]. rewrite <- (cos_periodZ (a - s) k). assert (C := cos_near _ _ Hk). lra.
Qed.
Lemma fmax_ge1 : 1 <= fmaxR.
Proof.
  assert (A := abs_flt_le_max f1). assert (X1 : xflt f1 = XFin 1) by exact xval_pn1.
  destruct (xfin_flt _ _ X1) as [_ V1]. rewrite V1, Rabs_R1 in A. exact A.
Qed.
Lemma xf1 : xflt f1 = XFin 1.
Proof. exact xval_pn1. Qed.
Lemma xfm1 : xflt (fneg f1) = XFin (-1).
Proof. now rewrite xflt_neg, xf1. Qed.

Lemma trig_encl X a b fi fs tmin tmax smin smax (g : R -> R) m : xval (lo X) = XFin a -> xval (hi X) = XFin b -> a <= b ->
  faithful fi (g a) -> faithful fs (g b) ->
  (forall x, g x = cos (x - smax)) -> (forall x, - g x = cos (x - smin)) ->
  (exists t, tmin FE_DOWNWARD = (Ok t, FE_DOWNWARD) /\
    ((exists k : Z, a <= smin + 2 * IZR k * PI <= b) -> t = true \/ near smin a \/ near smin b)) ->
  (exists t, tmax FE_UPWARD = (Ok t, FE_UPWARD) /\
    ((exists k : Z, a <= smax + 2 * IZR k * PI <= b) -> t = true \/ near smax a \/ near smax b)) ->
  exists Z, trig_range X fi fs tmin tmax m = (Ok Z, m) /\ forall x, a <= x <= b -> member Z (g x).
Proof.
  intros Xa Xb Hab Fi Fs Gmax Gmin (t1 & R1 & T1) (t2 & R2 & T2).
  assert (B : forall x, -1 <= g x <= 1) by (intro x; rewrite Gmax; apply COS_bound).
  assert (OM := fmax_ge1).
  unfold trig_range. rewrite num_le_x, Xa, Xb, (proj2 (xleb_fin a b) Hab).
  set (minv := flt_min2 fi fs). set (maxv := flt_max2 fi fs).
  destruct (flt_min2_fin fi fs (proj1 Fi) (proj1 Fs)) as (Fmin & Lmin1 & Lmin2).
  destruct (flt_max2_fin fi fs (proj1 Fi) (proj1 Fs)) as (Fmax & Lmax1 & Lmax2).
  fold minv in Fmin, Lmin1, Lmin2. fold maxv in Fmax, Lmax1, Lmax2.
  set (i := if t1 then fneg f1 else round_down minv). set (u := if t2 then f1 else round_up maxv).
  exists (mkitv (kd X) (PFlt i) (PFlt u)). split.
  { assert (W1 : with_rounding FE_DOWNWARD (t <- tmin ;; mret (if t then fneg f1 else round_down minv)) m = (Ok i, m)).
    { apply (with_rounding_ok _ _ m i FE_DOWNWARD). rewrite (bind_ok _ _ _ _ _ R1). reflexivity. }
    assert (W2 : with_rounding FE_UPWARD (t <- tmax ;; mret (if t then f1 else round_up maxv)) m = (Ok u, m)).
    { apply (with_rounding_ok _ _ m u FE_UPWARD). rewrite (bind_ok _ _ _ _ _ R2). reflexivity. }
    rewrite (bind_ok _ _ _ _ _ W1), (bind_ok _ _ _ _ _ W2). reflexivity. }
  intros x Hx. apply member_x. cbn [lo hi xval]. split.
  - unfold i. destruct t1; [rewrite xfm1; apply B|]. apply Dcov_down; [exact Fmin|].
    destruct (cos_range smin a b x Hx) as [K|K].
    + destruct (T1 K) as [C|[C|C]]; [discriminate| |]; apply near_cos in C; rewrite <- Gmin in C.
      * assert (D := near_mone fi (g a) Fi). eapply Dcov_mono; [exact Lmin1 | apply B | apply D; lra].
      * assert (D := near_mone fs (g b) Fs). eapply Dcov_mono; [exact Lmin2 | apply B | apply D; lra].
    + rewrite <- !Gmin in K. unfold Rmax in K. destruct (Rle_dec (- g a) (- g b)).
      * eapply Dcov_mono; [exact Lmin2 | | apply (faithful_Dcov fs (g b) Fs)]; [lra|]. destruct (B b); lra.
      * eapply Dcov_mono; [exact Lmin1 | | apply (faithful_Dcov fi (g a) Fi)]; [lra|]. destruct (B a); lra.
  - unfold u. destruct t2; [rewrite xf1; apply B|]. apply Ucov_up; [exact Fmax|].
    destruct (cos_range smax a b x Hx) as [K|K].
    + destruct (T2 K) as [C|[C|C]]; [discriminate| |]; apply near_cos in C; rewrite <- Gmax in C.
      * assert (D := near_one fi (g a) Fi C). eapply Ucov_mono; [exact Lmax1 | apply B | exact D].
      * assert (D := near_one fs (g b) Fs C). eapply Ucov_mono; [exact Lmax2 | apply B | exact D].
    + rewrite <- !Gmax in K. unfold Rmax in K. destruct (Rle_dec (g a) (g b)).
      * eapply Ucov_mono; [exact Lmax2 | exact K | apply (faithful_Ucov fs (g b) Fs)]. destruct (B b); lra.
      * eapply Ucov_mono; [exact Lmax1 | exact K | apply (faithful_Ucov fi (g a) Fi)]. destruct (B a); lra.
Qed.

Lemma math_trig_run (f : rmode -> flt -> flt) (g : R -> R) x a m :
  (forall m (d : flt), is_finite d = true -> faithful (f m d) (g (B2R d))) ->
  exact_num x -> xval x = XFin a ->
  exists r, math_trig f x m = (Ok r, m) /\ faithful r (g a).
Proof.
  intros H He Hx. destruct (to_double_exact _ He) as (d & Hd & Xd). rewrite Hx in Xd. destruct (xfin_flt _ _ Xd) as [Fd Vd].
  exists (f m d). subst a. split; [|now apply H]. unfold math_trig.
  erewrite bind_ok; [|unfold mlift; rewrite Hd; reflexivity]. unfold mprim.
  now rewrite (fin_not_nan _ (proj1 (H m d Fd))).
Qed.

Definition lim20 (X : itv) : Prop := Rabs (num_val (lo X)) <= 1048576 /\ Rabs (num_val (hi X)) <= 1048576.

Lemma trig_common X : small_itv X -> proper_fin X ->
  exists a b, xval (lo (pro X)) = XFin a /\ xval (hi (pro X)) = XFin b /\ xval (lo X) = XFin a /\ xval (hi X) = XFin b /\ a <= b /\
    a = num_val (lo X) /\ b = num_val (hi X) /\ small_itv (pro X) /\ (forall x, member X x -> a <= x <= b).
Proof.
  intros HS HP. destruct (proper_fin_x X HP) as (a & b & Xa & Xb & Hab & Ea & Eb).
  assert (M : member X a) by (apply member_x; rewrite Xa, Xb; simpl; lra).
  destruct (pro_vals X a M) as [P1 P2]. exists a, b. rewrite P1, P2. repeat (split; [assumption|]).
  split; [now apply pro_small|]. intros x Mx. apply member_x in Mx. rewrite Xa, Xb in Mx. exact Mx.
Qed.

Lemma sin_encl L X m : sin_faithful L -> small_itv X -> proper_fin X -> lim20 X ->
  exists Z, returns (itv_sin L X) m Z /\ forall x, member X x -> member Z (sin x).
Proof.
  intros HL HS HP [La Lb]. destruct (trig_common X HS HP) as (a & b & P1 & P2 & Xa & Xb & Hab & Ea & Eb & [Sl Sh] & HM).
  rewrite <- Ea in La. rewrite <- Eb in Lb.
  assert (PB := PI_bounds). assert (PR := PIr_range).
  destruct (math_trig_run (c_sin L) sin (lo (pro X)) a m HL (small_exact _ Sl) P1) as (fi & Ri & Fi).
  destruct (math_trig_run (c_sin L) sin (hi (pro X)) b m HL (small_exact _ Sh) P2) as (fs & Rs & Fs).
  assert (HH : Rabs (PIr / 2) <= 4) by (apply Rabs_le; lra).
  destruct (trig_encl X a b fi fs
    (extremum_test (add_ (lo (pro X)) (PFlt PI_half)) (add_ (hi (pro X)) (PFlt PI_half)))
    (extremum_test (sub_ (lo (pro X)) (PFlt PI_half)) (sub_ (hi (pro X)) (PFlt PI_half)))
    (- PI / 2) (PI / 2) sin m Xa Xb Hab Fi Fs) as (Z & HZ & MZ).
  - intro x. rewrite <- cos_shift. rewrite <- cos_neg. f_equal. lra.
  - intro x. replace (x - - PI / 2) with (PI / 2 - - x) by lra. rewrite cos_shift, sin_neg. reflexivity.
  - apply test_run; trivial; [apply Rabs_le; lra| |].
    + apply (add_shift _ _ _ (PIr / 2)); trivial using xPI_half. apply Rabs_le; lra.
    + apply (add_shift _ _ _ (PIr / 2)); trivial using xPI_half. apply Rabs_le; lra.
  - apply test_run; trivial; [apply Rabs_le; lra| |].
    + apply (sub_shift _ _ _ (PIr / 2)); trivial using xPI_half. apply Rabs_le; lra.
    + apply (sub_shift _ _ _ (PIr / 2)); trivial using xPI_half. apply Rabs_le; lra.
  - exists Z. split; [|auto]. unfold returns, outcome, itv_sin.
    rewrite (bind_ok _ _ _ _ _ Ri), (bind_ok _ _ _ _ _ Rs), HZ. reflexivity.
Qed.

Lemma cos_encl L X m : cos_faithful L -> small_itv X -> proper_fin X -> lim20 X ->
  exists Z, returns (itv_cos L X) m Z /\ forall x, member X x -> member Z (cos x).
Proof.
  intros HL HS HP [La Lb]. destruct (trig_common X HS HP) as (a & b & P1 & P2 & Xa & Xb & Hab & Ea & Eb & [Sl Sh] & HM).
  rewrite <- Ea in La. rewrite <- Eb in Lb.
  assert (PB := PI_bounds). assert (PR := PIr_range).
  destruct (math_trig_run (c_cos L) cos (lo (pro X)) a m HL (small_exact _ Sl) P1) as (fi & Ri & Fi).
  destruct (math_trig_run (c_cos L) cos (hi (pro X)) b m HL (small_exact _ Sh) P2) as (fs & Rs & Fs).
  assert (HH : Rabs PIr <= 4) by (apply Rabs_le; lra).
  destruct (trig_encl X a b fi fs
    (extremum_test (sub_ (lo (pro X)) (PFlt PI_flt)) (sub_ (hi (pro X)) (PFlt PI_flt)))
    (extremum_test (mret (lo (pro X))) (mret (hi (pro X))))
    PI 0 cos m Xa Xb Hab Fi Fs) as (Z & HZ & MZ).
  - intro x. f_equal. lra.
  - intro x. replace (x - PI) with (- (PI - x)) by lra. rewrite cos_neg. rewrite Rtrigo_facts.cos_pi_minus. reflexivity.
  - apply test_run; trivial; [apply Rabs_le; lra| |].
    + apply (sub_shift _ _ _ PIr); trivial using xPI_flt. apply Rabs_le; lra.
    + apply (sub_shift _ _ _ PIr); trivial using xPI_flt. apply Rabs_le; lra.
  - apply test_run; trivial; [rewrite Rabs_R0; lra| |]; now apply no_shift.
  - exists Z. split; [|auto]. unfold returns, outcome, itv_cos.
    rewrite (bind_ok _ _ _ _ _ Ri), (bind_ok _ _ _ _ _ Rs), HZ. reflexivity.
Qed.
