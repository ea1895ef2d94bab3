(** Tol and Uni in floating point: what the value says about the system. *)
From Coq Require Import ZArith Reals Lra Lia List Bool.
From Flocq Require Import Core IEEE754.BinarySingleNaN Relative.
From Verif Require Import Base PyNum Kernel Spec Expr Arrays Construct SpecArray XReal XArith KernelProofs KernelAlg
  RecogFl SpecRecogFl RecogFlProofs.
Import ListNotations.
Open Scope R_scope.

Lemma nearest_err x : Rabs (rnd mode_NE x - x) <= bpow radix2 (-53) * Rabs x + bpow radix2 (-1075).
Proof.
  destruct (error_N_FLT radix2 (-1074) 53 ltac:(reflexivity) (fun z => negb (Z.even z)) x) as (e & n & He & Hn & _ & Hr).
  assert (Q : rnd mode_NE x = x * (1 + e) + n) by exact Hr. rewrite Q.
  replace (x * (1 + e) + n - x) with (e * x + n) by ring.
  eapply Rle_trans; [apply Rabs_triang|]. rewrite Rabs_mult.
  apply Rplus_le_compat.
  - apply Rmult_le_compat_r; [apply Rabs_pos|]. eapply Rle_trans; [exact He|]. change (/ 2) with (bpow radix2 (-1)). rewrite <- bpow_plus. apply bpow_le. lia.
  - eapply Rle_trans; [exact Hn|]. change (/ 2) with (bpow radix2 (-1)). rewrite <- bpow_plus. apply bpow_le. lia.
Qed.
Lemma half_exact s : generic_format radix2 fexp s -> Rabs (rnd mode_NE (/ 2 * s) - / 2 * s) <= bpow radix2 (-1075).
Proof.
  intro H. destruct (Req_dec s 0) as [->|Hs].
  { rewrite Rmult_0_r. assert (Z0 : rnd mode_NE 0 = 0) by (apply round_0; auto with typeclass_instances). rewrite Z0, Rminus_0_r, Rabs_R0. apply bpow_ge_0. }
  replace (/ 2 * s) with (s * bpow radix2 (-1)) by (change (bpow radix2 (-1)) with (/2); ring).
  destruct (Z_le_gt_dec (-1073) (cexp radix2 fexp s)) as [L|L].
  - assert (G : generic_format radix2 fexp (s * bpow radix2 (-1))).
    { set (e := cexp radix2 fexp s) in *. set (f := Ztrunc (scaled_mantissa radix2 fexp s)).
      assert (E : s = F2R (Float radix2 f e)) by exact H.
      assert (E2 : s * bpow radix2 (-1) = F2R (Float radix2 f (e + -1))).
      { rewrite E at 1. unfold F2R; cbn [Defs.Fnum Defs.Fexp]. rewrite bpow_plus. ring. }
      rewrite E2. apply generic_format_F2R. intros _. rewrite <- E2.
      unfold e, cexp in *. rewrite mag_mult_bpow by assumption. unfold SpecFloat.fexp, SpecFloat.emin in *. lia. }
    assert (Z0 : rnd mode_NE (s * bpow radix2 (-1)) = s * bpow radix2 (-1)) by (apply round_generic; auto with typeclass_instances). rewrite Z0. unfold Rminus. rewrite Rplus_opp_r, Rabs_R0. apply bpow_ge_0.
  - assert (C : cexp radix2 fexp (s * bpow radix2 (-1)) = (-1074)%Z).
    { unfold cexp in *. rewrite mag_mult_bpow by assumption. unfold SpecFloat.fexp, SpecFloat.emin in *. lia. }
    eapply Rle_trans; [apply (error_le_half_ulp radix2 fexp (fun z => negb (Z.even z)))|].
    rewrite ulp_neq_0, C; [|assert (B := bpow_gt_0 radix2 (-1)); apply Rmult_integral_contrapositive_currified; lra].
    change (/ 2) with (bpow radix2 (-1)). rewrite <- bpow_plus. apply bpow_le. lia.
Qed.
Lemma half_err z : Rabs z <= bpow radix2 1023 -> no_overflow mode_NE z /\
  exists v, xround mode_NE (/ 2 * rnd mode_NE z) = XFin v /\ Rabs (v - z / 2) <= bpow radix2 (-54) * Rabs z + bpow radix2 (-1076) + bpow radix2 (-1075).
Proof.
  intro L.
  assert (G : generic_format radix2 fexp (bpow radix2 1023)) by (apply generic_format_bpow; unfold SpecFloat.fexp, SpecFloat.emin; lia).
  assert (B : bpow radix2 1023 < bpow radix2 1024) by (apply bpow_lt; lia).
  assert (R1 : Rabs (rnd mode_NE z) <= bpow radix2 1023) by (apply abs_round_le_generic; auto with typeclass_instances).
  split; [unfold no_overflow; lra|].
  exists (rnd mode_NE (/ 2 * rnd mode_NE z)). split.
  - unfold xround. rewrite Rlt_bool_true; [reflexivity|]. eapply Rle_lt_trans; [|exact B].
    apply abs_round_le_generic; auto with typeclass_instances. rewrite Rabs_mult, (Rabs_pos_eq (/ 2)) by lra. assert (P := Rabs_pos (rnd mode_NE z)). lra.
  - assert (E1 := nearest_err z).
    assert (E2 := half_exact (rnd mode_NE z) ltac:(apply generic_format_round; auto with typeclass_instances)).
    assert (Q1 : bpow radix2 (-53) = 2 * bpow radix2 (-54)) by (change 2 with (bpow radix2 1); now rewrite <- bpow_plus).
    assert (Q2 : bpow radix2 (-1075) = 2 * bpow radix2 (-1076)) by (change 2 with (bpow radix2 1); now rewrite <- bpow_plus).
    rewrite Q1 in E1. set (p := bpow radix2 (-54)) in *. set (u := bpow radix2 (-1076)) in *. rewrite Q2 in *.
    set (h := rnd mode_NE (/ 2 * rnd mode_NE z)) in *. set (s := rnd mode_NE z) in *. set (az := Rabs z) in *.
    apply Rabs_le_inv in E1, E2. apply Rabs_le. split; lra.
Qed.
Lemma half_x : xflt fhalf = XFin (/ 2).
Proof.
  assert (is_finite fhalf = true) by reflexivity. apply is_finite_x in H. rewrite H. f_equal. unfold fhalf, fl.
  assert (H1 := binary_normalize_correct 53 1024 prec53 prec53_lt mode_NE 1 (-1) false). cbv zeta in H1.
  assert (HF : F2R (Float radix2 1 (-1)) = / 2) by (unfold F2R; simpl; lra).
  rewrite HF in H1. rewrite round_generic in H1; auto with typeclass_instances.
  - rewrite Rlt_bool_true in H1; [apply H1|]. rewrite Rabs_pos_eq by lra.
    apply Rlt_trans with (bpow radix2 1); [simpl; lra | apply bpow_lt; lia].
  - change (/2) with (bpow radix2 (-1)). apply generic_format_bpow. unfold SpecFloat.fexp, SpecFloat.emin. lia.
Qed.
Lemma rad_run' X m a b : small_itv X -> xval (lo X) = XFin a -> xval (hi X) = XFin b -> no_overflow m (b + - a) ->
  exists v, returns (rad X) m v /\ xval v = xround m (/ 2 * rnd m (b + - a)).
Proof.
  intros [sl sh] Hl Hh No.
  destruct (XArith.num_sub_x m _ _ sh sl) as (w & Hw & Ew & Vw). rewrite Hl, Hh in Vw. unfold xsub in Vw. cbn [xopp xadd] in Vw.
  assert (Vw' : xval w = XFin (rnd m (b + - a))).
  { rewrite Vw. unfold xround. unfold no_overflow in No. now rewrite Rlt_bool_true. }
  destruct (to_double_exact w Ew) as (f & Hf & Hfx).
  exists (PFlt (fmul m fhalf f)). split.
  - unfold returns, outcome, rad, wid, sub_, mul_, mbind, mprim. rewrite Hw. simpl.
    unfold num_mul, arith2. destruct w as [z|g]; simpl in Hf |- *.
    + rewrite Hf. reflexivity.
    + inversion Hf. reflexivity.
  - cbn [xval]. rewrite fmul_x, Hfx, Vw', half_x. reflexivity.
Qed.
Lemma xfin_num v r : xval v = XFin r -> finite_num v /\ num_val v = r.
Proof.
  intro H. assert (F : finite_num v).
  { destruct v as [z|f]; cbn [finite_num]; [exact I|]. destruct f as [|[]| |]; try reflexivity; discriminate. }
  split; [exact F|]. apply finite_num_x in F. congruence.
Qed.

Lemma mid_rad_margin X : small_itv X -> proper_fin X -> bounded_entry X ->
  exists c q, mid_rad mode_NE X c q /\
    Rabs (c - (num_val (lo X) + num_val (hi X)) / 2) + Rabs (q - (num_val (hi X) - num_val (lo X)) / 2) <= rounding_margin X.
Proof.
  intros SX PX BX. destruct (proper_fin_x X PX) as (a & b & Ha & Hb & Hab & Ea & Eb).
  unfold bounded_entry, rounding_margin, magnitude in *. rewrite <- Ea, <- Eb in *.
  set (g := Rmax (Rabs a) (Rabs b)) in *.
  assert (Ma := Rmax_l (Rabs a) (Rabs b)). assert (Mb := Rmax_r (Rabs a) (Rabs b)). fold g in Ma, Mb.
  assert (Q3 : bpow radix2 1023 = 2 * bpow radix2 1022) by (change 2 with (bpow radix2 1); now rewrite <- bpow_plus).
  assert (L1 : Rabs (b + a) <= 2 * g) by (eapply Rle_trans; [apply Rabs_triang | lra]).
  assert (L2 : Rabs (b + - a) <= 2 * g) by (eapply Rle_trans; [apply Rabs_triang | rewrite Rabs_Ropp; lra]).
  destruct (half_err (b + a) ltac:(lra)) as (N1 & c & Hc & Ec).
  destruct (half_err (b + - a) ltac:(lra)) as (N2 & q & Hq & Eq).
  destruct (mid_run X mode_NE a b SX Ha Hb N1) as (vc & Rc & Vc). rewrite Hc in Vc.
  destruct (rad_run' X mode_NE a b SX Ha Hb N2) as (vq & Rq & Vq). rewrite Hq in Vq.
  destruct (xfin_num _ _ Vc) as [Fc Nc]. destruct (xfin_num _ _ Vq) as [Fq Nq].
  exists c, q. split; [exists vc, vq; repeat split; assumption|].
  assert (Q1 : bpow radix2 (-52) = 4 * bpow radix2 (-54)) by (change 4 with (bpow radix2 2); now rewrite <- bpow_plus).
  assert (Q2 : bpow radix2 (-1075) = 2 * bpow radix2 (-1076)) by (change 2 with (bpow radix2 1); now rewrite <- bpow_plus).
  assert (Q4 : bpow radix2 (-1073) = 8 * bpow radix2 (-1076)) by (change 8 with (bpow radix2 3); now rewrite <- bpow_plus).
  rewrite Q1, Q4. rewrite Q2 in Ec, Eq.
  assert (P := bpow_gt_0 radix2 (-54)). assert (U := bpow_gt_0 radix2 (-1076)).
  set (p := bpow radix2 (-54)) in *. set (u := bpow radix2 (-1076)) in *.
  assert (p * Rabs (b + a) <= p * (2 * g)) by (apply Rmult_le_compat_l; lra).
  assert (p * Rabs (b + - a) <= p * (2 * g)) by (apply Rmult_le_compat_l; lra).
  replace ((a + b) / 2) with ((b + a) / 2) by lra. replace ((b - a) / 2) with ((b + - a) / 2) by lra.
  lra.
Qed.

Lemma entry_facts r n A b x i e : system r n A b x -> aget (adat b) [i] = Some e -> small_itv e /\ proper_fin e.
Proof. intros (_ & _ & _ & _ & _ & _ & F & _) H. rewrite Forall_forall in F. apply F. eapply aget_vec_in; eauto. Qed.
Lemma member_fin e y : proper_fin e -> (member e y <-> num_val (lo e) <= y <= num_val (hi e)).
Proof.
  intros PX. destruct (proper_fin_x e PX) as (a & b & Ha & Hb & _ & Ea & Eb). rewrite member_x, Ha, Hb, <- Ea, <- Eb. reflexivity.
Qed.

(** ** Exact midpoints and radii *)
Lemma tol_fl_exact r n A b x w m t : system r n A b x -> weights_from 1 r w -> Forall (exact_mid_rad m) (adata (adat b)) ->
  returns (tol_value_fl A b x w) m t -> num_le (PInt 0) t = true ->
  forall P, in_matrix A P -> in_rhs b (row_value n P x).
Proof.
  intros SY WW EX H Ht P HP i e He. destruct (entry_facts _ _ _ _ _ _ _ SY He) as [_ PE]. rewrite Forall_forall in EX.
  assert (B := tol_fl_balls r n A b x w m t SY WW ltac:(intros z Hz; eexists; eexists; exact (EX z Hz)) H Ht P HP i e _ _ He (EX e (aget_vec_in _ _ _ He))).
  apply member_fin; [exact PE|]. apply Rabs_le_inv in B. lra.
Qed.
Lemma uni_fl_exact r n A b x w m t : system r n A b x -> weights_from 0 r w -> Forall (exact_mid_rad m) (adata (adat b)) ->
  returns (uni_value_fl A b x w) m t -> num_lt t (PInt 0) = true ->
  forall P, in_matrix A P -> ~ in_rhs b (row_value n P x).
Proof.
  intros SY WW EX H Ht P HP IN. rewrite Forall_forall in EX.
  destruct (uni_fl_balls r n A b x w m t SY WW ltac:(intros z Hz; eexists; eexists; exact (EX z Hz)) H Ht P HP) as (i & e & c & q & He & Hm & L).
  destruct (entry_facts _ _ _ _ _ _ _ SY He) as [_ PE]. assert (X := EX e (aget_vec_in _ _ _ He)).
  destruct X as (vc & vr & Rc & Rr & _ & _ & Ec & Er). destruct Hm as (vc' & vr' & Rc' & Rr' & _ & _ & Ec' & Er').
  assert (vc' = vc) by (eapply ret_det; eauto). assert (vr' = vr) by (eapply ret_det; eauto). subst vc' vr'.
  assert (I := IN i e He). apply (member_fin e _ PE) in I. revert L. apply Rle_not_lt. apply Rabs_le. lra.
Qed.

(** ** In general *)
Lemma tol_fl_margin r n A b x w t : system r n A b x -> weights_from 1 r w -> Forall bounded_entry (adata (adat b)) ->
  returns (tol_value_fl A b x w) mode_NE t -> num_le (PInt 0) t = true ->
  forall P, in_matrix A P -> in_rhs_moved b rounding_margin (row_value n P x).
Proof.
  intros SY WW BD H Ht P HP i e He. destruct (entry_facts _ _ _ _ _ _ _ SY He) as [SE PE].
  assert (SY' := SY). destruct SY' as (_ & _ & _ & _ & _ & _ & F & _). rewrite Forall_forall in BD, F.
  assert (MR : forall z, In z (adata (adat b)) -> exists c q, mid_rad mode_NE z c q).
  { intros z Hz. destruct (F z Hz) as [S1 P1]. destruct (mid_rad_margin z S1 P1 (BD z Hz)) as (c & q & Q & _). eauto. }
  destruct (mid_rad_margin e SE PE (BD e (aget_vec_in _ _ _ He))) as (c & q & Hm & D).
  assert (B := tol_fl_balls r n A b x w mode_NE t SY WW MR H Ht P HP i e c q He Hm).
  apply Rabs_le_inv in B.
  assert (D1 := Rle_abs (c - (num_val (lo e) + num_val (hi e)) / 2)). assert (D2 := Rle_abs (- (c - (num_val (lo e) + num_val (hi e)) / 2))). rewrite Rabs_Ropp in D2.
  assert (D3 := Rle_abs (q - (num_val (hi e) - num_val (lo e)) / 2)). lra.
Qed.
Lemma uni_fl_margin r n A b x w t : system r n A b x -> weights_from 0 r w -> Forall bounded_entry (adata (adat b)) ->
  returns (uni_value_fl A b x w) mode_NE t -> num_lt t (PInt 0) = true ->
  forall P, in_matrix A P -> ~ in_rhs_moved b (fun e => - rounding_margin e) (row_value n P x).
Proof.
  intros SY WW BD H Ht P HP IN. assert (SY' := SY). destruct SY' as (_ & _ & _ & _ & _ & _ & F & _). rewrite Forall_forall in BD, F.
  assert (MR : forall z, In z (adata (adat b)) -> exists c q, mid_rad mode_NE z c q).
  { intros z Hz. destruct (F z Hz) as [S1 P1]. destruct (mid_rad_margin z S1 P1 (BD z Hz)) as (c & q & Q & _). eauto. }
  destruct (uni_fl_balls r n A b x w mode_NE t SY WW MR H Ht P HP) as (i & e & c & q & He & Hm & L).
  destruct (entry_facts _ _ _ _ _ _ _ SY He) as [SE PE].
  destruct (mid_rad_margin e SE PE (BD e (aget_vec_in _ _ _ He))) as (c' & q' & Hm' & D).
  destruct Hm as (vc & vr & Rc & Rr & _ & _ & Ec & Er). destruct Hm' as (vc' & vr' & Rc' & Rr' & _ & _ & Ec' & Er').
  assert (vc' = vc) by (eapply ret_det; eauto). assert (vr' = vr) by (eapply ret_det; eauto). subst vc' vr'. rewrite Ec in Ec'. rewrite Er in Er'. subst c' q'.
  assert (I := IN i e He). cbn beta in I. revert L. apply Rle_not_lt.
  assert (D1 := Rle_abs (c - (num_val (lo e) + num_val (hi e)) / 2)). assert (D2 := Rle_abs (- (c - (num_val (lo e) + num_val (hi e)) / 2))). rewrite Rabs_Ropp in D2.
  assert (D3 := Rle_abs (- (q - (num_val (hi e) - num_val (lo e)) / 2))). rewrite Rabs_Ropp in D3.
  apply Rabs_le. lra.
Qed.

(** ** Int endpoints *)
Lemma half_int_gen z : (Z.abs z <= 2 ^ 53)%Z -> generic_format radix2 fexp (/ 2 * IZR z).
Proof.
  intro H. apply generic_format_FLT. 
  assert (F : FLT_format radix2 (-1074) 53 (/ 2 * IZR z)); [|exact F].
  destruct (Z.eq_dec (Z.abs z) (2 ^ 53)) as [E|E].
  - assert (H0 : exists k, z = (2 * k)%Z /\ (Z.abs k < 2 ^ 53)%Z).
    { destruct (Z_le_gt_dec 0 z); [exists (2 ^ 52)%Z | exists (- 2 ^ 52)%Z]; split; lia. }
    destruct H0 as (k & -> & Hk). exists (Float radix2 k 0); [|exact Hk|cbn [Fexp]; lia].
    unfold F2R. cbn [Fnum Fexp bpow]. rewrite mult_IZR. field.
  - exists (Float radix2 z (-1)); [|change (Z.abs z < 2 ^ 53)%Z; lia|cbn [Fexp]; lia].
    unfold F2R. cbn [Fnum Fexp]. change (bpow radix2 (-1)) with (/ 2). ring.
Qed.
Lemma int_gen z : (Z.abs z <= 2 ^ 53)%Z -> generic_format radix2 fexp (IZR z).
Proof.
  intro H. replace (IZR z) with (2 * (/ 2 * IZR z)) by field. apply gen_double. now apply half_int_gen.
Qed.
Lemma half_round_int m z : (Z.abs z <= 2 ^ 53)%Z -> no_overflow m (IZR z) /\ xround m (/ 2 * rnd m (IZR z)) = XFin (IZR z / 2).
Proof.
  intro H. assert (E : rnd m (IZR z) = IZR z) by (apply round_generic; auto with typeclass_instances; now apply int_gen).
  assert (B : Rabs (IZR z) < bpow radix2 1024).
  { rewrite <- abs_IZR. apply Rle_lt_trans with (IZR (2 ^ 53)); [now apply IZR_le|]. change (IZR (2 ^ 53)) with (bpow radix2 53). apply bpow_lt. lia. }
  split; [unfold no_overflow; now rewrite E|]. rewrite E.
  assert (E2 : rnd m (/ 2 * IZR z) = / 2 * IZR z) by (apply round_generic; auto with typeclass_instances; now apply half_int_gen).
  unfold xround. rewrite E2. rewrite Rlt_bool_true; [f_equal; field|]. rewrite Rabs_mult, (Rabs_pos_eq (/2)) by lra. assert (P := Rabs_pos (IZR z)). lra.
Qed.
Lemma int_exact X m : int_entry X -> small_itv X -> exact_mid_rad m X.
Proof.
  intros (a & b & La & Hb) SX. assert (S2 := SX). destruct S2 as [Sa Sb]. rewrite La in Sa. rewrite Hb in Sb. cbn [small_num] in Sa, Sb.
  assert (S53 : (2 ^ 53 = 2 ^ 26 * 2 ^ 27)%Z) by reflexivity.
  destruct (half_round_int m (b + a)) as [N1 E1]; [lia|]. destruct (half_round_int m (b - a)) as [N2 E2]; [lia|].
  rewrite plus_IZR in N1, E1. rewrite minus_IZR in N2, E2. unfold Rminus in N2, E2.
  destruct (mid_run X m (IZR a) (IZR b) SX ltac:(now rewrite La) ltac:(now rewrite Hb) N1) as (vc & Rc & Vc). rewrite E1 in Vc.
  destruct (rad_run' X m (IZR a) (IZR b) SX ltac:(now rewrite La) ltac:(now rewrite Hb) N2) as (vq & Rq & Vq). rewrite E2 in Vq.
  destruct (xfin_num _ _ Vc) as [Fc Nc]. destruct (xfin_num _ _ Vq) as [Fq Nq].
  unfold exact_mid_rad. rewrite La, Hb. cbn [num_val]. exists vc, vq. repeat split; try assumption. rewrite Nc. f_equal. ring.
Qed.
