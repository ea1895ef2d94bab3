(** Proofs about maximize of Tol, Uni and Uss in binary64. *)
From Coq Require Import ZArith Reals List Bool Arith Lia Lra.
From Flocq Require Import Core IEEE754.BinarySingleNaN.
From Verif Require Import Base PyNum Kernel Spec Expr Arrays Construct SpecArray XReal XArith KernelProofs KernelMore KernelAlg ExprProofs ArrayProofs ArrayMore ArrayMat ConstructProofs KaucherProofs
  RecogFl SpecRecogFl RecogFlProofs RecogFlCor HbrFl HbrFlProofs RohnFl GSProofs UssFl SpecUssFl UssFlProofs Ralgb5 RalgbProofs RecogOpt.
Import ListNotations.
Open Scope R_scope.

Section Parts.
Variables (fdot : list (flt * flt) -> flt) (g h : R) (r n : nat) (A b : aitv) (x : arr pynum).
Hypothesis HD : dot_within fdot n g h.
Hypothesis Hg : 0 <= g <= 1.
Hypothesis Hh : 0 <= h <= 1.
Hypothesis Hn : (Z.of_nat n <= 2 ^ 100)%Z.
Hypothesis SY : system r n A b x.
Hypothesis MO : moderate A b x.
Notation big := (big n A x). Notation slack := (slack g h n A b x).
Notation one_dot := (one_dot fdot g h r n A b x HD Hg Hn SY MO).
Notation f_mv_get := (f_mv_get fdot r n).
Definition sum_mid (i : nat) : R := Rsum n (fun k => mid_at A [i; k] * val_at x k).
Definition sum_rad (i : nat) : R := Rsum n (fun k => rad_at A [i; k] * abs_at x k).
Lemma sums_small i : (i < r)%nat -> Rabs (sum_mid i) <= bpow radix2 902 /\ Rabs (sum_rad i) <= bpow radix2 902 /\ slack i <= bpow radix2 1001.
Proof.
  intro Hi. destruct (big_small r n A b x Hn SY MO i Hi) as [B0 B1]. destruct (entryb r n A b x SY MO i Hi) as (e & He & Se & Pe & Me).
  assert (M3 : mag_at b [i] <= bpow radix2 400) by (unfold mag_at; rewrite He; exact Me).
    assert (M4 : Rabs (Rsum n (fun k => rad_at A [i; k] * abs_at x k)) <= big i).
    { eapply Rle_trans; [apply Rsum_abs|]. apply Rsum_le. intros k Hk. rewrite Rabs_mult, (Rabs_pos_eq (abs_at x k)) by apply abs_nn.
      apply Rmult_le_compat_r; [apply abs_nn|]. assert (Z1 := rad_le_mag A [i; k]). assert (Z2 := rho_nn A [i; k]). lra. }
    assert (M5 : Rabs (Rsum n (fun k => mid_at A [i; k] * val_at x k)) <= big i).
    { eapply Rle_trans; [apply Rsum_abs|]. apply Rsum_le. intros k Hk. rewrite Rabs_mult, <- abs_val.
      apply Rmult_le_compat_r; [apply abs_nn|]. assert (Z1 := mid_le_mag A [i; k]). assert (Z2 := rho_nn A [i; k]). lra. }
    assert (M6 : Rsum n (fun k => rho A [i; k] * abs_at x k) <= big i).
    { apply Rsum_le. intros k Hk. apply Rmult_le_compat_r; [apply abs_nn|]. assert (Z1 := mag_nn A [i; k]). lra. }
    assert (N1 : bpow radix2 400 <= bpow radix2 902) by (apply bpow_le; lia).
    assert (N2 : 8 * bpow radix2 902 <= bpow radix2 1001) by (change 8 with (bpow radix2 3); rewrite <- bpow_plus; apply bpow_le; lia).
    assert (N3 : rho b [i] <= bpow radix2 400 + 1).
    { unfold rho. assert (P : bpow radix2 (-52) <= 1) by (change 1 with (bpow radix2 0); apply bpow_le; lia). assert (P0 := bpow_ge_0 radix2 (-52)).
      assert (Q : bpow radix2 (-1073) <= 1) by (change 1 with (bpow radix2 0); apply bpow_le; lia). assert (Z1 := mag_nn b [i]).
      assert (bpow radix2 (-52) * mag_at b [i] <= 1 * mag_at b [i]) by (apply Rmult_le_compat_r; lra). lra. }
    assert (N4 : 3 <= bpow radix2 902) by (apply Rle_trans with (bpow radix2 2); [simpl; lra | apply bpow_le; lia]).
    unfold sum_mid, sum_rad, UssFlProofs.slack. split; [|split].
    - lra.
    - lra.
    - assert (g * big i <= 1 * big i) by (apply Rmult_le_compat_r; lra). lra.
Qed.

Lemma parts_rows I J Q : returns (calc_parts fdot A b x) mode_NE (I, J, Q) ->
  ashape I = [r] /\ ashape J = [r] /\ ashape Q = [r] /\ (0 < r)%nat /\ forall i, (i < r)%nat -> exists fi fs c C G q,
    aget I [i] = Some fi /\ aget J [i] = Some fs /\
    xflt fi = XFin (rnd mode_NE (c - rnd mode_NE (C + G))) /\ xflt fs = XFin (rnd mode_NE (c - rnd mode_NE (C - G))) /\ xflt (f_get Q [i]) = XFin q /\
    Rabs (c - mid_at b [i]) + Rabs (q - rad_at b [i]) + Rabs (C - sum_mid i) + Rabs (G - sum_rad i) <= slack i.
Proof.
  intros H. assert (SY' := SY). destruct SY' as (N0 & [CA WA] & SA & GA & [Cb Wb] & Sb & Fb & Wx & Sx & Fx).
  assert (MO' := MO). destruct MO' as (MA & Mb & Mx).
  unfold calc_parts in H. rewrite SA, Sx in H. rewrite CA in SA. rewrite Cb in Sb.
  unfold arr_rad, arr_mid in H.
  destruct (Nat.eq_dec r 0) as [R0|R0].
  { exfalso. assert (L : adata (adat A) = []) by (apply length_zero_iff_nil; rewrite WA, SA, R0; reflexivity).
    unfold returns, outcome, vectorize_num, vectorize, mbind in H. rewrite L in H. discriminate. }
  assert (Nb : adata (adat b) <> []) by (intro L; apply (f_equal (@length itv)) in L; rewrite Wb, Sb in L; simpl in L; lia).
  assert (NA : adata (adat A) <> []) by (intro L; apply (f_equal (@length itv)) in L; rewrite WA, SA in L; simpl in L; nia).
  assert (TB : forall e, In e (adata (adat b)) -> (exists v, returns (mid e) mode_NE v) /\ exists v, returns (rad e) mode_NE v).
  { intros e He. rewrite Forall_forall in Fb, Mb. destruct (Fb e He). apply entry_total; auto. }
  assert (TA : forall e, In e (adata (adat A)) -> (exists v, returns (mid e) mode_NE v) /\ exists v, returns (rad e) mode_NE v).
  { intros e He. rewrite Forall_forall in MA. destruct (MA e He) as (? & ? & ?). apply entry_total; auto. }
  rewrite keeps_returns in H by (apply keeps_vectorize_num, keeps_mid). destruct H as (C0 & HC0 & H).
  rewrite keeps_returns in H by apply keeps_f_of. destruct H as (C & HC & H).
  destruct (doubles mid A mode_NE keeps_mid (fun e v => mid_double e mode_NE v) NA (fun e He => proj1 (TA e He))) as (C0' & C' & HC0' & HC' & SC & PC).
  rewrite (ret_det _ _ _ _ HC0 HC0') in *. rewrite (ret_det _ _ _ _ HC HC') in *. clear C0 C HC0 HC.
  rewrite keeps_returns in H by (apply keeps_vectorize_num, keeps_rad). destruct H as (G0 & HG0 & H).
  rewrite keeps_returns in H by apply keeps_f_of. destruct H as (G & HG & H).
  destruct (doubles rad A mode_NE keeps_rad (fun e v => rad_double e mode_NE v) NA (fun e He => proj2 (TA e He))) as (G0' & G' & HG0' & HG' & SG & PG).
  rewrite (ret_det _ _ _ _ HG0 HG0') in *. rewrite (ret_det _ _ _ _ HG HG') in *. clear G0 G HG0 HG.
  rewrite keeps_returns in H by (apply keeps_vectorize_num, keeps_mid). destruct H as (c0 & Hc0 & H).
  rewrite keeps_returns in H by apply keeps_f_of. destruct H as (c & Hc & H).
  destruct (doubles mid b mode_NE keeps_mid (fun e v => mid_double e mode_NE v) Nb (fun e He => proj1 (TB e He))) as (c0' & c' & Hc0' & Hc' & Sc & Pc).
  rewrite (ret_det _ _ _ _ Hc0 Hc0') in *. rewrite (ret_det _ _ _ _ Hc Hc') in *. clear c0 c Hc0 Hc.
  rewrite keeps_returns in H by (apply keeps_vectorize_num, keeps_rad). destruct H as (q0 & Hq0 & H).
  rewrite keeps_returns in H by apply keeps_f_of. destruct H as (q & Hq & H).
  destruct (doubles rad b mode_NE keeps_rad (fun e v => rad_double e mode_NE v) Nb (fun e He => proj2 (TB e He))) as (q0' & q' & Hq0' & Hq' & Sq & Pq).
  rewrite (ret_det _ _ _ _ Hq0 Hq0') in *. rewrite (ret_det _ _ _ _ Hq Hq') in *. clear q0 q Hq0 Hq.
  rewrite Nat.eqb_refl in H. cbn [negb] in H.
  rewrite keeps_returns in H by apply keeps_f_of. destruct H as (y & Hy & H).
  destruct (f_of_run x mode_NE) as (y' & Hy' & Sy & Py).
  { intros v Hv. rewrite Forall_forall in Fx. destruct (Fx v Hv) as [Sv _]. destruct (to_double_exact v (small_exact v Sv)) as (f & Hf & _). now exists f. }
  rewrite (ret_det _ _ _ _ Hy Hy') in *. clear y Hy.
  assert (KB : forall f (a c : arr flt), keeps_mode (f_bin f a c)) by (intros; apply keeps_binop_arr, f_op_keeps).
  rewrite keeps_returns in H by apply KB. destruct H as (u & Hu & H).
  rewrite keeps_returns in H by apply KB. destruct H as (I' & HI & H).
  rewrite keeps_returns in H by apply KB. destruct H as (vv & Hvv & H).
  rewrite keeps_returns in H by apply KB. destruct H as (J' & HJ & H).
  assert (EE : (I', J', q') = (I, J, Q)) by (unfold returns, outcome, mret in H; cbn [fst] in H; congruence). inversion EE; subst I' J' Q. clear EE H.
  rewrite Sb in Sq, Sc.
  destruct (binop_1 (f_op fadd) (f_mv fdot r n C' y') (f_mv fdot r n G' (amap fabs y')) mode_NE u r (f_op_keeps fadd) eq_refl eq_refl Hu) as (Su & Wu & Pu).
  destruct (binop_1 (f_op fsub) c' u mode_NE I r (f_op_keeps fsub) Sc Su HI) as (SI & WI & PI).
  destruct (binop_1 (f_op fsub) (f_mv fdot r n C' y') (f_mv fdot r n G' (amap fabs y')) mode_NE vv r (f_op_keeps fsub) eq_refl eq_refl Hvv) as (Svv & Wv & Pv).
  destruct (binop_1 (f_op fsub) c' vv mode_NE J r (f_op_keeps fsub) Sc Svv HJ) as (SJ & WJ & PJ).
  split; [exact SI|]. split; [exact SJ|]. split; [exact Sq|]. split; [lia|]. intros i Hi.
  destruct (Pu i Hi) as (C1 & g1 & u1 & A1 & A2 & A3 & A4). rewrite f_mv_get in A1, A2 by exact Hi.
  destruct (PI i Hi) as (c1 & u2 & i1 & B1 & B2 & B3 & B4). assert (u2 = u1) by congruence. subst u2.
  destruct (Pv i Hi) as (C2 & g2 & v1 & V1 & V2 & V3 & V4). rewrite f_mv_get in V1, V2 by exact Hi.
  assert (C2 = C1) by congruence. assert (g2 = g1) by congruence. subst C2 g2. clear V1 V2.
  destruct (PJ i Hi) as (c2 & v2 & s1 & D1 & D2 & D3 & D4). assert (v2 = v1) by congruence. assert (c2 = c1) by congruence. subst v2 c2.
  inversion A1 as [A1']. inversion A2 as [A2']. clear A1 A2.
  assert (E1 : u1 = fadd mode_NE C1 g1) by (unfold returns, outcome, f_op, mprim in A4; cbn [fst] in A4; congruence).
  assert (E2 : i1 = fsub mode_NE c1 u1) by (unfold returns, outcome, f_op, mprim in B4; cbn [fst] in B4; congruence).
  assert (E3 : v1 = fsub mode_NE C1 g1) by (unfold returns, outcome, f_op, mprim in V4; cbn [fst] in V4; congruence).
  assert (E4 : s1 = fsub mode_NE c1 v1) by (unfold returns, outcome, f_op, mprim in D4; cbn [fst] in D4; congruence).
  destruct (entryb r n A b x SY MO i Hi) as (e & He & Se & Pe & Me).
  assert (Q1 := Pq [i] e He). assert (Q2 := Pc [i] e He). unfold f_get in Q2. rewrite B1 in Q2.
  destruct (entry_close e c1 _ Se Pe Me Q2 Q1) as (Xc & Xq & Eb).
  set (q1 := f_get q' [i]) in *.
  (* the point *)
  assert (HX : forall k, (k < n)%nat -> xflt (f_get y' [k]) = XFin (B2R (f_get y' [k])) /\ B2R (f_get y' [k]) = val_at x k).
  { intros k Hk. destruct (pointx r n A b x SY MO k Hk) as (v & Hv & Sv & Fv & _). assert (P := Py [k] v Hv). destruct (to_double_exact v (small_exact v Sv)) as (f & Hf & Vf).
    assert (f = f_get y' [k]) by congruence. subst f. apply finite_num_x in Fv. rewrite Fv in Vf. destruct (fin_x _ _ Vf) as [F1 F2].
    split; [congruence|]. unfold val_at. now rewrite Hv. }
  assert (HY : forall k, (k < n)%nat -> f_get (amap fabs y') [k] = fabs (f_get y' [k])).
  { intros k Hk. unfold f_get. rewrite aget_map. destruct (aget y' [k]); reflexivity. }
  assert (HF : forall k, (k < n)%nat -> exists e, aget (adat A) [i; k] = Some e /\ 
    xflt (f_get C' [i; k]) = XFin (B2R (f_get C' [i; k])) /\ xflt (f_get G' [i; k]) = XFin (B2R (f_get G' [i; k])) /\
    Rabs (B2R (f_get C' [i; k]) - mid_at A [i; k]) + Rabs (B2R (f_get G' [i; k]) - rad_at A [i; k]) <= rho A [i; k]).
  { intros k Hk. destruct (entryA r n A b x SY MO i k Hi Hk) as (e' & He' & Se' & Pe' & Me'). exists e'. split; [exact He'|].
    destruct (entry_close e' _ _ Se' Pe' Me' (PC [i; k] e' He') (PG [i; k] e' He')) as (X1 & X2 & X3). split; [exact X1|]. split; [exact X2|].
    unfold mid_at, rad_at, rho, mag_at. rewrite He'. exact X3. }
  destruct (one_dot (fun k => rad_at A [i; k]) (fun k => Rabs (B2R (f_get G' [i; k]) - rad_at A [i; k])) i (fun k => f_get G' [i; k]) (fun k => f_get (amap fabs y') [k]) Hi) as [XG EG].
  { intros k Hk. destruct (HF k Hk) as (e' & _ & _ & X2 & X3). split; [exact X2|]. split; [apply Rle_refl|]. split; [apply rad_le_mag|].
    assert (P := Rabs_pos (B2R (f_get C' [i; k]) - mid_at A [i; k])). lra. }
  { intros k Hk. destruct (HX k Hk) as [X1 X2]. rewrite (HY k Hk).
    assert (X3 : xflt (fabs (f_get y' [k])) = XFin (Rabs (val_at x k))) by (rewrite xflt_abs, X1, X2; reflexivity).
    destruct (fin_x _ _ X3) as [_ X4]. rewrite X4. split; [exact X3|]. rewrite Rabs_Rabsolu. symmetry. apply abs_val. }
  destruct (one_dot (fun k => mid_at A [i; k]) (fun k => Rabs (B2R (f_get C' [i; k]) - mid_at A [i; k])) i (fun k => f_get C' [i; k]) (fun k => f_get y' [k]) Hi) as [XC EC].
  { intros k Hk. destruct (HF k Hk) as (e' & _ & X1 & X2 & X3). split; [exact X1|]. split; [apply Rle_refl|]. split; [apply mid_le_mag|].
    assert (P := Rabs_pos (B2R (f_get G' [i; k]) - rad_at A [i; k])). lra. }
  { intros k Hk. destruct (HX k Hk) as [X1 X2]. split; [exact X1|]. rewrite X2. symmetry. apply abs_val. }
  rewrite (Rsum_ext n _ (fun k => rad_at A [i; k] * abs_at x k)) in EG.
  2:{ intros k Hk. f_equal. rewrite (HY k Hk). destruct (HX k Hk) as [X1 X2].
      assert (X3 : xflt (fabs (f_get y' [k])) = XFin (Rabs (val_at x k))) by (rewrite xflt_abs, X1, X2; reflexivity).
      destruct (fin_x _ _ X3) as [_ X4]. rewrite X4. symmetry. apply abs_val. }
  rewrite (Rsum_ext n _ (fun k => mid_at A [i; k] * val_at x k)) in EC by (intros k Hk; now rewrite (proj2 (HX k Hk))).
  rewrite A2' in XG, EG. rewrite A1' in XC, EC. fold (sum_mid i) in EC. fold (sum_rad i) in EG.
  assert (SL : Rabs (B2R c1 - mid_at b [i]) + Rabs (B2R q1 - rad_at b [i]) + Rabs (B2R C1 - sum_mid i) + Rabs (B2R g1 - sum_rad i) <= slack i).
  { assert (L : Rsum n (fun k => Rabs (B2R (f_get G' [i; k]) - rad_at A [i; k]) * abs_at x k) + Rsum n (fun k => Rabs (B2R (f_get C' [i; k]) - mid_at A [i; k]) * abs_at x k)
        <= Rsum n (fun k => rho A [i; k] * abs_at x k)).
    { rewrite <- Rsum_add. apply Rsum_le. intros k Hk. destruct (HF k Hk) as (_ & _ & _ & _ & X3). rewrite <- Rmult_plus_distr_r.
      apply Rmult_le_compat_r; [apply abs_nn | lra]. }
    assert (Ebb : Rabs (B2R c1 - mid_at b [i]) + Rabs (B2R q1 - rad_at b [i]) <= rho b [i]).
    { unfold mid_at, rad_at, rho, mag_at. rewrite He. exact Eb. }
    unfold UssFlProofs.slack. lra. }
  destruct (sums_small i Hi) as (L1 & L2 & L3).
  assert (N1 : bpow radix2 902 <= bpow radix2 1001) by (apply bpow_le; lia).
  assert (N2 : 8 * bpow radix2 1001 <= bpow radix2 1004) by (change 8 with (bpow radix2 3); rewrite <- bpow_plus; apply bpow_le; lia).
  assert (N3 : 8 * bpow radix2 1004 <= bpow radix2 1023) by (change 8 with (bpow radix2 3); rewrite <- bpow_plus; apply bpow_le; lia).
  assert (N4 : bpow radix2 400 <= bpow radix2 1001) by (apply bpow_le; lia). assert (N5 := bpow_gt_0 radix2 1001). assert (N6 := bpow_gt_0 radix2 1004).
  assert (Y1 := Rabs_pos (B2R c1 - mid_at b [i])). assert (Y2 := Rabs_pos (B2R q1 - rad_at b [i])).
  assert (Y3 := Rabs_pos (B2R C1 - sum_mid i)). assert (Y4 := Rabs_pos (B2R g1 - sum_rad i)).
  assert (Bc : Rabs (B2R c1) <= bpow radix2 1004).
  { replace (B2R c1) with (B2R c1 - mid_at b [i] + mid_at b [i]) by ring. eapply Rle_trans; [apply Rabs_triang|].
    assert (M2 := mid_le_mag b [i]). assert (M3 : mag_at b [i] <= bpow radix2 400) by (unfold mag_at; rewrite He; exact Me). lra. }
  assert (BC : Rabs (B2R C1) + Rabs (B2R g1) <= bpow radix2 1004).
  { assert (P1 : Rabs (B2R C1) <= Rabs (B2R C1 - sum_mid i) + Rabs (sum_mid i)) by (replace (B2R C1) with (B2R C1 - sum_mid i + sum_mid i) at 1 by ring; apply Rabs_triang).
    assert (P2 : Rabs (B2R g1) <= Rabs (B2R g1 - sum_rad i) + Rabs (sum_rad i)) by (replace (B2R g1) with (B2R g1 - sum_rad i + sum_rad i) at 1 by ring; apply Rabs_triang).
    lra. }
  assert (BU : Rabs (B2R C1 + B2R g1) <= bpow radix2 1004) by (eapply Rle_trans; [apply Rabs_triang | lra]).
  assert (BV : Rabs (B2R C1 - B2R g1) <= bpow radix2 1004) by (unfold Rminus; eapply Rle_trans; [apply Rabs_triang|]; rewrite Rabs_Ropp; lra).
  assert (RB : forall z, Rabs z <= bpow radix2 1004 -> Rabs (rnd mode_NE z) <= bpow radix2 1004).
  { intros z Hz. rewrite rnd_abs. rewrite <- (round_generic radix2 fexp (round_mode mode_NE) (bpow radix2 1004)).
    - now apply rnd_mono.
    - apply generic_format_bpow. unfold SpecFloat.fexp, SpecFloat.emin. lia. }
  assert (Fu := fadd_fits C1 g1 _ _ XC XG ltac:(lra)). rewrite <- E1 in Fu.
  assert (Fv := fsub_fits C1 g1 _ _ XC XG ltac:(lra)). rewrite <- E3 in Fv.
  assert (Fi : xflt i1 = XFin (rnd mode_NE (B2R c1 - rnd mode_NE (B2R C1 + B2R g1)))).
  { rewrite E2. apply fsub_fits; [exact Xc | exact Fu|]. specialize (RB _ BU). unfold Rminus. eapply Rle_trans; [apply Rabs_triang|]. rewrite Rabs_Ropp. lra. }
  assert (Fs : xflt s1 = XFin (rnd mode_NE (B2R c1 - rnd mode_NE (B2R C1 - B2R g1)))).
  { rewrite E4. apply fsub_fits; [exact Xc | exact Fv|]. specialize (RB _ BV). unfold Rminus at 1. eapply Rle_trans; [apply Rabs_triang|]. rewrite Rabs_Ropp. lra. }
  exists i1, s1, (B2R c1), (B2R C1), (B2R g1), (B2R q1). auto 10.
Qed.
End Parts.
