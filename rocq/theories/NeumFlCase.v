(** Sums of doubles from the left, and examples for Neumaier. *)
From Coq Require Import ZArith Reals List Bool Arith Lia Lra.
From Flocq Require Import Core IEEE754.BinarySingleNaN.
From Flocq.Prop Require Import Plus_error Relative.
From Verif Require Import Base PyNum Kernel Spec Expr Arrays Construct SpecArray XReal XArith KernelProofs RecogFlProofs RecogFlCor GSProofs SpecUssFl UssFlProofs Witness SpecNeumFl.
Import ListNotations.
Open Scope R_scope.

Lemma fadd_err (a c : flt) : is_finite a = true -> is_finite c = true -> Rabs (B2R a + B2R c) <= bpow radix2 1010 ->
  is_finite (fadd mode_NE a c) = true /\ Rabs (B2R (fadd mode_NE a c) - (B2R a + B2R c)) <= bpow radix2 (-53) * Rabs (B2R a + B2R c).
Proof.
  intros Fa Fc H. set (z := B2R a + B2R c) in *.
  destruct (FLT_plus_error_N_ex radix2 (-1074) 53 (fun z => negb (Z.even z)) (B2R a) (B2R c) (generic_format_B2R 53 1024 a) (generic_format_B2R 53 1024 c)) as (e & He & Hz).
  fold z in Hz. assert (Hz' : rnd mode_NE z = z * (1 + e)) by exact Hz.
  assert (U : Rabs e <= bpow radix2 (-53)).
  { eapply Rle_trans; [exact He|]. eapply Rle_trans; [apply Relative.u_rod1pu_ro_le_u_ro|]. unfold Relative.u_ro. change (/ 2) with (bpow radix2 (-1)). rewrite <- bpow_plus. apply bpow_le. lia. }
  assert (E1 : Rabs e <= 1) by (eapply Rle_trans; [exact U|]; change 1 with (bpow radix2 0); apply bpow_le; lia).
  assert (XF : xflt (fadd mode_NE a c) = XFin (z * (1 + e))).
  { rewrite fadd_x, (proj1 (is_finite_x a) Fa), (proj1 (is_finite_x c) Fc). cbn [xadd]. fold z. unfold xround. rewrite Hz', Rlt_bool_true; [reflexivity|].
    rewrite Rabs_mult. apply Rle_lt_trans with (bpow radix2 1010 * bpow radix2 1).
    - apply Rmult_le_compat; [apply Rabs_pos | apply Rabs_pos | exact H|]. eapply Rle_trans; [apply Rabs_triang|]. rewrite Rabs_R1. change (bpow radix2 1) with 2. lra.
    - rewrite <- bpow_plus. apply bpow_lt. lia. }
  assert (FF : is_finite (fadd mode_NE a c) = true) by (destruct (fadd mode_NE a c) as [|[|]| |]; try reflexivity; discriminate XF).
  split; [exact FF|]. rewrite (proj1 (is_finite_x _) FF) in XF. injection XF as XF. rewrite XF. replace (z * (1 + e) - z) with (e * z) by ring. rewrite Rabs_mult.
  apply Rmult_le_compat_r; [apply Rabs_pos | exact U].
Qed.
Lemma fold_err l : forall (s : flt) t a k, is_finite s = true -> Rabs t <= a -> Rabs (B2R s - t) <= ((1 + bpow radix2 (-53)) ^ k - 1) * a ->
  Forall (fun f => is_finite f = true) l -> (1 + bpow radix2 (-53)) ^ (k + length l) <= 2 -> a + lsum (map (fun f => Rabs (B2R f)) l) <= bpow radix2 1000 ->
  is_finite (fold_left (fadd mode_NE) l s) = true /\
  Rabs (B2R (fold_left (fadd mode_NE) l s) - (t + lsum (map (fun f => B2R f) l))) <= ((1 + bpow radix2 (-53)) ^ (k + length l) - 1) * (a + lsum (map (fun f => Rabs (B2R f)) l)).
Proof.
  assert (U0 := bpow_gt_0 radix2 (-53)). set (u := bpow radix2 (-53)) in *.
  induction l as [|f l IH]; intros s t a k Fs Ht Hs Fl Hk Ha.
  - cbn [fold_left map lsum fold_right length]. rewrite Nat.add_0_r, !Rplus_0_r. auto.
  - inversion Fl as [|? ? F1 F2]; subst. cbn [map lsum fold_right] in *. fold (lsum (map (fun f => B2R f) l)) in *. fold (lsum (map (fun f => Rabs (B2R f)) l)) in *.
    assert (N0 : 0 <= lsum (map (fun f => Rabs (B2R f)) l)) by (clear; induction l; cbn; [lra | fold (lsum (map (fun f => Rabs (B2R f)) l)); pose proof (Rabs_pos (B2R a)); lra]).
    set (p := (1 + u) ^ k) in *. assert (P1 : 1 <= p) by (apply pow_R1_Rle; lra).
    assert (P2 : p <= 2).
    { eapply Rle_trans; [|exact Hk]. apply Rle_pow; [lra | lia]. }
    assert (A0 : 0 <= a) by (eapply Rle_trans; [apply Rabs_pos | exact Ht]). assert (F0 := Rabs_pos (B2R f)).
    assert (Z : Rabs (B2R s + B2R f) <= p * (a + Rabs (B2R f))).
    { replace (B2R s + B2R f) with ((B2R s - t) + (t + B2R f)) by ring. eapply Rle_trans; [apply Rabs_triang|]. assert (T := Rabs_triang t (B2R f)). assert (0 <= (p - 1) * Rabs (B2R f)) by (apply Rmult_le_pos; lra). lra. }
    destruct (fadd_err s f Fs F1) as [G1 G2].
    { eapply Rle_trans; [exact Z|]. apply Rle_trans with (bpow radix2 1 * bpow radix2 1000); [apply Rmult_le_compat; try lra; change (bpow radix2 1) with 2; lra|]. rewrite <- bpow_plus. apply bpow_le. lia. }
    fold u in G2. cbn [fold_left].
    destruct (IH (fadd mode_NE s f) (t + B2R f) (a + Rabs (B2R f)) (S k) G1) as [I1 I2].
    + eapply Rle_trans; [apply Rabs_triang|]. lra.
    + fold u. cbn [pow]. fold p. replace (B2R (fadd mode_NE s f) - (t + B2R f)) with ((B2R (fadd mode_NE s f) - (B2R s + B2R f)) + (B2R s - t)) by ring.
      eapply Rle_trans; [apply Rabs_triang|]. assert (u * Rabs (B2R s + B2R f) <= u * (p * (a + Rabs (B2R f)))) by (apply Rmult_le_compat_l; lra). assert (0 <= (p - 1) * Rabs (B2R f)) by (apply Rmult_le_pos; lra). lra.
    + exact F2.
    + replace (S k + length l)%nat with (k + length (f :: l))%nat by (cbn; lia). exact Hk.
    + lra.
    + split; [exact I1|]. replace (S k + length l)%nat with (k + length (f :: l))%nat in I2 by (cbn; lia).
      rewrite <- !Rplus_assoc. exact I2.
Qed.
Lemma sum_rounded_within n : (1 + bpow radix2 (-53)) ^ n <= 2 -> sum_within sum_rounded n ((1 + bpow radix2 (-53)) ^ n - 1).
Proof.
  intros Hn l L F B.
  assert (EL : forall h : flt -> R, Rsum n (fun k => h (nth k l fnan)) = lsum (map h l)).
  { intro h. rewrite <- Rsum_lsum. f_equal. subst n. clear. apply (nth_ext _ _ (h fnan) (h fnan)); rewrite !map_length, seq_length; [reflexivity|]. intros k Hk.
    rewrite (map_nth h). rewrite (nth_indep _ _ (h (nth 0 l fnan))) by (rewrite map_length, seq_length; exact Hk). rewrite (map_nth (fun k => h (nth k l fnan)) (seq 0 (length l)) 0%nat k), seq_nth by exact Hk. reflexivity. }
  rewrite (EL (fun f => Rabs (B2R f))) in *. rewrite (EL (fun f => B2R f)).
  destruct (fold_err l f0 0 0 0 eq_refl) as [H1 H2].
  - rewrite Rabs_R0. lra.
  - cbn [pow]. assert (E : B2R f0 = 0) by reflexivity. rewrite E, Rminus_0_r, Rabs_R0. lra.
  - exact F.
  - cbn [Nat.add]. now rewrite L.
  - rewrite Rplus_0_l. exact B.
  - rewrite !Rplus_0_l in H2. cbn [Nat.add] in H2. rewrite L in H2. split; [exact H1 | exact H2].
Qed.
