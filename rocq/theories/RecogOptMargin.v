(** The sign of the constituents that calcfg computes for Tol and Uni. *)
From Coq Require Import ZArith Reals List Bool Arith Lia Lra.
From Flocq Require Import Core IEEE754.BinarySingleNaN.
From Verif Require Import Base PyNum Kernel Spec Expr Arrays Construct SpecArray XReal XArith KernelProofs KernelMore KernelAlg ExprProofs ArrayProofs ArrayMore ArrayMat ConstructProofs KaucherProofs
  RecogFl SpecRecogFl RecogFlProofs RecogFlCor HbrFl HbrFlProofs RohnFl GSProofs UssFl SpecUssFl UssFlProofs Ralgb5 RecogOpt RecogOptProofs.
Import ListNotations.
Open Scope R_scope.
Local Notation u := (bpow radix2 (-53)).
Local Notation t := (bpow radix2 (-1075)).

(** ** Real numbers *)
Lemma u_small : 0 < u /\ 64 * u <= 1 /\ 0 < t.
Proof.
  split; [apply bpow_gt_0|]. split; [|apply bpow_gt_0].
  change 64 with (bpow radix2 6). rewrite <- bpow_plus. change 1 with (bpow radix2 0). apply bpow_le. lia.
Qed.
Lemma err_sum c C D : Rabs ((c - rnd mode_NE (C + D)) - (c - C - D)) <= u * (Rabs C + Rabs D) + t.
Proof.
  replace (c - rnd mode_NE (C + D) - (c - C - D)) with (- (rnd mode_NE (C + D) - (C + D))) by ring. rewrite Rabs_Ropp.
  eapply Rle_trans; [apply nearest_err|]. destruct u_small as (U0 & _ & _). assert (T := Rabs_triang C D).
  assert (u * Rabs (C + D) <= u * (Rabs C + Rabs D)) by (apply Rmult_le_compat_l; lra). lra.
Qed.
(** One end of the residual. *)
Lemma end_le c C D q : Rabs (rnd mode_NE (c - rnd mode_NE (C + D))) <= q -> Rabs (c - C - D) <= q + 3 * u * q + 4 * t + u * (Rabs C + Rabs D).
Proof.
  intro H. destruct u_small as (U0 & U1 & T0). assert (E := err_sum c C D). assert (N := nearest_err (c - rnd mode_NE (C + D))).
  set (z := c - rnd mode_NE (C + D)) in *. set (y := c - C - D) in *. set (W := Rabs C + Rabs D) in *.
  assert (Z : Rabs z <= Rabs (rnd mode_NE z) + Rabs (rnd mode_NE z - z)).
  { replace z with (rnd mode_NE z + - (rnd mode_NE z - z)) at 1 by ring. eapply Rle_trans; [apply Rabs_triang|]. rewrite Rabs_Ropp. lra. }
  assert (Y : Rabs y <= Rabs z + Rabs (z - y)).
  { replace y with (z + - (z - y)) at 1 by ring. eapply Rle_trans; [apply Rabs_triang|]. rewrite Rabs_Ropp. lra. }
  assert (Az := Rabs_pos z). assert (0 <= q) by (eapply Rle_trans; [apply Rabs_pos | exact H]).
  assert (V1 : u * Rabs z <= 1 / 64 * Rabs z) by (apply Rmult_le_compat_r; lra). assert (V2 : Rabs z <= 2 * (q + t)) by lra.
  assert (V3 : u * Rabs z <= u * (2 * (q + t))) by (apply Rmult_le_compat_l; lra). assert (V4 : u * t <= 1 / 64 * t) by (apply Rmult_le_compat_r; lra).
  assert (V5 : 0 <= u * q) by (apply Rmult_le_pos; lra).
  assert (ZZ : Rabs z <= q + 3 * u * q + 3 * t) by (replace (u * (2 * (q + t))) with (2 * (u * q) + 2 * (u * t)) in V3 by ring; lra). lra.
Qed.
Lemma end_ge c C D q : q <= Rabs (rnd mode_NE (c - rnd mode_NE (C + D))) -> q - u * Rabs q - 2 * t - u * (Rabs C + Rabs D) <= Rabs (c - C - D).
Proof.
  intro H. destruct u_small as (U0 & U1 & T0). assert (E := err_sum c C D). assert (N := nearest_err (c - rnd mode_NE (C + D))).
  set (z := c - rnd mode_NE (C + D)) in *. set (y := c - C - D) in *. set (W := Rabs C + Rabs D) in *.
  assert (Z : Rabs (rnd mode_NE z) <= Rabs z + Rabs (rnd mode_NE z - z)).
  { replace (rnd mode_NE z) with (z + (rnd mode_NE z - z)) at 1 by ring. apply Rabs_triang. }
  assert (Y : Rabs z <= Rabs y + Rabs (z - y)).
  { replace z with (y + (z - y)) at 1 by ring. apply Rabs_triang. }
  assert (Az := Rabs_pos z). assert (ZZ : q - u * Rabs q - t <= Rabs z).
  { destruct (Rle_dec q (Rabs z)) as [L|L]; [assert (0 <= u * Rabs q) by (apply Rmult_le_pos; [lra | apply Rabs_pos]); lra|].
    assert (q <= Rabs q) by apply Rle_abs. nra. }
  lra.
Qed.
(** The same with the sign. *)
Lemma end_pos c C D q : 0 <= q -> q <= rnd mode_NE (c - rnd mode_NE (C + D)) -> q - u * q - 3 * t - u * (Rabs C + Rabs D) <= c - C - D.
Proof.
  intros Q H. destruct u_small as (U0 & U1 & T0). assert (E := err_sum c C D). assert (N := nearest_err (c - rnd mode_NE (C + D))).
  set (z := c - rnd mode_NE (C + D)) in *. set (y := c - C - D) in *. set (W := Rabs C + Rabs D) in *.
  apply Rabs_le_inv in E. apply Rabs_le_inv in N. assert (0 <= u * q) by (apply Rmult_le_pos; lra).
  assert (ZZ : q - u * q - 2 * t <= z); [|lra].
  destruct (Rle_dec 0 z) as [P|P].
  - rewrite Rabs_pos_eq in N by lra. destruct (Rle_dec q z) as [L|L]; [lra|]. assert (u * z <= u * q) by (apply Rmult_le_compat_l; lra). lra.
  - rewrite Rabs_left in N by lra. assert (u * - z <= 1 / 64 * - z) by (apply Rmult_le_compat_r; lra). lra.
Qed.
Lemma end_neg c C D q : 0 <= q -> rnd mode_NE (c - rnd mode_NE (C + D)) <= - q -> c - C - D <= - (q - u * q - 3 * t - u * (Rabs C + Rabs D)).
Proof.
  intros Q H. destruct u_small as (U0 & U1 & T0). assert (E := err_sum c C D). assert (N := nearest_err (c - rnd mode_NE (C + D))).
  set (z := c - rnd mode_NE (C + D)) in *. set (y := c - C - D) in *. set (W := Rabs C + Rabs D) in *.
  apply Rabs_le_inv in E. apply Rabs_le_inv in N. assert (0 <= u * q) by (apply Rmult_le_pos; lra).
  assert (ZZ : z <= - (q - u * q - 2 * t)); [|lra].
  destruct (Rle_dec 0 z) as [P|P].
  - rewrite Rabs_pos_eq in N by lra. assert (u * z <= 1 / 64 * z) by (apply Rmult_le_compat_r; lra). lra.
  - rewrite Rabs_left in N by lra. destruct (Rle_dec z (- q)) as [L|L]; [lra|]. assert (u * - z <= u * q) by (apply Rmult_le_compat_l; lra). lra.
Qed.
Lemma both_ends a d B : Rabs (a - d) <= B -> Rabs (a + d) <= B -> Rabs a + Rabs d <= B.
Proof. intros H1 H2. apply Rabs_le_inv in H1. apply Rabs_le_inv in H2. unfold Rabs. destruct (Rcase_abs a), (Rcase_abs d); lra. Qed.

(** ** The margin *)
Lemma covers g h n A b x i : 0 <= g <= 1 -> 0 <= h ->
  let S := mag_at b [i] + Rsum n (fun k => mag_at A [i; k] * abs_at x k) in
  slack g h n A b x i + 4 * u * (S + slack g h n A b x i) + 4 * t < uss_margin g h n A b x i /\ 0 <= S /\ 0 <= slack g h n A b x i.
Proof.
  intros Hg Hh S. destruct (sums_close n A b x i) as (B & R & S0 & X0 & L). fold S in B, R, S0, L. unfold slack, uss_margin. fold S.
  assert (B0 : 0 <= big n A x i).
  { apply Rsum_nn. intros k _. assert (M := mag_nn A [i; k]). assert (Q := rho_nn A [i; k]). assert (Y := abs_nn x k). nra. }
  set (X := Rsum n (abs_at x)) in *. clearbody S X. rewrite R. set (G := big n A x i) in *. clearbody G. clear L.
  assert (E1 : bpow radix2 (-52) = 2 * u) by (change 2 with (bpow radix2 1); rewrite <- bpow_plus; reflexivity).
  assert (E2 : bpow radix2 (-49) = 16 * u) by (change 16 with (bpow radix2 4); rewrite <- bpow_plus; reflexivity).
  assert (E3 : bpow radix2 (-1073) = 4 * t) by (change 4 with (bpow radix2 2); rewrite <- bpow_plus; reflexivity).
  assert (E4 : bpow radix2 (-1070) = 32 * t) by (change 32 with (bpow radix2 5); rewrite <- bpow_plus; reflexivity).
  rewrite E1, E3 in *. rewrite E2, E4. destruct u_small as (U0 & U1 & T0).
  set (v := u) in *. set (w := t) in *. clearbody v w. clear E1 E2 E3 E4 R.
  assert (GX : 0 <= w * X) by (apply Rmult_le_pos; lra). assert (GS : 0 <= g * S) by (apply Rmult_le_pos; lra). assert (US : 0 <= v * S) by (apply Rmult_le_pos; lra).
  assert (P1 : g * G <= g * ((1 + 2 * v) * S + 4 * w * X)) by (apply Rmult_le_compat_l; lra).
  assert (P2 : g * (4 * w * X) <= 4 * (w * X)) by nra.
  assert (P3 : g * ((1 + 2 * v) * S) <= (1 + 1 / 32) * (g * S)) by nra.
  assert (P4 : g * G <= (1 + 1 / 32) * (g * S) + 4 * (w * X)) by (replace (g * ((1 + 2 * v) * S + 4 * w * X)) with (g * ((1 + 2 * v) * S) + g * (4 * w * X)) in P1 by ring; lra).
  assert (P0 : 0 <= g * G) by (apply Rmult_le_pos; lra).
  set (s := 2 * v * S + 4 * w * (1 + X) + 2 * g * G + 2 * h).
  assert (Sb : s <= 2 * (v * S) + 4 * w + 12 * (w * X) + (2 + 1 / 16) * (g * S) + 2 * h).
  { unfold s. replace (2 * g * G) with (2 * (g * G)) by ring. replace (4 * w * (1 + X)) with (4 * w + 4 * (w * X)) by ring. lra. }
  assert (Sn : 0 <= s).
  { unfold s. replace (2 * g * G) with (2 * (g * G)) by ring. replace (4 * w * (1 + X)) with (4 * w + 4 * (w * X)) by ring. lra. }
  assert (Us : v * s <= 1 / 64 * s) by nra.
  replace ((3 * g + 16 * v) * S) with (3 * (g * S) + 16 * (v * S)) by ring. replace (32 * w * (1 + X)) with (32 * w + 32 * (w * X)) by ring.
  replace (4 * v * (S + s)) with (4 * (v * S) + 4 * (v * s)) by ring.
  split; [|split]; lra.
Qed.

(** ** One row *)
Section Row.
Variables (g h : R) (r n : nat) (A b : aitv) (x : arr pynum) (i : nat).
Hypothesis Hg : 0 <= g <= 1.
Hypothesis Hh : 0 <= h <= 1.
Hypothesis SY : system r n A b x.
Hypothesis MO : moderate A b x.
Hypothesis Hi : (i < r)%nat.
Notation B := (mid_at b [i]). Notation Rb := (rad_at b [i]). Notation sm := (sum_mid n A x i). Notation sr := (sum_rad n A x i).
Notation slack := (slack g h n A b x i). Notation margin := (uss_margin g h n A b x i).
Let S := mag_at b [i] + Rsum n (fun k => mag_at A [i; k] * abs_at x k).
Lemma rads_nn : 0 <= Rb /\ 0 <= sr /\ forall k, (k < n)%nat -> 0 <= rad_at A [i; k].
Proof.
  destruct (left_nn r n A b x i SY MO Hi) as (_ & RB & RA). split; [exact RB|]. split; [|exact RA].
  apply Rsum_nn. intros k Hk. apply Rmult_le_pos; [now apply RA | apply abs_nn].
Qed.
Lemma mid_rad_mag k : (k < n)%nat -> Rabs (mid_at A [i; k]) + rad_at A [i; k] <= mag_at A [i; k].
Proof.
  intro Hk. destruct (entryA r n A b x SY MO i k Hi Hk) as (e & He & _ & Pe & _). unfold mid_at, rad_at, mag_at. rewrite He. destruct Pe as [_ L]. unfold magnitude.
  assert (Q1 := Rmax_l (Rabs (num_val (lo e))) (Rabs (num_val (hi e)))). assert (Q2 := Rmax_r (Rabs (num_val (lo e))) (Rabs (num_val (hi e)))).
  assert (Q3 := Rle_abs (num_val (hi e))). assert (Q4 : - num_val (lo e) <= Rabs (num_val (lo e))) by (rewrite <- Rabs_Ropp; apply Rle_abs).
  unfold Rabs at 1. destruct Rcase_abs; lra.
Qed.
Lemma sums_mag : Rabs sm + sr <= S.
Proof.
  apply Rle_trans with (Rsum n (fun k => mag_at A [i; k] * abs_at x k)); [|assert (M := mag_nn b [i]); unfold S; lra].
  assert (Q : Rabs sm <= Rsum n (fun k => Rabs (mid_at A [i; k]) * abs_at x k)).
  { unfold sum_mid. eapply Rle_trans; [apply Rsum_abs|]. apply Rsum_le. intros k Hk. rewrite Rabs_mult, <- abs_val. lra. }
  apply Rle_trans with (Rsum n (fun k => Rabs (mid_at A [i; k]) * abs_at x k) + sr); [lra|]. unfold sum_rad. rewrite <- Rsum_add. apply Rsum_le. intros k Hk.
  rewrite <- Rmult_plus_distr_r. apply Rmult_le_compat_r; [apply abs_nn | now apply mid_rad_mag].
Qed.
Variables c C G q : R.
Hypothesis CL : Rabs (c - B) + Rabs (q - Rb) + Rabs (C - sm) + Rabs (G - sr) <= slack.
Lemma sizes : Rabs q <= S + slack /\ Rabs C + Rabs G <= S + slack.
Proof.
  assert (Y1 := Rabs_pos (c - B)). assert (Y2 := Rabs_pos (q - Rb)). assert (Y3 := Rabs_pos (C - sm)). assert (Y4 := Rabs_pos (G - sr)).
  destruct rads_nn as (RB & SR & _). assert (SM := sums_mag).
  assert (RM : Rb <= S).
  { unfold S. assert (M := rad_le_mag b [i]). rewrite Rabs_pos_eq in M by exact RB. assert (0 <= Rsum n (fun k => mag_at A [i; k] * abs_at x k)); [|lra].
    apply Rsum_nn. intros k _. apply Rmult_le_pos; [apply mag_nn | apply abs_nn]. }
  assert (T1 : Rabs q <= Rabs (q - Rb) + Rabs Rb) by (replace q with (q - Rb + Rb) at 1 by ring; apply Rabs_triang). rewrite (Rabs_pos_eq Rb) in T1 by exact RB.
  assert (T2 : Rabs C <= Rabs (C - sm) + Rabs sm) by (replace C with (C - sm + sm) at 1 by ring; apply Rabs_triang).
  assert (T3 : Rabs G <= Rabs (G - sr) + Rabs sr) by (replace G with (G - sr + sr) at 1 by ring; apply Rabs_triang). rewrite (Rabs_pos_eq sr) in T3 by exact SR.
  split; lra.
Qed.
Notation a1 := (rnd mode_NE (c - rnd mode_NE (C + G))). Notation a2 := (rnd mode_NE (c - rnd mode_NE (C - G))).
Ltac bounds :=
  destruct (covers g h n A b x i Hg (proj1 Hh)) as (MC & S0 & SN); fold S in MC, S0; destruct sizes as [Sq SW];
  destruct u_small as (U0 & U1 & T0); destruct rads_nn as (RB & SR & _);
  assert (K0 : 0 <= u * (S + slack)) by (apply Rmult_le_pos; lra);
  assert (K1 : u * Rabs q <= u * (S + slack)) by (apply Rmult_le_compat_l; lra);
  assert (K2 : u * (Rabs C + Rabs G) <= u * (S + slack)) by (apply Rmult_le_compat_l; lra);
  assert (Y1 := Rabs_pos (c - B)); assert (Y2 := Rabs_pos (q - Rb)); assert (Y3 := Rabs_pos (C - sm)); assert (Y4 := Rabs_pos (G - sr));
  assert (Z1 := Rle_abs (q - Rb)); assert (Z2 : - (q - Rb) <= Rabs (q - Rb)) by (rewrite <- Rabs_Ropp; apply Rle_abs);
  assert (Z3 : Rabs G <= Rabs (G - sr) + sr) by (rewrite <- (Rabs_pos_eq sr SR) at 2; replace G with (G - sr + sr) at 1 by ring; apply Rabs_triang);
  assert (Z4 : sr <= Rabs (G - sr) + Rabs G) by (assert (QQ := Rle_abs G); assert (QQ2 : sr - G <= Rabs (G - sr)) by (rewrite Rabs_minus_sym; apply Rle_abs); lra);
  assert (Z5 : Rabs (B - sm) <= Rabs (c - C) + Rabs (c - B) + Rabs (C - sm)) by
    (replace (B - sm) with (c - C + (- (c - B) + (C - sm))) by ring; eapply Rle_trans; [apply Rabs_triang|];
     assert (QQ := Rabs_triang (- (c - B)) (C - sm)); rewrite Rabs_Ropp in QQ; lra);
  assert (Z6 : Rabs (c - C) <= Rabs (B - sm) + Rabs (c - B) + Rabs (C - sm)) by
    (replace (c - C) with (B - sm + ((c - B) + - (C - sm))) by ring; eapply Rle_trans; [apply Rabs_triang|];
     assert (QQ := Rabs_triang (c - B) (- (C - sm))); rewrite Rabs_Ropp in QQ; lra).
Lemma row_tol_le : Rmax (Rabs a1) (Rabs a2) <= q -> Rabs (B - sm) + sr <= Rb + margin.
Proof.
  intro H. assert (H1 := Rle_trans _ _ _ (Rmax_l _ _) H). assert (H2 := Rle_trans _ _ _ (Rmax_r _ _) H). apply end_le in H1.
  replace (C - G) with (C + - G) in H2 by ring. apply end_le in H2. rewrite Rabs_Ropp in H2. replace (c - C - - G) with (c - C + G) in H2 by ring.
  assert (H3 := both_ends _ _ _ H1 H2). bounds. assert (Q := Rle_abs q). assert (u * q <= u * Rabs q) by (apply Rmult_le_compat_l; lra). lra.
Qed.
Lemma row_tol_gt : q < Rmax (Rabs a1) (Rabs a2) -> Rb - margin < Rabs (B - sm) + sr.
Proof.
  intro H. assert (H3 : q - u * Rabs q - 2 * t - u * (Rabs C + Rabs G) <= Rabs (c - C) + Rabs G).
  { destruct (Rle_dec q (Rabs a1)) as [L|L].
    - apply end_ge in L. assert (Q := Rabs_triang (c - C) (- G)). rewrite Rabs_Ropp in Q. replace (c - C + - G) with (c - C - G) in Q by ring. lra.
    - assert (L2 : q <= Rabs a2) by (unfold Rmax in H; destruct Rle_dec in H; lra). replace (C - G) with (C + - G) in L2 by ring. apply end_ge in L2. rewrite Rabs_Ropp in L2.
      assert (Q := Rabs_triang (c - C) G). replace (c - C - - G) with (c - C + G) in L2 by ring. lra. }
  bounds. lra.
Qed.
(** Uni: the product of the ends at most a tiny positive number, or the nearer end close to 0. *)
Lemma row_uni_le m0 : 0 <= m0 -> 0 <= q ->
  (a1 <= 0 <= a2 \/ a2 <= 0 <= a1 \/ Rabs a1 <= q + m0 \/ Rabs a2 <= q + m0) -> Rabs (B - sm) <= sr + Rb + margin + 2 * m0.
Proof.
  intros M0 Q0 H. assert (H3 : Rabs (c - C) <= Rabs G + q + m0 + 3 * u * (q + m0) + 4 * t + u * (Rabs C + Rabs G)).
  { destruct u_small as (U0 & U1 & T0). assert (V : 0 <= u * (q + m0)) by (apply Rmult_le_pos; lra). assert (LG := Rle_abs G). assert (LG2 : - G <= Rabs G) by (rewrite <- Rabs_Ropp; apply Rle_abs).
    assert (N1 := end_pos c C G 0 (Rle_refl 0)). assert (N2 := end_neg c C G 0 (Rle_refl 0)). assert (N3 := end_pos c C (- G) 0 (Rle_refl 0)). assert (N4 := end_neg c C (- G) 0 (Rle_refl 0)).
    rewrite Ropp_0 in N2, N4. rewrite Rabs_Ropp in N3, N4. replace (C + - G) with (C - G) in N3, N4 by ring.
    destruct H as [[L1 L2]|[[L1 L2]|[L|L]]].
    - specialize (N2 L1). specialize (N3 L2). apply Rabs_le. lra.
    - specialize (N1 L2). specialize (N4 L1). apply Rabs_le. lra.
    - apply end_le in L. apply Rabs_le_inv in L. apply Rabs_le. lra.
    - replace (C - G) with (C + - G) in L by ring. apply end_le in L. rewrite Rabs_Ropp in L. apply Rabs_le_inv in L. apply Rabs_le. lra. }
  bounds. rewrite (Rabs_pos_eq q Q0) in *. assert (u * m0 <= 1 / 64 * m0) by (apply Rmult_le_compat_r; lra). lra.
Qed.
Lemma row_uni_gt : 0 <= q -> (q < a1 /\ q < a2 \/ a1 < - q /\ a2 < - q) -> Rb + sr - margin < Rabs (B - sm).
Proof.
  intros Q0 H. assert (H3 : q - u * q - 3 * t - u * (Rabs C + Rabs G) <= Rabs (c - C) - Rabs G).
  { destruct H as [[L1 L2]|[L1 L2]]; replace (C - G) with (C + - G) in L2 by ring.
    - apply Rlt_le in L1, L2. apply end_pos in L1; [|exact Q0]. apply end_pos in L2; [|exact Q0]. rewrite Rabs_Ropp in L2. assert (LC := Rle_abs (c - C)).
      unfold Rabs at 4. destruct Rcase_abs; lra.
    - apply Rlt_le in L1, L2. apply end_neg in L1; [|exact Q0]. apply end_neg in L2; [|exact Q0]. rewrite Rabs_Ropp in L2. assert (LC : - (c - C) <= Rabs (c - C)) by (rewrite <- Rabs_Ropp; apply Rle_abs).
      unfold Rabs at 4. destruct Rcase_abs; lra. }
  bounds. rewrite (Rabs_pos_eq q Q0) in *. lra.
Qed.
Lemma row_neg_rad : q < 0 -> Rb < margin.
Proof. intro H. bounds. lra. Qed.
End Row.
