(** How far the value reported by maximize is from the exact one. *)
From Coq Require Import ZArith Reals List Bool Arith Lia Lra.
From Flocq Require Import Core IEEE754.BinarySingleNaN.
From Verif Require Import Base PyNum Kernel Spec Expr Arrays Construct SpecArray XReal XArith KernelProofs KernelMore KernelAlg ExprProofs ArrayProofs ArrayMore ArrayMat ConstructProofs KaucherProofs
  RecogFl SpecRecogFl RecogFlProofs RecogFlCor HbrFl HbrFlProofs RohnFl GSProofs UssFl SpecUssFl UssFlProofs Ralgb5 RalgbProofs RalgbMore ConstrainedProofs RecogOpt SpecRecogOpt RecogOptProofs RecogOptMargin RecogOptSign RecogOptRun RecogOptTotal RecogOptFinal.
Import ListNotations.
Open Scope R_scope.
Local Notation u := (bpow radix2 (-53)).
Local Notation t := (bpow radix2 (-1075)).
Local Notation z537 := (bpow radix2 (-537)).

(** ** Real numbers *)
Lemma rnd_near a K : Rabs a <= K -> Rabs (rnd mode_NE a - a) <= u * K + t.
Proof.
  intro H. eapply Rle_trans; [apply nearest_err|]. destruct u_small as (U0 & _ & _).
  assert (u * Rabs a <= u * K) by (apply Rmult_le_compat_l; lra). lra.
Qed.
Lemma end_acc c C D K : Rabs c + (Rabs C + Rabs D) <= K -> Rabs (rnd mode_NE (c - rnd mode_NE (C + D)) - (c - C - D)) <= 3 * (u * K) + 3 * t.
Proof.
  intro H. destruct u_small as (U0 & U1 & T0). assert (E := err_sum c C D). set (z := c - rnd mode_NE (C + D)) in *. set (y := c - C - D) in *.
  assert (P1 := Rabs_pos c). assert (P2 := Rabs_pos C). assert (P3 := Rabs_pos D).
  assert (Y : Rabs y <= K).
  { unfold y. replace (c - C - D) with (c + (- C + - D)) by ring. assert (Q := Rabs_triang c (- C + - D)). assert (Q2 := Rabs_triang (- C) (- D)). rewrite !Rabs_Ropp in Q2. lra. }
  assert (E2 : u * (Rabs C + Rabs D) <= u * K) by (apply Rmult_le_compat_l; lra).
  assert (K0 : 0 <= u * K) by (apply Rmult_le_pos; lra).
  assert (Z : Rabs z <= K + (u * K + t)). { replace z with (y + (z - y)) by ring. assert (Q := Rabs_triang y (z - y)). lra. }
  assert (N := rnd_near z _ Z).
  assert (V : u * (u * K + t) <= 1 / 64 * (u * K + t)) by (apply Rmult_le_compat_r; lra).
  replace (u * (K + (u * K + t))) with (u * K + u * (u * K + t)) in N by ring.
  replace (rnd mode_NE z - y) with (rnd mode_NE z - z + (z - y)) by ring. assert (Q := Rabs_triang (rnd mode_NE z - z) (z - y)). lra.
Qed.
Lemma Rabs_close a b d : Rabs (a - b) <= d -> Rabs a - d <= Rabs b <= Rabs a + d.
Proof.
  intro H. assert (Q := Rabs_triang (a - b) b). replace (a - b + b) with a in Q by ring. assert (Q2 := Rabs_triang (b - a) a). replace (b - a + a) with b in Q2 by ring.
  rewrite (Rabs_minus_sym b a) in Q2. lra.
Qed.
(** The larger of two absolute values. *)
Lemma max_close a1 a2 y d e : Rabs (a1 - (y - d)) <= e -> Rabs (a2 - (y + d)) <= e -> Rabs (Rmax (Rabs a1) (Rabs a2) - (Rabs y + Rabs d)) <= e.
Proof.
  intros H1 H2. apply Rabs_le_inv in H1. apply Rabs_le_inv in H2. apply Rabs_le. unfold Rmax. destruct Rle_dec as [L|L]; revert L; unfold Rabs; repeat destruct Rcase_abs; intros; lra.
Qed.
(** The distance of 0 from the range between two numbers. *)
Lemma mig_close a1 a2 m y d e z : 0 <= z -> Rabs (a1 - (y - d)) <= e -> Rabs (a2 - (y + d)) <= e ->
  (m = 0 /\ a1 * a2 <= z * z \/ m = Rmin (Rabs a1) (Rabs a2) /\ 0 < a1 * a2) ->
  Rabs y - Rabs d - (e + z) <= m /\ (0 < m -> m <= Rabs y - Rabs d + e) /\ 0 <= m.
Proof.
  intros Z H1 H2 H. apply Rabs_le_inv in H1. apply Rabs_le_inv in H2.
  destruct H as [[-> H]|[-> H]].
  - split; [|split; lra].
    destruct (Rle_dec (Rabs a1) z) as [L1|L1]; [apply Rabs_le_inv in L1; unfold Rabs; repeat destruct Rcase_abs; lra|].
    destruct (Rle_dec (Rabs a2) z) as [L2|L2]; [apply Rabs_le_inv in L2; unfold Rabs; repeat destruct Rcase_abs; lra|].
    destruct (Rle_dec a1 0) as [P1|P1]; destruct (Rle_dec a2 0) as [P2|P2].
    + exfalso. rewrite (Rabs_left1 a1 P1) in L1. rewrite (Rabs_left1 a2 P2) in L2. assert (z * z <= z * - a2) by (apply Rmult_le_compat_l; lra). assert (z * - a2 < - a1 * - a2) by (apply Rmult_lt_compat_r; lra). nra.
    + unfold Rabs; repeat destruct Rcase_abs; lra.
    + unfold Rabs; repeat destruct Rcase_abs; lra.
    + exfalso. rewrite (Rabs_pos_eq a1) in L1 by lra. rewrite (Rabs_pos_eq a2) in L2 by lra. assert (z * z <= z * a2) by (apply Rmult_le_compat_l; lra). assert (z * a2 < a1 * a2) by (apply Rmult_lt_compat_r; lra). nra.
  - assert (S : 0 < a1 /\ 0 < a2 \/ a1 < 0 /\ a2 < 0).
    { destruct (Rlt_dec 0 a1) as [P1|P1]; [left; split; [exact P1|]; apply Rnot_le_lt; intro Q; assert (0 <= a1 * - a2) by (apply Rmult_le_pos; lra); lra|].
      right. destruct (Req_dec a1 0) as [E|E]; [subst; lra|]. split; [lra|]. apply Rnot_le_lt. intro Q. assert (0 <= - a1 * a2) by (apply Rmult_le_pos; lra). lra. }
    clear H. split; [|split].
    + apply Rmin_glb; destruct S as [[S1 S2]|[S1 S2]]; unfold Rabs; repeat destruct Rcase_abs; lra.
    + intros _. destruct S as [[S1 S2]|[S1 S2]].
      * rewrite (Rabs_pos_eq a1), (Rabs_pos_eq a2) by lra. assert (Q1 := Rmin_l a1 a2). assert (Q2 := Rmin_r a1 a2). unfold Rabs; repeat destruct Rcase_abs; lra.
      * rewrite (Rabs_left a1), (Rabs_left a2) by lra. assert (Q1 := Rmin_l (- a1) (- a2)). assert (Q2 := Rmin_r (- a1) (- a2)). unfold Rabs; repeat destruct Rcase_abs; lra.
    + apply Rmin_glb; apply Rabs_pos.
Qed.

(** ** One row *)
Section Row.
Variables (g h : R) (r n : nat) (A b : aitv) (x : arr pynum) (i : nat).
Hypothesis Hg : 0 <= g <= 1.
Hypothesis Hh : 0 <= h <= 1.
Hypothesis SY : system r n A b x.
Hypothesis MO : moderate A b x.
Hypothesis Hi : (i < r)%nat.
Notation B := (mid_at b [i]). Notation Rb := (rad_at b [i]). Notation sm := (sum_mid n A x i). Notation sr := (sum_rad n A x i).
Notation slack := (slack g h n A b x i). Notation margin := (uss_margin g h n A b x i).
Let S := mag_at b [i] + Rsum n (fun k => mag_at A [i; k] * abs_at x k).
Lemma mid_rad_b : Rabs B + Rb <= mag_at b [i].
Proof.
  destruct (entryb r n A b x SY MO i Hi) as (e & He & _ & Pe & _). unfold mid_at, rad_at, mag_at. rewrite He. destruct Pe as [_ L]. unfold magnitude.
  assert (Q1 := Rmax_l (Rabs (num_val (lo e))) (Rabs (num_val (hi e)))). assert (Q2 := Rmax_r (Rabs (num_val (lo e))) (Rabs (num_val (hi e)))).
  assert (Q3 := Rle_abs (num_val (hi e))). assert (Q4 : - num_val (lo e) <= Rabs (num_val (lo e))) by (rewrite <- Rabs_Ropp; apply Rle_abs).
  unfold Rabs at 1. destruct Rcase_abs; lra.
Qed.
Lemma all_mag : Rabs B + Rb + Rabs sm + sr <= S.
Proof.
  assert (Q : Rabs sm <= Rsum n (fun k => Rabs (mid_at A [i; k]) * abs_at x k)).
  { unfold sum_mid. eapply Rle_trans; [apply Rsum_abs|]. apply Rsum_le. intros k Hk. rewrite Rabs_mult, <- abs_val. lra. }
  assert (Q2 : Rsum n (fun k => Rabs (mid_at A [i; k]) * abs_at x k) + sr <= Rsum n (fun k => mag_at A [i; k] * abs_at x k)).
  { unfold sum_rad. rewrite <- Rsum_add. apply Rsum_le. intros k Hk. rewrite <- Rmult_plus_distr_r. apply Rmult_le_compat_r; [apply abs_nn | exact (mid_rad_mag r n A b x i SY MO Hi k Hk)]. }
  assert (Q3 := mid_rad_b). unfold S. lra.
Qed.
Variables c C G q m : R.
Hypothesis CL : Rabs (c - B) + Rabs (q - Rb) + Rabs (C - sm) + Rabs (G - sr) <= slack.
Notation a1 := (rnd mode_NE (c - rnd mode_NE (C + G))). Notation a2 := (rnd mode_NE (c - rnd mode_NE (C - G))).
Lemma total_size : Rabs q + (Rabs c + (Rabs C + Rabs G)) <= S + slack.
Proof.
  destruct (rads_nn r n A b x i SY MO Hi) as (RB & SR & _). assert (SM := all_mag).
  assert (T0 := Rabs_triang (c - B) B). replace (c - B + B) with c in T0 by ring. assert (T1 := Rabs_triang (q - Rb) Rb). replace (q - Rb + Rb) with q in T1 by ring.
  assert (T2 := Rabs_triang (C - sm) sm). replace (C - sm + sm) with C in T2 by ring. assert (T3 := Rabs_triang (G - sr) sr). replace (G - sr + sr) with G in T3 by ring.
  rewrite (Rabs_pos_eq Rb RB) in T1. rewrite (Rabs_pos_eq sr SR) in T3. lra.
Qed.
Lemma ends_acc : Rabs (a1 - (c - C - G)) <= 3 * (u * (S + slack)) + 3 * t /\ Rabs (a2 - (c - C + G)) <= 3 * (u * (S + slack)) + 3 * t.
Proof.
  assert (K := total_size). assert (Q := Rabs_pos q). split; [apply end_acc; lra|].
  replace (c - C + G) with (c - C - - G) by ring. replace (C - G) with (C + - G) by ring. apply end_acc. rewrite Rabs_Ropp. lra.
Qed.
Lemma last_rnd e : 0 <= e -> 0 <= m -> m <= Rabs (c - C) + Rabs G + e -> Rabs (rnd mode_NE (q - m) - (q - m)) <= u * (S + slack) + 1 / 64 * e + t.
Proof.
  intros E0 M0 M. assert (K := total_size). destruct u_small as (U0 & U1 & T0).
  assert (Q : Rabs (q - m) <= S + slack + e).
  { assert (P := Rabs_triang q (- m)). rewrite Rabs_Ropp, (Rabs_pos_eq m M0) in P. assert (P2 := Rabs_triang c (- C)). rewrite Rabs_Ropp in P2.
    change (c + - C) with (c - C) in P2. change (q + - m) with (q - m) in P. lra. }
  assert (N := rnd_near _ _ Q). assert (u * e <= 1 / 64 * e) by (apply Rmult_le_compat_r; lra). replace (u * (S + slack + e)) with (u * (S + slack) + u * e) in N by ring. lra.
Qed.
Ltac start :=
  destruct (covers g h n A b x i Hg (proj1 Hh)) as (MC & S0 & SN); fold S in MC, S0; destruct u_small as (U0 & U1 & T0); destruct ends_acc as [E1 E2];
  assert (K0 : 0 <= u * (S + slack)) by (apply Rmult_le_pos; lra);
  set (k := u * (S + slack)) in *; replace (4 * u * (S + slack)) with (4 * k) in MC by (unfold k; ring);
  assert (Y1 := Rabs_pos (c - B)); assert (Y2 := Rabs_pos (q - Rb)); assert (Y3 := Rabs_pos (C - sm)); assert (Y4 := Rabs_pos (G - sr));
  destruct (rads_nn r n A b x i SY MO Hi) as (RB & SR & _);
  assert (Z1 : Rabs (c - C - (B - sm)) <= Rabs (c - B) + Rabs (C - sm)) by
    (replace (c - C - (B - sm)) with (c - B + - (C - sm)) by ring; assert (QQ := Rabs_triang (c - B) (- (C - sm))); rewrite Rabs_Ropp in QQ; exact QQ);
  apply Rabs_close in Z1; assert (Z2 := Rabs_close G sr _ (Rle_refl _)); rewrite (Rabs_pos_eq sr SR) in Z2;
  assert (Z3 := Rle_abs (q - Rb)); assert (Z4 : - (q - Rb) <= Rabs (q - Rb)) by (rewrite <- Rabs_Ropp; apply Rle_abs).
Lemma row_tol_acc : m = Rmax (Rabs a1) (Rabs a2) -> Rabs (rnd mode_NE (q - m) - (Rb - (Rabs (B - sm) + sr))) < 2 * margin.
Proof.
  intro M. start. assert (Q := max_close _ _ _ _ _ E1 E2). rewrite <- M in Q.
  assert (M0 : 0 <= m) by (rewrite M; eapply Rle_trans; [|apply Rmax_l]; apply Rabs_pos). apply Rabs_le_inv in Q.
  assert (L := last_rnd (3 * k + 3 * t) ltac:(lra) M0 ltac:(lra)). fold k in L. apply Rabs_le_inv in L. apply Rabs_def1; lra.
Qed.
Lemma row_uni_acc : m = 0 /\ a1 * a2 <= bpow radix2 (-1074) \/ m = Rmin (Rabs a1) (Rabs a2) /\ 0 < a1 * a2 ->
  Rabs (B - sm) <= sr + Rb - rnd mode_NE (q - m) + 2 * margin + bpow radix2 (-536) /\ 0 <= Rb - rnd mode_NE (q - m) + 2 * margin /\
  (Rb + sr - rnd mode_NE (q - m) - 2 * margin < Rabs (B - sm) \/ Rb < rnd mode_NE (q - m) + 2 * margin).
Proof.
  intro M. start.
  assert (EZ : bpow radix2 (-1074) = z537 * z537) by (rewrite <- bpow_plus; reflexivity). assert (Z0 := bpow_gt_0 radix2 (-537)).
  assert (EZ2 : bpow radix2 (-536) = 2 * z537) by (change 2 with (bpow radix2 1); rewrite <- bpow_plus; reflexivity). rewrite EZ in M. rewrite EZ2.
  destruct (mig_close _ _ m _ _ _ z537 (Rlt_le _ _ Z0) E1 E2 M) as (M1 & M2 & M0).
  assert (L := last_rnd (3 * k + 3 * t) ltac:(lra) M0). fold k in L. assert (GG := Rabs_pos G). assert (CC := Rabs_pos (c - C)).
  assert (L' : m <= Rabs (c - C) + Rabs G + (3 * k + 3 * t)) by (destruct (Rlt_dec 0 m) as [P|P]; [specialize (M2 P)|]; lra). specialize (L L').
  apply Rabs_le_inv in L. split; [lra|]. split; [lra|]. destruct (Rlt_dec 0 m) as [P|P]; [left; specialize (M2 P); lra | right; lra].
Qed.
End Row.
Lemma row_uss_acc g h r n A b x i p z : 0 <= g <= 1 -> 0 <= h <= 1 -> system r n A b x -> moderate A b x -> (i < r)%nat ->
  Rabs (p - left_side n A b x i) + Rabs (z - right_side n A b x i) <= slack g h n A b x i ->
  Rabs (rnd mode_NE (rnd mode_NE p - Rabs (rnd mode_NE z)) - (rad_at b [i] + sum_rad n A x i - Rabs (mid_at b [i] - sum_mid n A x i))) < 2 * uss_margin g h n A b x i.
Proof.
  intros Hg Hh SY MO Hi CL. destruct (covers g h n A b x i Hg (proj1 Hh)) as (MC & S0 & SN). destruct u_small as (U0 & U1 & T0).
  assert (AM := all_mag r n A b x i SY MO Hi). destruct (rads_nn r n A b x i SY MO Hi) as (RB & SR & _).
  change (left_side n A b x i) with (rad_at b [i] + sum_rad n A x i) in CL. change (right_side n A b x i) with (mid_at b [i] - sum_mid n A x i) in CL.
  set (S := mag_at b [i] + Rsum n (fun k => mag_at A [i; k] * abs_at x k)) in *.
  set (l := rad_at b [i] + sum_rad n A x i) in *. set (s := mid_at b [i] - sum_mid n A x i) in *.
  assert (Al : Rabs l = l) by (apply Rabs_pos_eq; unfold l; lra).
  assert (As : Rabs s <= Rabs (mid_at b [i]) + Rabs (sum_mid n A x i)) by (unfold s, Rminus; assert (Q := Rabs_triang (mid_at b [i]) (- sum_mid n A x i)); rewrite Rabs_Ropp in Q; exact Q).
  assert (P1 := Rabs_triang (p - l) l). replace (p - l + l) with p in P1 by ring. assert (P2 := Rabs_triang (z - s) s). replace (z - s + s) with z in P2 by ring.
  assert (Kpz : Rabs p + Rabs z <= S + slack g h n A b x i) by (unfold l in *; lra).
  assert (K0 : 0 <= u * (S + slack g h n A b x i)) by (apply Rmult_le_pos; lra).
  assert (N1 := nearest_err p). assert (N2 := nearest_err z).
  assert (V1 : u * Rabs p + u * Rabs z <= u * (S + slack g h n A b x i)) by (rewrite <- Rmult_plus_distr_l; apply Rmult_le_compat_l; lra).
  set (k := u * (S + slack g h n A b x i)) in *. replace (4 * u * (S + slack g h n A b x i)) with (4 * k) in MC by (unfold k; ring).
  assert (C1 := Rabs_close _ _ _ N1). assert (C2 := Rabs_close _ _ _ N2).
  assert (C3 := Rabs_close z s _ (Rle_refl _)). 
  assert (SZ : Rabs (rnd mode_NE p - Rabs (rnd mode_NE z)) <= S + slack g h n A b x i + (k + 2 * t)).
  { assert (Q := Rabs_triang (rnd mode_NE p) (- Rabs (rnd mode_NE z))). rewrite Rabs_Ropp, Rabs_Rabsolu in Q. change (rnd mode_NE p + - Rabs (rnd mode_NE z)) with (rnd mode_NE p - Rabs (rnd mode_NE z)) in Q. lra. }
  assert (N3 := rnd_near _ _ SZ). replace (u * (S + slack g h n A b x i + (k + 2 * t))) with (k + u * (k + 2 * t)) in N3 by (unfold k; ring).
  assert (V2 : u * (k + 2 * t) <= 1 / 64 * (k + 2 * t)) by (apply Rmult_le_compat_r; lra).
  assert (Y1 := Rabs_pos (p - l)). assert (Y2 := Rabs_pos (z - s)). assert (Z1 := Rle_abs (p - l)). assert (Z2 : - (p - l) <= Rabs (p - l)) by (rewrite <- Rabs_Ropp; apply Rle_abs).
  apply Rabs_le_inv in N1. apply Rabs_le_inv in N3. assert (Q0 : 0 <= u * Rabs p) by (apply Rmult_le_pos; [lra | apply Rabs_pos]). assert (Q1 : 0 <= u * Rabs z) by (apply Rmult_le_pos; [lra | apply Rabs_pos]).
  apply Rabs_def1; lra.
Qed.

(** ** The least constituent *)
Lemma ones_from r w : ones r w -> weights_from 1 r w.
Proof. intros (H1 & H2 & H3). split; [exact H1|]. split; [exact H2|]. eapply Forall_impl; [|exact H3]. intros v (S1 & F1 & E). split; [exact S1|]. split; [exact F1|]. lra. Qed.
Lemma one_of r w i wi : ones r w -> aget w [i] = Some wi -> small_num wi /\ finite_num wi /\ num_val wi = 1.
Proof. intros (_ & _ & F) H. rewrite Forall_forall in F. apply F. eapply aget_in; eauto. Qed.
Lemma times_one wi ti d : small_num wi -> finite_num wi -> num_val wi = 1 -> returns (mul_ wi (PFlt d)) mode_NE ti -> xval ti = xflt d.
Proof.
  intros S F E RT. rewrite (con_x wi ti d S F RT), E. assert (D := flt_dbl d). destruct (xflt d) as [| | |a]; cbn [xmul]; try reflexivity.
  - unfold xinf_times. destruct (Rcompare_spec 1 0); try lra. reflexivity.
  - unfold xinf_times. destruct (Rcompare_spec 1 0); try lra. reflexivity.
  - rewrite Rmult_1_l. now apply xround_dbl_id.
Qed.
(** The value of a finite reported number is at most the exact rounding of every row and equal to that of one. *)
Lemma fin_le a p : xleb (XFin a) (xround mode_NE p) = true -> Rabs a < bpow radix2 1024 -> a <= rnd mode_NE p.
Proof.
  unfold xround. intros H B. destruct (Rlt_bool_spec (Rabs (rnd mode_NE p)) (bpow radix2 1024)) as [L|L]; [now apply xleb_fin in H|].
  destruct (Rlt_bool_spec p 0) as [N|N]; [discriminate|]. assert (0 <= rnd mode_NE p) by (apply round_ge_generic; auto with typeclass_instances; apply generic_format_0).
  rewrite Rabs_pos_eq in L by assumption. assert (Q := Rle_abs a). lra.
Qed.
Lemma fin_eq a p : XFin a = xround mode_NE p -> a = rnd mode_NE p.
Proof. unfold xround. destruct Rlt_bool; [congruence|]. destruct Rlt_bool; discriminate. Qed.
Section Least.
Variables (r : nat) (T : arr pynum) (v : flt) (val : nat -> R).
Hypothesis ST : ashape T = [r].
Hypothesis WT : awf T.
Hypothesis FV : is_finite v = true.
Hypothesis LT : least T v.
Hypothesis RW : forall i, (i < r)%nat -> exists ti, aget T [i] = Some ti /\ xval ti = xround mode_NE (val i).
Lemma least_rows : (forall i, (i < r)%nat -> B2R v <= rnd mode_NE (val i)) /\ exists i, (i < r)%nat /\ B2R v = rnd mode_NE (val i).
Proof.
  assert (XV : xflt v = XFin (B2R v)) by (destruct v; try discriminate; reflexivity).
  assert (BV : Rabs (B2R v) < bpow radix2 1024) by (apply abs_B2R_lt_emax).
  destruct LT as [IN LE]. split.
  - intros i Hi. destruct (RW i Hi) as (ti & Ht & Xt). specialize (LE ti (aget_in _ _ _ Ht)). rewrite num_le_x in LE. cbn [xval] in LE. rewrite XV, Xt in LE. now apply fin_le.
  - apply In_nth_error in IN. destruct IN as [i Ei]. assert (Hi : (i < r)%nat).
    { assert (Q : (i < length (adata T))%nat) by (apply nth_error_Some; congruence). rewrite WT, ST in Q. cbn [size] in Q. lia. }
    exists i. split; [exact Hi|]. destruct (RW i Hi) as (ti & Ht & Xt). rewrite (aget_1 T r i ST Hi) in Ht. assert (ti = PFlt v) by congruence. subst ti. cbn [xval] in Xt. rewrite XV in Xt. now apply fin_eq.
Qed.
End Least.
Lemma row_round good g h r n A b x w T i : ones r w -> row_of g h n A b x w T i good -> exists ti c C G q m, aget T [i] = Some ti /\ xval ti = xround mode_NE (q - m) /\ good c C G m /\
  Rabs (c - mid_at b [i]) + Rabs (q - rad_at b [i]) + Rabs (C - sum_mid n A x i) + Rabs (G - sum_rad n A x i) <= slack g h n A b x i.
Proof.
  intros O (wi & ti & d & fq & fm & c & C & G & q & m & H1 & H2 & H3 & H4 & H5 & H6 & H7 & H8). destruct (one_of r w i wi O H1) as (S1 & F1 & W1).
  exists ti, c, C, G, q, m. split; [exact H2|]. split; [|split; [exact H7 | exact H8]]. rewrite (times_one wi ti d S1 F1 W1 H3), H4, fsub_x, H5, H6. reflexivity.
Qed.

Section Meaning.
Variables (fdot : list (flt * flt) -> flt) (g h : R) (r n : nat) (A b : aitv) (w : arr pynum) (W : vops) (P : params (ops_of W)) (x0 x : list flt) (v : flt).
Hypothesis HD : dot_within fdot n g h.
Hypothesis Hg : 0 <= g <= 1.
Hypothesis Hh : 0 <= h <= 1.
Hypothesis Hn : (Z.of_nat n <= 2 ^ 100)%Z.
Hypothesis SY : system r n A b (point x).
Hypothesis MO : moderate A b (point x).
Hypothesis Hw : ones r w.
Hypothesis FV : is_finite v = true.
Notation margin := (uss_margin g h n A b (point x)).
Lemma not_nan_fin : is_nan v = false. Proof. destruct v; try discriminate; reflexivity. Qed.
(** The values before the last rounding, row by row. *)
Lemma pick_rows T good : rows_of g h r n A b (point x) w T good -> exists val : nat -> R,
  (forall i, (i < r)%nat -> exists ti, aget T [i] = Some ti /\ xval ti = xround mode_NE (val i)) /\
  forall i, (i < r)%nat -> exists c C G q m, val i = q - m /\ good c C G m /\
    Rabs (c - mid_at b [i]) + Rabs (q - rad_at b [i]) + Rabs (C - sum_mid n A (point x) i) + Rabs (G - sum_rad n A (point x) i) <= slack g h n A b (point x) i.
Proof.
  intros (ST & WT & R0 & PR).
  assert (CH : forall k, (k <= r)%nat -> exists val : nat -> R, forall i, (i < k)%nat -> (exists ti, aget T [i] = Some ti /\ xval ti = xround mode_NE (val i)) /\
    exists c C G q m, val i = q - m /\ good c C G m /\
    Rabs (c - mid_at b [i]) + Rabs (q - rad_at b [i]) + Rabs (C - sum_mid n A (point x) i) + Rabs (G - sum_rad n A (point x) i) <= slack g h n A b (point x) i).
  { induction k as [|k IH]; intro L; [exists (fun _ => 0); intros i Hi; lia|]. destruct IH as [val HV]; [lia|].
    destruct (row_round good g h r n A b (point x) w T k Hw (PR k ltac:(lia))) as (ti & c & C & G & q & m & H1 & H2 & H3 & H4).
    exists (fun i => if Nat.eq_dec i k then q - m else val i). intros i Hi. destruct (Nat.eq_dec i k) as [->|N].
    - split; [exists ti; split; assumption|]. exists c, C, G, q, m. split; [reflexivity|]. split; assumption.
    - apply HV. lia. }
  destruct (CH r (le_n r)) as [val HV]. exists val. split; intros i Hi; apply HV; exact Hi.
Qed.
Theorem tol_accuracy : tol_maximize_fl fdot W P A b w x0 = (x, v) ->
  (forall Q, in_matrix A Q -> in_rhs_by b (fun i => 2 * margin i - B2R v) (row_value n Q (point x))) /\
  exists Q, in_matrix A Q /\ ~ in_rhs_by b (fun i => - (2 * margin i) - B2R v) (row_value n Q (point x)).
Proof.
  intro E. destruct (tol_run fdot A b w W P x0 x v E not_nan_fin) as [(T & HT & LT) _].
  assert (RW := tol_rows fdot g h r n A b (point x) w HD Hg Hh Hn SY MO (proj1 (proj2 Hw)) T HT). assert (RW' := RW). destruct RW' as (ST & WT & _ & _).
  destruct (pick_rows T _ RW) as (val & V1 & V2). destruct (least_rows r T v val ST WT FV LT V1) as [LE (i0 & Hi0 & EQ)].
  assert (ACC : forall i, (i < r)%nat -> Rabs (rnd mode_NE (val i) - (rad_at b [i] - (Rabs (mid_at b [i] - sum_mid n A (point x) i) + sum_rad n A (point x) i))) < 2 * margin i).
  { intros i Hi. destruct (V2 i Hi) as (c & C & G & q & m & -> & M & CL). exact (row_tol_acc g h r n A b (point x) i Hg Hh SY MO Hi c C G q m CL M). }
  split.
  - apply (every_matrix r n A b (point x) SY MO). intros i Hi. specialize (LE i Hi). assert (Q := ACC i Hi). apply Rabs_def2 in Q. lra.
  - assert (Q := ACC i0 Hi0). apply Rabs_def2 in Q.
    destruct (bad_matrix r n A b (point x) SY MO (fun i => 2 * margin i + B2R v) i0 Hi0) as (M & IM & NM); [cbv beta; lra|].
    exists M. split; [exact IM|]. intro IN. apply NM. intros i e He. specialize (IN i e He). cbv beta in *. lra.
Qed.
Theorem uni_accuracy : uni_maximize_fl fdot W P A b w x0 = (x, v) ->
  (exists Q, in_matrix A Q /\ in_rhs_by b (fun i => 2 * margin i + bpow radix2 (-536) - B2R v) (row_value n Q (point x))) /\
  forall Q, in_matrix A Q -> ~ in_rhs_by b (fun i => - (2 * margin i) - B2R v) (row_value n Q (point x)).
Proof.
  intro E. destruct (uni_run fdot A b w W P x0 x v E not_nan_fin) as [(T & HT & LT) _].
  assert (RW := uni_rows fdot g h r n A b (point x) w HD Hg Hh Hn SY MO (proj1 (proj2 Hw)) T HT). assert (RW' := RW). destruct RW' as (ST & WT & _ & _).
  destruct (pick_rows T _ RW) as (val & V1 & V2). destruct (least_rows r T v val ST WT FV LT V1) as [LE (i0 & Hi0 & EQ)].
  assert (Z0 := bpow_gt_0 radix2 (-536)). split.
  - apply (some_matrix r n A b (point x) SY MO); intros i Hi; specialize (LE i Hi); destruct (V2 i Hi) as (c & C & G & q & m & EV & M & CL); rewrite EV in LE;
      destruct (row_uni_acc g h r n A b (point x) i Hg Hh SY MO Hi c C G q m CL M) as (U1 & U2 & _); lra.
  - intros Q IQ IN. destruct (V2 i0 Hi0) as (c & C & G & q & m & EV & M & CL). rewrite EV in EQ.
    destruct (row_uni_acc g h r n A b (point x) i0 Hg Hh SY MO Hi0 c C G q m CL M) as (_ & _ & U3).
    apply (no_matrix r n A b (point x) SY MO (fun i => 2 * margin i + B2R v) i0 Hi0) with (P := Q); [cbv beta; destruct U3; [left | right]; lra | exact IQ|].
    intros i e He. specialize (IN i e He). cbv beta in *. lra.
Qed.
Theorem uss_accuracy : uss_maximize_fl fdot W P A b w x0 = (x, v) ->
  (B2R v <= 0 -> exists Q, in_matrix A Q /\ in_rhs_by b (fun i => 2 * margin i - B2R v) (row_value n Q (point x))) /\
  forall Q, in_matrix A Q -> ~ in_rhs_by b (fun i => - (2 * margin i) - B2R v) (row_value n Q (point x)).
Proof.
  intro E. destruct (uss_run fdot A b w W P x0 x v E not_nan_fin) as [(T & HT & LT) _].
  destruct (uss_rows fdot g h r n A b (point x) HD Hg Hh Hn SY MO w T (proj1 (proj2 Hw)) HT) as (ST & WT & R0 & PR).
  assert (V : exists val : nat -> R, (forall i, (i < r)%nat -> exists ti, aget T [i] = Some ti /\ xval ti = xround mode_NE (val i)) /\
    forall i, (i < r)%nat -> Rabs (rnd mode_NE (val i) - (rad_at b [i] + sum_rad n A (point x) i - Rabs (mid_at b [i] - sum_mid n A (point x) i))) < 2 * margin i).
  { assert (CH : forall k, (k <= r)%nat -> exists val : nat -> R, forall i, (i < k)%nat -> (exists ti, aget T [i] = Some ti /\ xval ti = xround mode_NE (val i)) /\
      Rabs (rnd mode_NE (val i) - (rad_at b [i] + sum_rad n A (point x) i - Rabs (mid_at b [i] - sum_mid n A (point x) i))) < 2 * margin i).
    { induction k as [|k IH]; intro L; [exists (fun _ => 0); intros i Hi; lia|]. destruct IH as [val HV]; [lia|].
      destruct (PR k ltac:(lia)) as (wi & ti & d & p & z & H1 & H2 & H3 & H4 & _ & _ & H7). destruct (one_of r w k wi Hw H1) as (S1 & F1 & W1).
      exists (fun i => if Nat.eq_dec i k then rnd mode_NE p - Rabs (rnd mode_NE z) else val i). intros i Hi. destruct (Nat.eq_dec i k) as [->|N].
      - split; [|exact (row_uss_acc g h r n A b (point x) k p z Hg Hh SY MO ltac:(lia) H7)]. exists ti. split; [exact H2|]. rewrite (times_one wi ti d S1 F1 W1 H3), H4. reflexivity.
      - apply HV. lia. }
    destruct (CH r (le_n r)) as [val HV]. exists val. split; intros i Hi; apply HV; exact Hi. }
  destruct V as (val & V1 & V2). destruct (least_rows r T v val ST WT FV LT V1) as [LE (i0 & Hi0 & EQ)]. split.
  - intro NP. apply (some_matrix r n A b (point x) SY MO); intros i Hi; specialize (LE i Hi); assert (Q := V2 i Hi); assert (K := Rabs_pos (rnd mode_NE (val i) - (rad_at b [i] + sum_rad n A (point x) i - Rabs (mid_at b [i] - sum_mid n A (point x) i)))).
    + destruct (rads_nn r n A b (point x) i SY MO Hi) as (RB & _ & _). lra.
    + apply Rabs_def2 in Q. lra.
  - intros Q IQ IN. assert (K := V2 i0 Hi0). apply Rabs_def2 in K.
    apply (no_matrix r n A b (point x) SY MO (fun i => 2 * margin i + B2R v) i0 Hi0) with (P := Q); [cbv beta; left; lra | exact IQ|].
    intros i e He. specialize (IN i e He). cbv beta in *. lra.
Qed.
End Meaning.
