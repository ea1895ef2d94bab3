(** What the constituents computed by calcfg say about the system. *)
From Coq Require Import ZArith Reals List Bool Arith Lia Lra.
From Flocq Require Import Core IEEE754.BinarySingleNaN.
From Verif Require Import Base PyNum Kernel Spec Expr Arrays Construct SpecArray XReal XArith KernelProofs KernelMore KernelAlg ExprProofs ArrayProofs ArrayMore ArrayMat ConstructProofs KaucherProofs
  RecogFl SpecRecogFl RecogFlProofs RecogFlCor HbrFl HbrFlProofs RohnFl GSProofs UssFl SpecUssFl UssFlProofs Ralgb5 RecogOpt RecogOptProofs RecogOptMargin.
Import ListNotations.
Open Scope R_scope.

(** ** The operations on doubles *)
Lemma not_nan f a : xflt f = XFin a -> is_nan f = false.
Proof. intro H. destruct (is_nan f) eqn:E; [|reflexivity]. apply is_nan_x in E. congruence. Qed.
Lemma f_max_x f k a c : xflt f = XFin a -> xflt k = XFin c -> xflt (f_max f k) = XFin (Rmax a c).
Proof.
  intros F K. unfold f_max. rewrite (not_nan _ _ F), (not_nan _ _ K), flt_ltb_x, F, K.
  destruct (xltb (XFin a) (XFin c)) eqn:E.
  - apply xltb_fin in E. rewrite K. f_equal. rewrite Rmax_right; lra.
  - assert (c <= a). { apply Rnot_lt_le. intro L. apply xltb_fin in L. congruence. } rewrite F. f_equal. rewrite Rmax_left; lra.
Qed.
Lemma f_mig_x f k a c : xflt f = XFin a -> xflt k = XFin c ->
  exists m, xflt (f_mig f k) = XFin m /\ (m = 0 /\ a * c <= bpow radix2 (-1074) \/ m = Rmin (Rabs a) (Rabs c) /\ 0 < a * c).
Proof.
  intros F K. unfold f_mig. rewrite flt_leb_x, fmul_x, F, K. cbn [xmul]. change (xflt f0) with (XFin 0).
  destruct (xleb (xround mode_NE (a * c)) (XFin 0)) eqn:E.
  - exists 0. split; [reflexivity|]. left. split; [reflexivity|]. apply Rnot_lt_le. intro L.
    assert (D : is_dbl (XFin (bpow radix2 (-1074)))) by (apply generic_dbl; [apply generic_format_bpow; unfold SpecFloat.fexp, SpecFloat.emin; lia | rewrite Rabs_pos_eq by apply bpow_ge_0; apply bpow_lt; lia]).
    assert (Q := xleb_trans _ _ _ (xround_ge_dbl mode_NE (a * c) _ D (Rlt_le _ _ L)) E). apply xleb_fin in Q. assert (P := bpow_gt_0 radix2 (-1074)). lra.
  - exists (Rmin (Rabs a) (Rabs c)). assert (P : 0 < a * c).
    { apply Rnot_le_lt. intro L. rewrite (xround_le_dbl mode_NE (a * c) 0 zero_dbl L) in E. discriminate. }
    split; [|right; auto]. rewrite flt_ltb_x, !xflt_abs, F, K. cbn [xabs].
    destruct (xltb (XFin (Rabs c)) (XFin (Rabs a))) eqn:Q; rewrite xflt_abs, ?F, ?K; cbn [xabs]; f_equal.
    + apply xltb_fin in Q. rewrite Rmin_right; lra.
    + assert (Rabs a <= Rabs c). { apply Rnot_lt_le. intro L. apply xltb_fin in L. congruence. } rewrite Rmin_left; lra.
Qed.

(** ** The sign of one constituent *)
Section Sign.
Variables (wi ti : pynum) (d fq fm : flt) (q m : R).
Hypothesis Sw : small_num wi.
Hypothesis Fw : finite_num wi.
Hypothesis RT : returns (mul_ wi (PFlt d)) mode_NE ti.
Hypothesis ED : d = fsub mode_NE fq fm.
Hypothesis Xq : xflt fq = XFin q.
Hypothesis Xm : xflt fm = XFin m.
Lemma con_x : xval ti = xmul mode_NE (XFin (num_val wi)) (xflt d).
Proof.
  destruct (XArith.num_mul_x mode_NE wi (PFlt d) Sw I) as (t' & Ht' & _ & Xt'). unfold returns, outcome, mul_, mprim in RT. cbn [fst] in RT.
  rewrite Ht' in RT. inversion RT; subst t'. rewrite Xt'. assert (F := Fw). apply finite_num_x in F. now rewrite F.
Qed.
Lemma dbls : is_dbl (XFin q) /\ is_dbl (XFin m). Proof. split; [rewrite <- Xq | rewrite <- Xm]; apply flt_dbl. Qed.
Lemma d_x : xflt d = xsub mode_NE (XFin q) (XFin m). Proof. now rewrite ED, fsub_x, Xq, Xm. Qed.
Lemma con_nn : 1 <= num_val wi -> num_le (PInt 0) ti = true -> m <= q.
Proof.
  intros W L. rewrite num_le_x, con_x in L. apply mul_sign in L; [|apply flt_dbl | exact W]. rewrite d_x in L. destruct dbls. now apply sub_sign in L.
Qed.
Lemma con_neg : 0 <= num_val wi -> 0 <= m -> num_lt ti (PInt 0) = true -> q < m.
Proof.
  intros W M L. destruct dbls as [Dq Dm]. apply Rnot_le_lt. intro Q.
  assert (D0 : xleb (XFin 0) (xflt d) = true) by (rewrite d_x; now apply sub_sign).
  assert (DP : xflt d <> XPInf).
  { intro E. assert (X := d_x). rewrite E in X. unfold xsub in X. cbn [xopp xadd] in X.
    assert (Y := xround_le_dbl mode_NE (q + - m) q Dq ltac:(lra)). rewrite <- X in Y. discriminate. }
  assert (Y := mul_sign_nn mode_NE (num_val wi) (xflt d) W D0 DP). rewrite <- con_x in Y. rewrite num_lt_x in L. change (xval (PInt 0)) with (XFin 0) in L.
  destruct (xval ti) as [| | |v]; try discriminate. apply xleb_fin in Y. apply xltb_fin in L. lra.
Qed.
End Sign.

(** ** Rows of a matrix of the system *)
Section Mat.
Variables (r n : nat) (A b : aitv) (x : arr pynum).
Hypothesis SY : system r n A b x.
Hypothesis MO : moderate A b x.
Lemma rhs_lt i e : aget (adat b) [i] = Some e -> (i < r)%nat.
Proof. intro He. destruct SY as (_ & _ & _ & _ & [Cb _] & Sb & _). rewrite Cb in Sb. exact (aget_1_lt (adat b) r i e Sb He). Qed.
Lemma row_near P i : in_matrix A P -> (i < r)%nat -> Rabs (row_value n P x i - sum_mid n A x i) <= sum_rad n A x i.
Proof.
  intros HP Hi. unfold row_value, sum_mid. fold (val_at x).
  replace (Rsum n (fun k => P i k * match aget x [k] with Some v => num_val v | None => 0 end) - Rsum n (fun k => mid_at A [i; k] * val_at x k))
    with (Rsum n (fun k => (P i k - mid_at A [i; k]) * val_at x k)).
  - eapply Rle_trans; [apply Rsum_abs|]. apply Rsum_le. intros k Hk. rewrite Rabs_mult, <- abs_val. apply Rmult_le_compat_r; [apply abs_nn|].
    destruct (entryA r n A b x SY MO i k Hi Hk) as (e' & He' & _ & Pe' & _). assert (M := HP i k e' He'). apply member_fin in M; [|exact Pe'].
    unfold mid_at, rad_at. rewrite He'. apply Rabs_le. lra.
  - replace (Rsum n (fun k => mid_at A [i; k] * val_at x k)) with (- (-1 * Rsum n (fun k => mid_at A [i; k] * val_at x k))) by ring. rewrite Rsum_scal.
    unfold Rminus at 2. rewrite Ropp_involutive, <- Rsum_add. apply Rsum_ext. intros k _. unfold val_at. ring.
Qed.
(** The matrix whose row [i] goes from the middle by the fraction [s i] of the radius. *)
Definition going (s : nat -> R) (i k : nat) : R := mid_at A [i; k] + s i * (sign1 (val_at x k) * rad_at A [i; k]).
Lemma going_row s i : row_value n (going s) x i = sum_mid n A x i + s i * sum_rad n A x i.
Proof.
  unfold row_value, going, sum_mid, sum_rad. rewrite Rsum_scal, <- Rsum_add. apply Rsum_ext. intros k _. fold (val_at x k).
  rewrite abs_val, <- sign1_abs. ring.
Qed.
Lemma going_in s : (forall i, -1 <= s i <= 1) -> in_matrix A (going s).
Proof.
  intros HS i k e He. destruct SY as (_ & [CA WA] & SA & _). rewrite CA in SA. destruct (aget_2_lt _ _ _ _ _ _ SA He) as [Hi Hk].
  destruct MO as (MA & _). rewrite Forall_forall in MA. destruct (MA e (aget_in _ _ _ He)) as (_ & Pe & _). apply member_fin; [exact Pe|].
  unfold going. assert (S1 := HS i). assert (S2 := sign1_bound (val_at x k)). assert (S3 : -1 <= s i * sign1 (val_at x k) <= 1) by nra.
  rewrite <- Rmult_assoc. set (v := s i * sign1 (val_at x k)) in *. unfold mid_at, rad_at. rewrite He. destruct Pe as [_ L]. nra.
Qed.
Lemma some_matrix mg : (forall i, (i < r)%nat -> 0 <= rad_at b [i] + mg i) ->
  (forall i, (i < r)%nat -> Rabs (mid_at b [i] - sum_mid n A x i) <= sum_rad n A x i + rad_at b [i] + mg i) ->
  exists P, in_matrix A P /\ in_rhs_by b mg (row_value n P x).
Proof.
  intros H0 H. set (s i := if lt_dec i r then share (mid_at b [i] - sum_mid n A x i) (sum_rad n A x i) else 0).
  assert (SN : forall i, (i < r)%nat -> 0 <= sum_rad n A x i) by (intros i Hi; destruct (rads_nn r n A b x i SY MO Hi) as (_ & Q & _); exact Q).
  exists (going s). split.
  - apply going_in. intro i. unfold s. destruct (lt_dec i r) as [Hi|]; [|lra].
    destruct (share_ok (mid_at b [i] - sum_mid n A x i) (sum_rad n A x i) (rad_at b [i] + mg i) (SN i Hi) (H0 i Hi)) as [Q _]; [specialize (H i Hi); lra | exact Q].
  - intros i e He. assert (Hi := rhs_lt i e He). rewrite going_row. unfold s. destruct (lt_dec i r) as [_|]; [|contradiction].
    destruct (share_ok (mid_at b [i] - sum_mid n A x i) (sum_rad n A x i) (rad_at b [i] + mg i) (SN i Hi) (H0 i Hi)) as [_ Q]; [specialize (H i Hi); lra|].
    apply Rabs_le_inv in Q. unfold mid_at at 1 3, rad_at at 1 2 in Q. rewrite He in Q. lra.
Qed.
Lemma every_matrix mg : (forall i, (i < r)%nat -> Rabs (mid_at b [i] - sum_mid n A x i) + sum_rad n A x i <= rad_at b [i] + mg i) ->
  forall P, in_matrix A P -> in_rhs_by b mg (row_value n P x).
Proof.
  intros H P HP i e He. assert (Hi := rhs_lt i e He). specialize (H i Hi). assert (Q := row_near P i HP Hi).
  assert (B := Rle_abs (mid_at b [i] - sum_mid n A x i)). assert (B2 : - (mid_at b [i] - sum_mid n A x i) <= Rabs (mid_at b [i] - sum_mid n A x i)) by (rewrite <- Rabs_Ropp; apply Rle_abs).
  apply Rabs_le_inv in Q. unfold mid_at, rad_at in *. rewrite He in *. lra.
Qed.
Lemma bad_matrix mg i : (i < r)%nat -> rad_at b [i] - mg i < Rabs (mid_at b [i] - sum_mid n A x i) + sum_rad n A x i ->
  exists P, in_matrix A P /\ ~ in_rhs_by b (fun i => - mg i) (row_value n P x).
Proof.
  intros Hi H. exists (going (fun i => - sign1 (mid_at b [i] - sum_mid n A x i))). split.
  - apply going_in. intro k. assert (Q := sign1_bound (mid_at b [k] - sum_mid n A x k)). lra.
  - intro IN. destruct (entryb r n A b x SY MO i Hi) as (e & He & _). specialize (IN i e He). rewrite going_row in IN.
    destruct (rads_nn r n A b x i SY MO Hi) as (_ & Q & _). rewrite <- sign1_abs in H. unfold sign1 in *. 
    destruct (Rle_dec 0 (mid_at b [i] - sum_mid n A x i)); unfold mid_at at 1, rad_at at 1 in H; rewrite He in H; lra.
Qed.
Lemma no_matrix mg i : (i < r)%nat -> (rad_at b [i] + sum_rad n A x i - mg i < Rabs (mid_at b [i] - sum_mid n A x i) \/ rad_at b [i] < mg i) ->
  forall P, in_matrix A P -> ~ in_rhs_by b (fun i => - mg i) (row_value n P x).
Proof.
  intros Hi H P HP IN. destruct (entryb r n A b x SY MO i Hi) as (e & He & _). specialize (IN i e He). assert (Q := row_near P i HP Hi).
  apply Rabs_le_inv in Q. unfold mid_at in H at 1. unfold rad_at in H. rewrite He in H. destruct H as [H|H]; [|lra].
  revert H. apply Rle_not_lt. apply Rabs_le. lra.
Qed.
End Mat.

(** ** Tol and Uni *)
Section Calc.
Variables (fdot : list (flt * flt) -> flt) (g h : R) (r n : nat) (A b : aitv) (x w : arr pynum).
Hypothesis HD : dot_within fdot n g h.
Hypothesis Hg : 0 <= g <= 1.
Hypothesis Hh : 0 <= h <= 1.
Hypothesis Hn : (Z.of_nat n <= 2 ^ 100)%Z.
Hypothesis SY : system r n A b x.
Hypothesis MO : moderate A b x.
Hypothesis Sw : ashape w = [r].
Notation a1 c C G := (rnd mode_NE (c - rnd mode_NE (C + G))). Notation a2 c C G := (rnd mode_NE (c - rnd mode_NE (C - G))).
Definition row_of (T : arr pynum) (i : nat) (good : R -> R -> R -> R -> Prop) : Prop :=
  exists wi ti d fq fm c C G q m, aget w [i] = Some wi /\ aget T [i] = Some ti /\ returns (mul_ wi (PFlt d)) mode_NE ti /\ d = fsub mode_NE fq fm /\
    xflt fq = XFin q /\ xflt fm = XFin m /\ good c C G m /\
    Rabs (c - mid_at b [i]) + Rabs (q - rad_at b [i]) + Rabs (C - sum_mid n A x i) + Rabs (G - sum_rad n A x i) <= slack g h n A b x i.
Definition rows_of (T : arr pynum) (good : R -> R -> R -> R -> Prop) : Prop :=
  ashape T = [r] /\ awf T /\ (0 < r)%nat /\ forall i, (i < r)%nat -> row_of T i good.
Definition tol_good (c C G m : R) : Prop := m = Rmax (Rabs (a1 c C G)) (Rabs (a2 c C G)).
Definition uni_good (c C G m : R) : Prop :=
  m = 0 /\ a1 c C G * a2 c C G <= bpow radix2 (-1074) \/ m = Rmin (Rabs (a1 c C G)) (Rabs (a2 c C G)) /\ 0 < a1 c C G * a2 c C G.
Lemma keeps_bin f (a c : arr flt) : keeps_mode (f_bin f a c).
Proof. apply keeps_binop_arr, f_op_keeps. Qed.
Lemma keeps_parts : keeps_mode (calc_parts fdot A b x).
Proof.
  unfold calc_parts. destruct (shp A) as [|? [|? [|]]]; try (intro; reflexivity). destruct (ashape x) as [|? [|]]; try (intro; reflexivity).
  repeat first [apply keeps_bind; [first [unfold arr_rad, arr_mid; apply keeps_vectorize_num; first [apply keeps_rad | apply keeps_mid] | apply keeps_f_of | apply keeps_bin] | intro]
      | destruct negb; [intro; reflexivity|] ].
  intro; reflexivity.
Qed.
Lemma tol_rows T : returns (tol_calc fdot A b x w) mode_NE T -> rows_of T tol_good.
Proof.
  intro H. unfold tol_calc in H. rewrite keeps_returns in H by apply keeps_parts. destruct H as ([[I J] Q] & HP & H).
  destruct (parts_rows fdot g h r n A b x HD Hg Hh Hn SY MO I J Q HP) as (SI & SJ & SQ & R0 & PR).
  rewrite keeps_returns in H by apply keeps_bin. destruct H as (G & HG & H). rewrite keeps_returns in H by apply keeps_bin. destruct H as (D & HDD & H).
  destruct (binop_1 (f_op (fun _ => f_max)) (amap fabs I) (amap fabs J) mode_NE G r (f_op_keeps _) SI SJ HG) as (SG & _ & PG).
  destruct (binop_1 (f_op fsub) Q G mode_NE D r (f_op_keeps _) SQ SG HDD) as (SD & _ & PD).
  assert (Km : forall p p', keeps_mode (mul_ p p')) by (intros; apply keeps_prim).
  destruct (binop_1 mul_ w (amap PFlt D) mode_NE T r Km Sw SD H) as (ST & WT & PT).
  split; [exact ST|]. split; [exact WT|]. split; [exact R0|]. intros i Hi.
  destruct (PR i Hi) as (fi & fs & c & C & K & q & Ai & As & Xi & Xs & Xq & SL).
  destruct (PG i Hi) as (f1' & f2' & m1 & A1 & A2 & A3 & A4). rewrite aget_map, Ai in A1. rewrite aget_map, As in A2. inversion A1; subst f1'. inversion A2; subst f2'. clear A1 A2.
  destruct (PD i Hi) as (fq & m2 & d & B1 & B2 & B3 & B4). assert (m2 = m1) by congruence. subst m2.
  destruct (PT i Hi) as (wi & d2 & ti & T1 & T2 & T3 & T4). rewrite aget_map, B3 in T2. inversion T2; subst d2. clear T2.
  assert (Eq : f_get Q [i] = fq) by (unfold f_get; now rewrite B1). rewrite Eq in Xq.
  assert (Em : m1 = f_max (fabs fi) (fabs fs)) by (unfold returns, outcome, f_op, mprim in A4; cbn [fst] in A4; congruence).
  exists wi, ti, d, fq, m1, c, C, K, q, (Rmax (Rabs (a1 c C K)) (Rabs (a2 c C K))).
  split; [exact T1|]. split; [exact T3|]. split; [exact T4|]. split; [unfold returns, outcome, f_op, mprim in B4; cbn [fst] in B4; congruence|]. split; [exact Xq|].
  split; [|split; [reflexivity | exact SL]]. rewrite Em. apply f_max_x; rewrite xflt_abs; [rewrite Xi | rewrite Xs]; reflexivity.
Qed.
Lemma uni_rows T : returns (uni_calc fdot A b x w) mode_NE T -> rows_of T uni_good.
Proof.
  intro H. unfold uni_calc in H. rewrite keeps_returns in H by apply keeps_parts. destruct H as ([[I J] Q] & HP & H).
  destruct (parts_rows fdot g h r n A b x HD Hg Hh Hn SY MO I J Q HP) as (SI & SJ & SQ & R0 & PR).
  rewrite keeps_returns in H by apply keeps_bin. destruct H as (G & HG & H). rewrite keeps_returns in H by apply keeps_bin. destruct H as (D & HDD & H).
  destruct (binop_1 (f_op (fun _ => f_mig)) I J mode_NE G r (f_op_keeps _) SI SJ HG) as (SG & _ & PG).
  destruct (binop_1 (f_op fsub) Q G mode_NE D r (f_op_keeps _) SQ SG HDD) as (SD & _ & PD).
  assert (Km : forall p p', keeps_mode (mul_ p p')) by (intros; apply keeps_prim).
  destruct (binop_1 mul_ w (amap PFlt D) mode_NE T r Km Sw SD H) as (ST & WT & PT).
  split; [exact ST|]. split; [exact WT|]. split; [exact R0|]. intros i Hi.
  destruct (PR i Hi) as (fi & fs & c & C & K & q & Ai & As & Xi & Xs & Xq & SL).
  destruct (PG i Hi) as (f1' & f2' & m1 & A1 & A2 & A3 & A4). rewrite Ai in A1. rewrite As in A2. inversion A1; subst f1'. inversion A2; subst f2'. clear A1 A2.
  destruct (PD i Hi) as (fq & m2 & d & B1 & B2 & B3 & B4). assert (m2 = m1) by congruence. subst m2.
  destruct (PT i Hi) as (wi & d2 & ti & T1 & T2 & T3 & T4). rewrite aget_map, B3 in T2. inversion T2; subst d2. clear T2.
  assert (Eq : f_get Q [i] = fq) by (unfold f_get; now rewrite B1). rewrite Eq in Xq.
  assert (Em : m1 = f_mig fi fs) by (unfold returns, outcome, f_op, mprim in A4; cbn [fst] in A4; congruence).
  destruct (f_mig_x fi fs _ _ Xi Xs) as (m & Xm & GM). rewrite <- Em in Xm.
  exists wi, ti, d, fq, m1, c, C, K, q, m.
  split; [exact T1|]. split; [exact T3|]. split; [exact T4|]. split; [unfold returns, outcome, f_op, mprim in B4; cbn [fst] in B4; congruence|]. split; [exact Xq|].
  split; [exact Xm|]. split; [exact GM | exact SL].
Qed.
Lemma weight_of w0 i wi : weights_from w0 r w -> aget w [i] = Some wi -> small_num wi /\ finite_num wi /\ w0 <= num_val wi.
Proof. intros (_ & _ & F) H. rewrite Forall_forall in F. apply F. eapply aget_in; eauto. Qed.
(** All constituents non-negative. *)
Definition all_nn (T : arr pynum) : Prop := forall v, In v (adata T) -> num_le (PInt 0) v = true.
Definition some_neg (T : arr pynum) : Prop := exists v, In v (adata T) /\ num_lt v (PInt 0) = true.
Lemma neg_row T : ashape T = [r] -> awf T -> some_neg T -> exists i v, (i < r)%nat /\ aget T [i] = Some v /\ num_lt v (PInt 0) = true.
Proof.
  intros ST WT (v & Hv & L). apply In_nth_error in Hv. destruct Hv as [i Ei]. assert (Hi : (i < r)%nat).
  { assert (Q : (i < length (adata T))%nat) by (apply nth_error_Some; congruence). rewrite WT, ST in Q. cbn [size] in Q. lia. }
  exists i, v. split; [exact Hi|]. split; [|exact L]. now rewrite (aget_1 T r i ST Hi).
Qed.
Theorem tol_calc_nn T : weights_from 1 r w -> returns (tol_calc fdot A b x w) mode_NE T -> all_nn T ->
  forall P, in_matrix A P -> in_rhs_by b (uss_margin g h n A b x) (row_value n P x).
Proof.
  intros W H NN. destruct (tol_rows T H) as (ST & WT & R0 & PR). apply (every_matrix r n A b x SY MO). intros i Hi.
  destruct (PR i Hi) as (wi & ti & d & fq & fm & c & C & G & q & m & H1 & H2 & H3 & H4 & H5 & H6 & -> & H8).
  destruct (weight_of 1 i wi W H1) as (S1 & F1 & W1). assert (L := con_nn wi ti d fq fm q _ S1 F1 H3 H4 H5 H6 W1 (NN ti (aget_in _ _ _ H2))).
  exact (row_tol_le g h r n A b x i Hg Hh SY MO Hi c C G q H8 L).
Qed.
Theorem tol_calc_neg T : weights_from 0 r w -> returns (tol_calc fdot A b x w) mode_NE T -> some_neg T ->
  exists P, in_matrix A P /\ ~ in_rhs_by b (fun i => - uss_margin g h n A b x i) (row_value n P x).
Proof.
  intros W H NN. destruct (tol_rows T H) as (ST & WT & R0 & PR). destruct (neg_row T ST WT NN) as (i & v & Hi & Hv & L).
  apply (bad_matrix r n A b x SY MO _ i Hi).
  destruct (PR i Hi) as (wi & ti & d & fq & fm & c & C & G & q & m & H1 & H2 & H3 & H4 & H5 & H6 & -> & H8). assert (ti = v) by congruence. subst v.
  destruct (weight_of 0 i wi W H1) as (S1 & F1 & W1).
  assert (M : 0 <= Rmax (Rabs (a1 c C G)) (Rabs (a2 c C G))) by (eapply Rle_trans; [|apply Rmax_l]; apply Rabs_pos).
  assert (Q := con_neg wi ti d fq fm q _ S1 F1 H3 H4 H5 H6 W1 M L).
  exact (row_tol_gt g h r n A b x i Hg Hh SY MO Hi c C G q H8 Q).
Qed.
Theorem uni_calc_nn T : weights_from 1 r w -> returns (uni_calc fdot A b x w) mode_NE T -> all_nn T ->
  exists P, in_matrix A P /\ in_rhs_by b (fun i => uss_margin g h n A b x i + bpow radix2 (-536)) (row_value n P x).
Proof.
  intros W H NN. destruct (uni_rows T H) as (ST & WT & R0 & PR). assert (E0 := bpow_gt_0 radix2 (-536)).
  apply (some_matrix r n A b x SY MO).
  - intros i Hi. destruct (rads_nn r n A b x i SY MO Hi) as (RB & _). destruct (covers g h n A b x i Hg (proj1 Hh)) as (MC & S0 & SN). destruct u_small as (U0 & _ & T0).
    assert (0 <= 4 * bpow radix2 (-53) * (mag_at b [i] + Rsum n (fun k => mag_at A [i; k] * abs_at x k) + slack g h n A b x i)) by (apply Rmult_le_pos; lra). lra.
  - intros i Hi. destruct (PR i Hi) as (wi & ti & d & fq & fm & c & C & G & q & m & H1 & H2 & H3 & H4 & H5 & H6 & GM & H8).
    destruct (weight_of 1 i wi W H1) as (S1 & F1 & W1). assert (L := con_nn wi ti d fq fm q _ S1 F1 H3 H4 H5 H6 W1 (NN ti (aget_in _ _ _ H2))).
    assert (E : bpow radix2 (-536) = 2 * bpow radix2 (-537)) by (change 2 with (bpow radix2 1); rewrite <- bpow_plus; reflexivity).
    assert (E2 : bpow radix2 (-1074) = bpow radix2 (-537) * bpow radix2 (-537)) by (rewrite <- bpow_plus; reflexivity).
    assert (M0 := bpow_gt_0 radix2 (-537)). rewrite E, <- Rplus_assoc. apply (row_uni_le g h r n A b x i Hg Hh SY MO Hi c C G q H8); [lra| |].
    + destruct GM as [[-> _]|[-> _]]; [lra|]. eapply Rle_trans; [|exact L]. apply Rmin_glb; apply Rabs_pos.
    + unfold uni_good in GM. set (p := a1 c C G) in *. set (s := a2 c C G) in *. clearbody p s. destruct GM as [[-> PM]|[-> _]].
      * rewrite E2 in PM. set (z := bpow radix2 (-537)) in *. destruct (Rle_dec (Rabs p) z) as [L1|L1]; [right; right; left; lra|].
        destruct (Rle_dec (Rabs s) z) as [L2|L2]; [right; right; right; lra|].
        destruct (Rle_dec p 0) as [P1|P1]; destruct (Rle_dec s 0) as [P2|P2].
        -- exfalso. rewrite (Rabs_left1 p P1) in L1. rewrite (Rabs_left1 s P2) in L2. assert (z * z < - p * - s) by (apply Rmult_gt_0_lt_compat; lra). nra.
        -- left. lra.
        -- right. left. lra.
        -- exfalso. rewrite (Rabs_pos_eq p) in L1 by lra. rewrite (Rabs_pos_eq s) in L2 by lra. assert (z * z < p * s) by (apply Rmult_gt_0_lt_compat; lra). lra.
      * right. right. unfold Rmin in L. destruct Rle_dec in L; [left | right]; lra.
Qed.
Theorem uni_calc_neg T : weights_from 0 r w -> returns (uni_calc fdot A b x w) mode_NE T -> some_neg T ->
  forall P, in_matrix A P -> ~ in_rhs_by b (fun i => - uss_margin g h n A b x i) (row_value n P x).
Proof.
  intros W H NN. destruct (uni_rows T H) as (ST & WT & R0 & PR). destruct (neg_row T ST WT NN) as (i & v & Hi & Hv & L).
  apply (no_matrix r n A b x SY MO _ i Hi).
  destruct (PR i Hi) as (wi & ti & d & fq & fm & c & C & G & q & m & H1 & H2 & H3 & H4 & H5 & H6 & GM & H8). assert (ti = v) by congruence. subst v.
  destruct (weight_of 0 i wi W H1) as (S1 & F1 & W1).
  assert (M : 0 <= m) by (destruct GM as [[-> _]|[-> _]]; [lra|]; apply Rmin_glb; apply Rabs_pos).
  assert (Q := con_neg wi ti d fq fm q _ S1 F1 H3 H4 H5 H6 W1 M L).
  destruct (Rle_dec 0 q) as [Q0|Q0]; [|right; apply (row_neg_rad g h r n A b x i Hg Hh SY MO Hi c C G q H8); lra].
  left. apply (row_uni_gt g h r n A b x i Hg Hh SY MO Hi c C G q H8 Q0).
  unfold uni_good in GM. set (p := a1 c C G) in *. set (s := a2 c C G) in *. clearbody p s. destruct GM as [[-> _]|[-> PM]]; [exfalso; lra|].
  assert (Q1 := Rlt_le_trans _ _ _ Q (Rmin_l _ _)). assert (Q2 := Rlt_le_trans _ _ _ Q (Rmin_r _ _)).
  destruct (Rle_dec p 0) as [P1|P1]; destruct (Rle_dec s 0) as [P2|P2]; try (exfalso; nra).
  - right. rewrite (Rabs_left1 p P1) in Q1. rewrite (Rabs_left1 s P2) in Q2. lra.
  - left. rewrite (Rabs_pos_eq p) in Q1 by lra. rewrite (Rabs_pos_eq s) in Q2 by lra. lra.
Qed.
End Calc.
