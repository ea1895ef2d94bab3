(** A non-negative Uni objective of ISPAE in binary64. *)
From Coq Require Import ZArith Reals List Bool Arith Lia Lra.
From Flocq Require Import Core IEEE754.BinarySingleNaN.
From Verif Require Models KaucherRound.
From Verif Require Import Base PyNum Kernel Spec Expr Arrays Construct SpecArray XReal XArith KernelProofs ExprProofs ArrayProofs ConstructProofs KaucherProofs
  RecogFl SpecRecogFl RecogFlProofs RecogFlCor PowRealProofs UssFl Ralgb5 RecogOpt RecogOptSign RecogOptRun WilsFl SpecModels IspaeProofs IspaeFl SpecIspaeFl IspaeFlProofs IspaeFlRange IspaeFlTight IspaeFlObj SpecIspaeFlObj IspaeFlObjProofs IspaeFlFit.
Import ListNotations.
Open Scope R_scope.

(** ** Values in between *)
Fixpoint between_pts (t : R) (xs ys : list R) : list R :=
  match xs, ys with x :: xs', y :: ys' => x + t * (y - x) :: between_pts t xs' ys' | _, _ => [] end.
Lemma between_in cols : forall xs ys t, in_row cols xs -> in_row cols ys -> 0 <= t <= 1 -> in_row cols (between_pts t xs ys).
Proof.
  unfold in_row. induction cols as [|c cols IH]; intros xs ys t HX HY T; inversion HX as [|? x ? xs' X1 X2]; inversion HY as [|? y ? ys' Y1 Y2]; subst; cbn [between_pts]; constructor; [nra | now apply IH].
Qed.
Lemma between_0 cols : forall xs ys, in_row cols xs -> in_row cols ys -> between_pts 0 xs ys = xs.
Proof.
  unfold in_row. induction cols as [|c cols IH]; intros xs ys HX HY; inversion HX as [|? x ? xs' X1 X2]; inversion HY as [|? y ? ys' Y1 Y2]; subst; cbn [between_pts]; [reflexivity|]. f_equal; [ring | now apply IH].
Qed.
Lemma between_1 cols : forall xs ys, in_row cols xs -> in_row cols ys -> between_pts 1 xs ys = ys.
Proof.
  unfold in_row. induction cols as [|c cols IH]; intros xs ys HX HY; inversion HX as [|? x ? xs' X1 X2]; inversion HY as [|? y ? ys' Y1 Y2]; subst; cbn [between_pts]; [reflexivity|]. f_equal; [ring | now apply IH].
Qed.
Lemma between_cont : forall orders beta xs ys, continuity (fun t => additive (fun d x => x ^ d) (reals beta) orders (between_pts t xs ys)).
Proof.
  induction orders as [|o orders IH]; intros beta xs ys; [apply continuity_const; intros ? ?; reflexivity|].
  destruct xs as [|x xs]; [apply continuity_const; intros ? ?; reflexivity|]. destruct ys as [|y ys]; [apply continuity_const; intros ? ?; reflexivity|].
  cbn [between_pts additive]. apply (continuity_plus (fun t => combination (fun d x => x ^ d) 1 (firstn o (reals beta)) (x + t * (y - x))) (fun t => additive (fun d x => x ^ d) (skipn o (reals beta)) orders (between_pts t xs ys))).
  - rewrite <- reals_firstn. apply (continuity_comp (fun t => x + t * (y - x)) (polynomial (firstn o beta))).
    + apply (continuity_plus (fun _ => x) (fun t => t * (y - x))); [apply continuity_const; intros ? ?; reflexivity|]. apply (continuity_mult (fun t => t) (fun _ => y - x)); [apply derivable_continuous, derivable_id | apply continuity_const; intros ? ?; reflexivity].
    + intro z. apply sm_cont, sm_polynomial.
  - rewrite <- reals_skipn. apply IH.
Qed.
Lemma row_ivt beta cols xs ys v : in_row cols xs -> in_row cols ys -> model beta cols xs <= v <= model beta cols ys -> exists zs, in_row cols zs /\ model beta cols zs = v.
Proof.
  intros HX HY HV. set (f t := model beta cols (between_pts t xs ys) - v).
  assert (C : continuity f) by (apply (continuity_minus (fun t => model beta cols (between_pts t xs ys)) (fun _ => v)); [apply between_cont | apply continuity_const; intros ? ?; reflexivity]).
  destruct (IVT_cor f 0 1 C ltac:(lra)) as (t & T & Ft).
  - unfold f. rewrite (between_0 cols _ _ HX HY), (between_1 cols _ _ HX HY). nra.
  - exists (between_pts t xs ys). split; [now apply between_in|]. unfold f in Ft. lra.
Qed.
Lemma row_value_near beta cols a b e v : a <= v <= b -> (exists xs, in_row cols xs /\ Rabs (model beta cols xs - a) <= e) -> (exists xs, in_row cols xs /\ Rabs (model beta cols xs - b) <= e) ->
  exists zs, in_row cols zs /\ Rabs (model beta cols zs - v) <= e.
Proof.
  intros HV (xs & HX & EX) (ys & HY & EY). apply Rabs_le_inv in EX, EY. assert (E0 : 0 <= e) by lra.
  destruct (Rle_lt_dec (model beta cols xs) v) as [A1|A1], (Rle_lt_dec (model beta cols ys) v) as [B1|B1].
  - destruct (Rle_lt_dec (model beta cols xs) (model beta cols ys)); [exists ys | exists ys]; (split; [exact HY | apply Rabs_le; lra]).
  - destruct (row_ivt beta cols xs ys v HX HY ltac:(lra)) as (zs & HZ & Z). exists zs. split; [exact HZ|]. rewrite Z, Rminus_eq_0, Rabs_R0. exact E0.
  - destruct (row_ivt beta cols ys xs v HY HX ltac:(lra)) as (zs & HZ & Z). exists zs. split; [exact HZ|]. rewrite Z, Rminus_eq_0, Rabs_R0. exact E0.
  - exists xs. split; [exact HX | apply Rabs_le; lra].
Qed.

(** ** From the mignitude to the difference *)
Definition undo (Q : R) : R := Q + bpow radix2 (-51) * Q + bpow radix2 (-1073).
Lemma dn_undo Q t : 0 <= Q -> Q <= bpow radix2 1022 * 2 - bpow radix2 1000 -> xle_R (xround mode_DN t) Q -> t <= undo Q.
Proof.
  intros Q0 QB H. apply Rnot_lt_le. intro L. set (T := undo Q) in *.
  assert (P1 := bpow_gt_0 radix2 (-1073)). assert (P2 := bpow_gt_0 radix2 (-51)). assert (P3 := bpow_gt_0 radix2 (-1074)). assert (P4 := bpow_gt_0 radix2 (-52)).
  assert (E1 : bpow radix2 (-1073) = 2 * bpow radix2 (-1074)) by (change (-1073)%Z with (1 + -1074)%Z; rewrite bpow_plus; reflexivity).
  assert (E2 : bpow radix2 (-51) = 2 * bpow radix2 (-52)) by (change (-51)%Z with (1 + -52)%Z; rewrite bpow_plus; reflexivity).
  assert (T0 : 0 < T) by (unfold T, undo; assert (0 <= bpow radix2 (-51) * Q) by (apply Rmult_le_pos; lra); lra).
  assert (E5 : bpow radix2 (-52) <= / 16) by (apply Rle_trans with (bpow radix2 (-4)); [apply bpow_le; lia | cbn; lra]).
  assert (TB : T < bpow radix2 1023).
  { unfold T, undo. assert (B1 : bpow radix2 (-51) * Q <= bpow radix2 972).
    { apply Rle_trans with (bpow radix2 (-51) * bpow radix2 1023); [|rewrite <- bpow_plus; apply bpow_le; lia]. apply Rmult_le_compat_l; [lra|]. assert (bpow radix2 1023 = bpow radix2 1022 * 2) by (change 1023%Z with (1022 + 1)%Z; rewrite bpow_plus; reflexivity). assert (B := bpow_gt_0 radix2 1000). lra. }
    assert (B2 : bpow radix2 (-1073) <= bpow radix2 972) by (apply bpow_le; lia).
    assert (B3 : 4 * bpow radix2 972 <= bpow radix2 1000) by (apply Rle_trans with (bpow radix2 2 * bpow radix2 972); [change (bpow radix2 2) with 4; lra | rewrite <- bpow_plus; apply bpow_le; lia]).
    assert (bpow radix2 1023 = bpow radix2 1022 * 2) by (change 1023%Z with (1022 + 1)%Z; rewrite bpow_plus; reflexivity). assert (B := bpow_gt_0 radix2 972). lra. }
  assert (RN : xround mode_DN T = XFin (rnd mode_DN T)).
  { unfold xround. rewrite Rlt_bool_true; [reflexivity|]. apply Rle_lt_trans with (bpow radix2 1023); [|apply bpow_lt; lia].
    apply abs_round_le_generic; auto with typeclass_instances; [apply generic_format_bpow; unfold SpecFloat.fexp, SpecFloat.emin; lia | rewrite Rabs_pos_eq; lra]. }
  assert (ER : Rabs (rnd mode_DN T - T) <= bpow radix2 (-52) * Rabs T + bpow radix2 (-1074)) by (eapply Rle_trans; [apply error_le_ulp; auto with typeclass_instances | apply ulp_small]).
  rewrite (Rabs_pos_eq T) in ER by lra. apply Rabs_le_inv in ER.
  assert (MO := xround_DN_mono T t (Rlt_le _ _ L)). rewrite RN in MO.
  assert (RQ : rnd mode_DN T <= Q) by (destruct (xround mode_DN t) as [| | |u]; try discriminate; try contradiction; apply xleb_fin in MO; cbn [xle_R] in H; lra).
  assert (UB : Q < T - (bpow radix2 (-52) * T + bpow radix2 (-1074))).
  { unfold T, undo. rewrite E1, E2. set (u := bpow radix2 (-52)) in *. set (z := bpow radix2 (-1074)) in *. clearbody u z. clear - Q0 P3 P4 E5.
    replace (Q + 2 * u * Q + 2 * z - (u * (Q + 2 * u * Q + 2 * z) + z)) with (Q + u * Q * (1 - 2 * u) + z * (1 - 2 * u)) by ring.
    assert (0 <= u * Q) by (apply Rmult_le_pos; lra). assert (0 <= u * Q * (1 - 2 * u)) by (apply Rmult_le_pos; lra). assert (0 < z * (1 - 2 * u)) by (apply Rmult_lt_0_compat; lra). lra. }
  lra.
Qed.
Lemma up_undo Q t : 0 <= Q -> Q <= bpow radix2 1022 * 2 - bpow radix2 1000 -> R_xle (- Q) (xround mode_UP t) -> - undo Q <= t.
Proof.
  intros Q0 QB H. assert (- t <= undo Q); [|lra]. apply dn_undo; [exact Q0 | exact QB|]. rewrite <- (Ropp_involutive t), <- KaucherRound.xround_opp_DN in H.
  destruct (xround mode_DN (- t)); cbn [xopp R_xle xle_R] in *; try tauto. lra.
Qed.
Lemma mig_in i s q : xflt i <> XNan -> xflt s <> XNan -> xleb (xflt i) (xflt s) = true -> xleb (xflt (f_mig i s)) (XFin q) = true ->
  0 <= q /\ xle_R (xflt i) (q + bpow radix2 (-537)) /\ R_xle (- (q + bpow radix2 (-537))) (xflt s).
Proof.
  intros Ni Ns IS H. assert (G := mig_nn i s Ni Ns). assert (Q0 : 0 <= q) by (assert (Y := xleb_trans _ _ _ G H); now apply xleb_fin in Y). split; [exact Q0|].
  set (h := bpow radix2 (-537)). assert (H0 : 0 < h) by apply bpow_gt_0. assert (HH : h * h = bpow radix2 (-1074)) by (unfold h; rewrite <- bpow_plus; reflexivity).
  unfold f_mig in H. rewrite flt_leb_x, fmul_x in H. change (xflt f0) with (XFin 0) in H.
  destruct (xleb (xmul mode_NE (xflt i) (xflt s)) (XFin 0)) eqn:E.
  - clear H G. assert (BIG : forall u v, h < u -> h < v -> xleb (xround mode_NE (u * v)) (XFin 0) = true -> False).
    { intros u v U V C. assert (D : is_dbl (XFin (bpow radix2 (-1074)))) by (apply generic_dbl; [apply generic_format_bpow; unfold SpecFloat.fexp, SpecFloat.emin; lia | rewrite Rabs_pos_eq by apply bpow_ge_0; apply bpow_lt; lia]).
      assert (Y := xleb_trans _ _ _ (xround_ge_dbl mode_NE (u * v) _ D ltac:(rewrite <- HH; nra)) C). apply xleb_fin in Y. assert (P := bpow_gt_0 radix2 (-1074)). lra. }
    destruct (xflt i) as [| | |u], (xflt s) as [| | |v]; try congruence; try discriminate; cbn [xle_R R_xle]; try (split; exact Logic.I).
    + split; [exact Logic.I|]. apply Rnot_lt_le. intro L. cbn [xmul] in E. unfold xinf_times in E. destruct (Rcompare_spec v 0); try lra; discriminate.
    + split; [|exact Logic.I]. apply Rnot_lt_le. intro L. cbn [xmul] in E. unfold xinf_times in E. destruct (Rcompare_spec u 0); try lra; discriminate.
    + apply xleb_fin in IS. cbn [xmul] in E. split; apply Rnot_lt_le; intro L.
      * apply (BIG u v); [lra | lra | exact E].
      * apply (BIG (- u) (- v)); [lra | lra|]. replace (- u * - v) with (u * v) by ring. exact E.
  - clear G E. rewrite flt_ltb_x in H. assert (C : xleb (xabs (xflt i)) (XFin q) = true \/ xleb (xabs (xflt s)) (XFin q) = true) by (destruct (xltb _ _); rewrite xflt_abs in H; auto).
    clear H. destruct (xflt i) as [| | |u], (xflt s) as [| | |v]; try congruence; try discriminate; cbn [xle_R R_xle]; try (split; exact Logic.I); cbn [xabs] in C.
    + destruct C; discriminate.
    + split; [exact Logic.I|]. destruct C as [C|C]; [discriminate|]. apply xleb_fin in C. apply Rabs_le_inv in C. lra.
    + destruct C; discriminate.
    + split; [|exact Logic.I]. destruct C as [C|C]; [|discriminate]. apply xleb_fin in C. apply Rabs_le_inv in C. lra.
    + apply xleb_fin in IS. destruct C as [C|C]; apply xleb_fin in C; apply Rabs_le_inv in C; lra.
Qed.

(** ** The residual and the objective *)
Lemma mag_bounds y q c : proper_fin y -> Rabs (c - (num_val (lo y) + num_val (hi y)) / 2) + Rabs (q - (num_val (hi y) - num_val (lo y)) / 2) <= rounding_margin y ->
  q <= magnitude y + rounding_margin y.
Proof.
  intros [_ L] H. unfold magnitude. set (l := num_val (lo y)) in *. set (u := num_val (hi y)) in *. assert (Q1 := Rmax_l (Rabs l) (Rabs u)). assert (Q2 := Rmax_r (Rabs l) (Rabs u)).
  assert (Q3 := Rle_abs u). assert (Q4 : - l <= Rabs l) by (rewrite <- Rabs_Ropp; apply Rle_abs). assert (Q5 := Rabs_pos (c - (l + u) / 2)). assert (Q6 := Rle_abs (q - (u - l) / 2)). lra.
Qed.
Lemma undo_margin mg mag q : mg = bpow radix2 (-52) * mag + bpow radix2 (-1073) -> 0 <= mag -> 0 <= q -> q <= mag + mg ->
  undo (q + bpow radix2 (-537)) <= q + 3 * mg + bpow radix2 (-536).
Proof.
  intros E M0 Q0 QM. unfold undo. assert (P1 := bpow_gt_0 radix2 (-1073)). assert (P4 := bpow_gt_0 radix2 (-52)).
  assert (E2 : bpow radix2 (-51) = 2 * bpow radix2 (-52)) by (change (-51)%Z with (1 + -52)%Z; rewrite bpow_plus; reflexivity).
  assert (E3 : bpow radix2 (-536) = 2 * bpow radix2 (-537)) by (change (-536)%Z with (1 + -537)%Z; rewrite bpow_plus; reflexivity).
  assert (E5 : bpow radix2 (-52) <= / 16) by (apply Rle_trans with (bpow radix2 (-4)); [apply bpow_le; lia | cbn; lra]).
  assert (P5 := bpow_gt_0 radix2 (-537)). assert (P6 : bpow radix2 (-1073) <= bpow radix2 (-537) * / 2).
  { apply Rle_trans with (bpow radix2 (-537) * bpow radix2 (-1)); [rewrite <- bpow_plus; apply bpow_le; lia | change (bpow radix2 (-1)) with (/ 2); lra]. }
  rewrite E2, E3. set (u := bpow radix2 (-52)) in *. set (h := bpow radix2 (-537)) in *. set (z := bpow radix2 (-1073)) in *. clearbody u h z. clear E2 E3.
  assert (A1 : u * q <= u * mag + u * mg) by (rewrite <- Rmult_plus_distr_l; apply Rmult_le_compat_l; lra).
  assert (MG0 : 0 <= mg) by (assert (0 <= u * mag) by (apply Rmult_le_pos; lra); lra).
  assert (A2 : u * mg <= / 16 * mg) by (apply Rmult_le_compat_r; lra). assert (A3 : u * h <= / 16 * h) by (apply Rmult_le_compat_r; lra). lra.
Qed.
Theorem uni_nonneg M delta roots beta cols y w f : 0 <= delta -> usable M delta roots beta ((cols, y), w) ->
  returns (ispae_residual roots IUni beta ((cols, y), w)) mode_NE f -> flt_leb f0 f = true ->
  some_in beta cols y (inner_error M beta cols + 4 * rounding_margin y + bpow radix2 (-536)).
Proof.
  intros D U H L. destruct (residual_run M delta roots IUni beta cols y w D U) as (f' & a & b & c & q & i & s & R & AB & _ & O2 & O3 & MG & Dq & Xi & Xs & Xf).
  rewrite (ret_det _ _ _ _ H R) in L. destruct (rounded_order c a b i s AB Xi Xs) as (Ni & Ns & IS).
  rewrite flt_leb_x, Xf in L. change (xflt f0) with (XFin 0) in L. cbn [picked] in L. apply tol_sign in L; [|apply flt_dbl | exact Dq | apply U | now apply mig_nn].
  destruct (mig_in i s q Ni Ns IS L) as (Q0 & HI & HS). rewrite Xi in HI. rewrite Xs in HS.
  destruct U as (_ & _ & _ & _ & Py & By & _). assert (QM := mag_bounds y q c Py MG). unfold bounded_entry in By.
  assert (M0 : 0 <= magnitude y) by (unfold magnitude; eapply Rle_trans; [apply Rabs_pos | apply Rmax_l]).
  assert (UM := undo_margin (rounding_margin y) (magnitude y) q eq_refl M0 Q0 QM).
  assert (P5 := bpow_gt_0 radix2 (-537)).
  assert (QB : q + bpow radix2 (-537) <= bpow radix2 1022 * 2 - bpow radix2 1000).
  { unfold rounding_margin in QM. assert (B1 : bpow radix2 (-52) * magnitude y <= bpow radix2 1000) by (apply Rle_trans with (bpow radix2 (-52) * bpow radix2 1022); [apply Rmult_le_compat_l; [apply bpow_ge_0 | exact By] | rewrite <- bpow_plus; apply bpow_le; lia]).
    assert (B2 : bpow radix2 (-1073) <= bpow radix2 1000) by (apply bpow_le; lia). assert (B3 : bpow radix2 (-537) <= bpow radix2 1000) by (apply bpow_le; lia).
    assert (B4 : 4 * bpow radix2 1000 <= bpow radix2 1022) by (apply Rle_trans with (bpow radix2 2 * bpow radix2 1000); [change (bpow radix2 2) with 4; lra | rewrite <- bpow_plus; apply bpow_le; lia]). lra. }
  apply dn_undo in HI; [|lra | exact QB]. apply up_undo in HS; [|lra | exact QB].
  set (T := undo (q + bpow radix2 (-537))) in *.
  assert (T0 : 0 <= T) by (unfold T, undo; assert (0 <= bpow radix2 (-51) * (q + bpow radix2 (-537))) by (apply Rmult_le_pos; [apply bpow_ge_0 | lra]); assert (P1 := bpow_gt_0 radix2 (-1073)); lra).
  assert (V : exists v, a <= v <= b /\ - T <= c - v <= T).
  { destruct (Rle_lt_dec c a); [exists a; lra|]. destruct (Rle_lt_dec c b); [exists c; lra | exists b; lra]. }
  destruct V as (v & V1 & V2). destruct (row_value_near beta cols a b _ v V1 O2 O3) as (zs & HZ & EZ). exists zs. split; [exact HZ|]. apply Rabs_le_inv in EZ.
  revert MG. set (l := num_val (lo y)) in *. set (u := num_val (hi y)) in *. unfold Rabs. destruct (Rcase_abs (c - _)), (Rcase_abs (q - _)); lra.
Qed.
Theorem uni_all M delta roots csum beta rows v : 0 <= delta -> Forall (usable M delta roots beta) rows ->
  returns (ispae_value roots csum IUni Models.NInf beta rows) mode_NE v -> flt_leb f0 v = true ->
  forall cols y w, In ((cols, y), w) rows -> some_in beta cols y (inner_error M beta cols + 4 * rounding_margin y + bpow radix2 (-536)).
Proof.
  intros D U H L cols y w I. destruct (value_inf _ _ _ _ _ _ H (proj2 (leb_num _ _ L))) as (l & HL & _ & Min). destruct (forall2_in _ _ _ _ HL I) as (f & If & Hf).
  rewrite Forall_forall in U. apply (uni_nonneg M delta roots beta cols y w f D (U _ I) Hf). specialize (Min f If). rewrite flt_leb_x in *. eapply xleb_trans; eassumption.
Qed.
