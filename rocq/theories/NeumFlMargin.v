(** Neumaier on doubles for one equation: inner up to an explicit margin. *)
From Coq Require Import ZArith Reals List Bool Arith Lia Lra Psatz.
From Flocq Require Import Core IEEE754.BinarySingleNaN.
From Verif Require KaucherRound IsoProofs TrigProofs.
From Verif Require Import Base PyNum Kernel Spec Expr Arrays Construct SpecArray XReal XArith KernelProofs KernelMore KernelAlg ExprProofs ArrayProofs ArrayMore ArrayMat ConstructProofs
  RecogFl SpecRecogFl RecogFlProofs RecogFlCor HbrFl HbrFlProofs RohnFl GSProofs UssFl SpecUssFl UssFlProofs PowRealProofs SpecNeumFl NeumFlProofs.
Import ListNotations.
Open Scope R_scope.

(** ** The real numbers *)
Lemma size_part u eta M S g V G t q : 0 <= u <= /100 -> 0 <= eta -> 0 <= g <= /4 -> 0 < M -> 0 < S -> Rabs (S - M) <= g * M -> 0 <= G <= V ->
  0 <= t <= (V - G) * (1 + u) + eta -> q <= t / S * (1 + u) + eta ->
  G + M * (q * (1 + 2 * u) + 2 * eta) <= V + (2 * g + 8 * u) * V + 2 * eta + 6 * (M * eta).
Proof.
  intros Hu He Hg HM HS HD HG Ht Hq. apply Rabs_le_inv in HD.
  assert (MS : M <= (1 + 2 * g) * S) by nra. assert (SM : S <= 5/4 * M) by nra.
  assert (Sq : S * q <= t * (1 + u) + S * eta).
  { apply (Rmult_le_compat_l S) in Hq; [|lra]. replace (S * (t / S * (1 + u) + eta)) with (t * (1 + u) + S * eta) in Hq by (field; lra). exact Hq. }
  set (w := V - G) in *. assert (Hw : 0 <= w <= V) by (unfold w; lra).
  assert (X0 : 0 <= t * (1 + u) + S * eta) by (assert (0 <= S * eta) by (apply Rmult_le_pos; lra); nra).
  assert (MQ : M * q <= (1 + 2 * g) * (t * (1 + u) + S * eta)).
  { destruct (Rle_dec q 0) as [N|N].
    - apply Rle_trans with 0; [nra|]. apply Rmult_le_pos; lra.
    - apply Rle_trans with ((1 + 2 * g) * S * q); [apply Rmult_le_compat_r; lra|]. rewrite Rmult_assoc. apply Rmult_le_compat_l; lra. }
  assert (TU : t * (1 + u) <= w * ((1 + u) * (1 + u)) + eta * (1 + u)) by nra.
  assert (SE : S * eta <= 5/4 * (M * eta)) by nra.
  assert (ME : 0 <= M * eta) by (apply Rmult_le_pos; lra).
  assert (K : M * q * (1 + 2 * u) <= (1 + 2 * g) * (1 + 2 * u) * (w * ((1 + u) * (1 + u)) + eta * (1 + u) + 5/4 * (M * eta))).
  { apply Rle_trans with ((1 + 2 * g) * (t * (1 + u) + S * eta) * (1 + 2 * u)); [apply Rmult_le_compat_r; lra|].
    replace ((1 + 2 * g) * (t * (1 + u) + S * eta) * (1 + 2 * u)) with ((1 + 2 * g) * (1 + 2 * u) * (t * (1 + u) + S * eta)) by ring.
    apply Rmult_le_compat_l; [apply Rmult_le_pos; lra | lra]. }
  assert (C1 : (1 + 2 * g) * (1 + 2 * u) * ((1 + u) * (1 + u)) <= 1 + 2 * g + 8 * u).
  { assert (D1 : (1 + 2 * u) * ((1 + u) * (1 + u)) <= 1 + 5 * u) by (assert (u * u <= u * /100) by nra; assert (u * u * u <= u * /100) by nra; nra).
    rewrite Rmult_assoc. apply Rle_trans with ((1 + 2 * g) * (1 + 5 * u)); [apply Rmult_le_compat_l; lra|]. assert (g * u <= /4 * u) by (apply Rmult_le_compat_r; lra). nra. }
  assert (C2 : (1 + 2 * g) * (1 + 2 * u) * (1 + u) <= 2) by (assert (g * u <= /4 * u) by (apply Rmult_le_compat_r; lra); nra).
  assert (C3 : (1 + 2 * g) * (1 + 2 * u) * (5/4) <= 4) by (assert (g * u <= /4 * u) by (apply Rmult_le_compat_r; lra); nra).
  assert (K1 := Rmult_le_compat_l w _ _ (proj1 Hw) C1). assert (K2 := Rmult_le_compat_l eta _ _ He C2). assert (K3 := Rmult_le_compat_l (M * eta) _ _ ME C3).
  assert (K4 : (2 * g + 8 * u) * w <= (2 * g + 8 * u) * V) by (apply Rmult_le_compat_l; lra).
  assert (WG : G = V - w) by (unfold w; ring). nra.
Qed.
Lemma together u eta g M mg V c p l h W : 0 < u -> u <= /100 -> 0 < eta -> 0 <= g <= /4 -> 0 < M -> 0 <= mg -> (h - l) / 2 <= mg ->
  Rabs (c - (l + h) / 2) + Rabs (V - (h - l) / 2) <= 2 * u * mg + 4 * eta ->
  Rabs (p - c) <= V + (2 * g + 8 * u) * V + 2 * eta + 6 * (M * eta) + 2 * u * W ->
  l - ((4 * g + 32 * u) * mg + 2 * u * W + 32 * eta * (1 + M)) <= p <= h + ((4 * g + 32 * u) * mg + 2 * u * W + 32 * eta * (1 + M)).
Proof.
  intros U0 U1 H0 Hg HM MG RB DM AB. apply Rabs_le_inv in AB.
  assert (D1 := Rle_abs (c - (l + h) / 2)). assert (D2 := Rle_abs (- (c - (l + h) / 2))). rewrite Rabs_Ropp in D2.
  assert (D3 := Rle_abs (V - (h - l) / 2)). assert (D4 := Rabs_pos (c - (l + h) / 2)).
  set (r1 := Rabs (c - (l + h) / 2)) in *. set (r2 := Rabs (V - (h - l) / 2)) in *.
  assert (UM : u * mg <= /100 * mg) by (apply Rmult_le_compat_r; lra).
  assert (UN : 0 <= u * mg) by (apply Rmult_le_pos; lra).
  assert (VB : V <= 2 * mg + 4 * eta) by lra.
  assert (GV : (2 * g + 8 * u) * V <= (2 * g + 8 * u) * (2 * mg) + 4 * eta).
  { apply Rle_trans with ((2 * g + 8 * u) * (2 * mg + 4 * eta)); [apply Rmult_le_compat_l; lra|]. assert ((2 * g + 8 * u) * (4 * eta) <= 1 * (4 * eta)) by (apply Rmult_le_compat_r; lra). lra. }
  assert (ME : 0 <= M * eta) by (apply Rmult_le_pos; lra).
  set (K := (2 * g + 8 * u) * V) in *. clearbody K r1 r2. split; lra.
Qed.
(** ** One component *)
Lemma up_err x : rnd mode_UP x <= x + bpow radix2 (-52) * Rabs x + bpow radix2 (-1074).
Proof.
  assert (H := down_err (- x)). rewrite Rabs_Ropp in H. assert (E : - rnd mode_DN (- x) = rnd mode_UP x) by (rewrite KaucherRound.rnd_opp_DN, Ropp_involutive; reflexivity). lra.
Qed.
Lemma up_fin c p r : is_dbl (XFin c) -> 0 <= p -> xround mode_UP (p + c) = XFin r -> r <= p + c + bpow radix2 (-52) * Rabs (p + c) + bpow radix2 (-1074).
Proof.
  intros DC Hp H. unfold xround in H. destruct (Rlt_bool_spec (Rabs (rnd mode_UP (p + c))) (bpow radix2 1024)) as [L|L].
  - injection H as <-. apply up_err.
  - destruct (Rlt_bool_spec (p + c) 0) as [N|N]; [|discriminate H]. exfalso. assert (U := rnd_UP_ge (p + c)).
    destruct (dbl_gen c DC) as [_ B]. assert (FM : fmaxR < bpow radix2 1024) by (unfold fmaxR; eapply Rle_lt_trans; [apply Rle_abs | apply abs_B2R_lt_emax]).
    assert (R0 : rnd mode_UP (p + c) <= 0). { rewrite rnd_UP. apply round_le_generic; [apply FLT_exp_valid; reflexivity | apply valid_rnd_UP | apply generic_format_0 | lra]. }
    apply Rabs_le_inv in B. rewrite Rabs_left1 in L by exact R0. lra.
Qed.
Lemma dn_fin c p r : is_dbl (XFin c) -> 0 <= p -> xround mode_DN (- p + c) = XFin r -> - p + c - bpow radix2 (-52) * Rabs (- p + c) - bpow radix2 (-1074) <= r.
Proof.
  intros [f Hf] Hp H. assert (DC : is_dbl (XFin (- c))) by (exists (fneg f); rewrite xflt_neg, Hf; reflexivity).
  assert (H' : xround mode_UP (p + - c) = XFin (- r)) by (replace (p + - c) with (- (- p + c)) by ring; rewrite <- KaucherRound.xround_opp_DN, H; reflexivity).
  assert (Q := up_fin (- c) p (- r) DC Hp H'). replace (p + - c) with (- (- p + c)) in Q by ring. rewrite Rabs_Ropp in Q. lra.
Qed.
(** A component with finite ends is not much wider than it should be. *)
Lemma hull_close (c q : flt) m e x : is_finite c = true ->
  returns (z <- rmul_any (mkitv Classical (PInt (-1)) (PInt 1)) (ONum (PFlt q)) ;; radd z (PFlt c)) m e -> finite_itv e -> member e x ->
  is_finite q = true /\ Rabs (x - B2R c) <= Rabs (B2R q) * (1 + bpow radix2 (-52)) + bpow radix2 (-52) * Rabs (B2R c) + bpow radix2 (-1074).
Proof.
  intros Fc H [Fl Fh] Hx.
  set (U := mkitv Classical (PInt (-1)) (PInt 1)) in *.
  assert (SU : small_itv U) by (split; cbn; lia).
  destruct (gives_returns _ _ _ _ _ (rmul_gives U (PFlt q) m SU I eq_refl)) as (z & Hz & Kz & Lz & Uz & Sz & Mz).
  assert (XC := proj1 (is_finite_x c) Fc). assert (DC : is_dbl (XFin (B2R c))) by (rewrite <- XC; apply flt_dbl).
  destruct (gives_returns _ _ _ _ _ (radd_gives z (PFlt c) m Sz I)) as (e' & He' & _ & Le & Ue & _ & _).
  assert (EE : e = e').
  { apply (ret_det _ m e e' H). unfold returns, outcome, mbind. cbn [rmul_any]. unfold returns, outcome in Hz, He'.
    destruct (rmul U (PFlt q) m) as [[z'|] m1]; [|discriminate]. cbn [fst snd] in *. inversion Hz. subst. exact He'. }
  subst e'. apply finite_num_x in Fl, Fh. rewrite Fl in Le. rewrite Fh in Ue. cbn [xval] in Le, Ue. rewrite XC in Le, Ue.
  cbn [xval lo hi U] in Lz, Uz.
  assert (Fq : is_finite q = true).
  { assert (FZ : exists l, xval (lo z) = XFin l) by (destruct (xval (lo z)) as [| | |l]; try discriminate Le; now exists l).
    rewrite Lz in FZ. destruct q as [s|[|]| |s mm ee HH]; try reflexivity; exfalso; (eapply IsoProofs.inf_scale; [|exact FZ]); cbn [xflt]; auto. }
  split; [exact Fq|].
  assert (XQ := proj1 (is_finite_x q) Fq).
  assert (DQ : is_dbl (XFin (B2R q))) by (rewrite <- XQ; apply flt_dbl).
  assert (DN : is_dbl (XFin (- B2R q))) by (change (XFin (- B2R q)) with (xopp (XFin (B2R q))); rewrite <- XQ, <- xflt_neg; apply flt_dbl).
  rewrite XQ in Lz, Uz. unfold xmul in Lz, Uz. rewrite Rmult_1_r in Lz, Uz.
  replace (B2R q * -1) with (- B2R q) in Lz, Uz by lra. rewrite (xround_dbl_id mode_DN _ DQ), (xround_dbl_id mode_DN _ DN) in Lz. rewrite (xround_dbl_id mode_UP _ DQ), (xround_dbl_id mode_UP _ DN) in Uz.
  assert (LZ : xval (lo z) = XFin (- Rabs (B2R q))).
  { rewrite Lz. unfold xmin2, xltb. cbn. destruct (Rcompare_spec (B2R q) (- B2R q)); f_equal; unfold Rabs; destruct (Rcase_abs (B2R q)); lra. }
  assert (UZ : xval (hi z) = XFin (Rabs (B2R q))).
  { rewrite Uz. unfold xmax2, xltb. cbn. destruct (Rcompare_spec (- B2R q) (B2R q)); f_equal; unfold Rabs; destruct (Rcase_abs (B2R q)); lra. }
  rewrite LZ in Le. rewrite UZ in Ue. cbn [xadd] in Le, Ue. assert (P0 := Rabs_pos (B2R q)).
  assert (B1 := dn_fin (B2R c) _ _ DC P0 (eq_sym Le)). assert (B2 := up_fin (B2R c) _ _ DC P0 (eq_sym Ue)).
  apply member_x in Hx. rewrite Fl, Fh in Hx. cbn [xle_R R_xle] in Hx. destruct Hx as [H1 H2].
  assert (T1 : Rabs (- Rabs (B2R q) + B2R c) <= Rabs (B2R q) + Rabs (B2R c)) by (eapply Rle_trans; [apply Rabs_triang|]; rewrite Rabs_Ropp, Rabs_Rabsolu; lra).
  assert (T2 : Rabs (Rabs (B2R q) + B2R c) <= Rabs (B2R q) + Rabs (B2R c)) by (eapply Rle_trans; [apply Rabs_triang|]; rewrite Rabs_Rabsolu; lra).
  assert (PE := bpow_gt_0 radix2 (-52)). apply (Rmult_le_compat_l (bpow radix2 (-52))) in T1, T2; try lra.
  apply Rabs_le. lra.
Qed.

(** ** One equation *)
Lemma mag_value X m f : small_itv X -> proper_fin X -> returns (mag X) m f -> is_finite f = true /\ B2R f = magnitude X.
Proof.
  intros SX PX H. destruct (mag_exact X m SX PX) as (f' & R & F & (x & Mx & Ex) & B). assert (f = f') by (eapply ret_det; eassumption). subst f'. split; [exact F|].
  assert (PX' := PX). destruct PX' as [_ Hlh]. apply Rle_antisym.
  - rewrite Ex. apply (member_fin X x PX) in Mx. unfold magnitude. apply Rabs_le.
    assert (L := Rmax_l (Rabs (num_val (lo X))) (Rabs (num_val (hi X)))). assert (U := Rmax_r (Rabs (num_val (lo X))) (Rabs (num_val (hi X)))).
    set (g := Rmax _ _) in *. apply Rabs_le_inv in L, U. lra.
  - unfold magnitude. apply Rmax_lub; apply B; apply (member_fin X _ PX); lra.
Qed.
Lemma magnitude_member X x : proper_fin X -> member X x -> Rabs x <= magnitude X.
Proof.
  intros PX Mx. apply (member_fin X x PX) in Mx. unfold magnitude. apply Rabs_le.
  assert (L := Rmax_l (Rabs (num_val (lo X))) (Rabs (num_val (hi X)))). assert (U := Rmax_r (Rabs (num_val (lo X))) (Rabs (num_val (hi X)))).
  set (g := Rmax _ _) in *. apply Rabs_le_inv in L, U. lra.
Qed.

Lemma near_nn z V : 0 <= z <= V -> is_dbl (XFin V) -> xround mode_NE z = XFin (rnd mode_NE z) /\ 0 <= rnd mode_NE z.
Proof.
  intros Hz DV. destruct (dbl_gen V DV) as [GV BV].
  assert (R0 : 0 <= rnd mode_NE z) by (apply round_ge_generic; [apply FLT_exp_valid; reflexivity | apply valid_rnd_N | apply generic_format_0 | lra]).
  assert (R1 : rnd mode_NE z <= V) by (apply round_le_generic; [apply FLT_exp_valid; reflexivity | apply valid_rnd_N | exact GV | lra]).
  assert (FM : fmaxR < bpow radix2 1024) by (unfold fmaxR; eapply Rle_lt_trans; [apply Rle_abs | apply abs_B2R_lt_emax]).
  split; [|exact R0]. unfold xround. rewrite Rlt_bool_true; [reflexivity|]. apply Rabs_le_inv in BV. rewrite Rabs_pos_eq by exact R0. lra.
Qed.

Theorem neumaier_margin fsum g n A b y d T t : system 1 n A b (amap PFlt y) -> Forall (fun e => small_itv e /\ proper_fin e) (adata (adat A)) -> Forall bounded_entry (adata (adat b)) ->
  sum_within fsum n g -> 0 <= g <= /4 -> 0 < Rsum n (fun k => mag_at A [0%nat; k]) <= bpow radix2 1000 ->
  returns (neumaier_fl fsum A b y) mode_NE d -> Forall finite_itv (adata d) ->
  returns (tol_constituent_fl A b (amap PFlt y) (np_ones 1)) mode_NE T -> aget T [0%nat] = Some t -> num_le (PInt 0) t = true ->
  forall x P, (forall k e, aget d [k] = Some e -> member e (x k)) -> in_matrix A P ->
    in_rhs_by b (fun _ => single_margin g n A b y) (fun _ => Rsum n (fun k => P 0%nat k * x k)).
Proof.
  intros SY FA BB SW Hg HM HN FD HT Ht Hpos x P Hx HP i e0 He0.
  assert (SY' := SY). destruct SY' as (Hn & CA & SA & GA & Cb & Sb & Fb & Wy & Sy & Fy).
  assert (Sb' : ashape (adat b) = [1%nat]) by (destruct Cb as [E _]; congruence).
  assert (i = 0%nat) by (assert (L := aget_1_lt (adat b) 1 i e0 Sb' He0); lia). subst i.
  assert (Wyy : awf y) by (unfold awf in *; cbn [amap adata ashape] in Wy; rewrite map_length in Wy; exact Wy).
  destruct (neumaier_parts fsum 1 n A b y mode_NE d CA Cb SA Sb Wyy Sy (or_intror eq_refl) HN) as (T' & HT' & Sd & PP).
  assert (T' = T) by (eapply ret_det; eassumption). subst T'.
  destruct (entry_facts _ _ _ _ _ _ _ SY He0) as [SE PE].
  assert (BB' := BB). rewrite Forall_forall in BB'.
  destruct (mid_rad_margin e0 SE PE (BB' e0 (aget_vec_in _ _ _ He0))) as (c & V & Hm & DM).
  assert (MR : forall z, In z (adata (adat b)) -> exists c q, mid_rad mode_NE z c q).
  { rewrite Forall_forall in Fb. intros z Hz. destruct (Fb z Hz) as [S1 P1]. destruct (mid_rad_margin z S1 P1 (BB' z Hz)) as (c' & q' & Q & _). eauto. }
  assert (Wo : awf (np_ones 1)) by reflexivity.
  destruct (rows mag keeps_mag mode_NE (mag_total mode_NE) 1 n A b (amap PFlt y) (np_ones 1) T SY Wo eq_refl MR HT) as (ST & WT & RT).
  destruct (RT 0%nat ltac:(lia)) as (e' & vc & vr & D & gv & wi & dd & ti & He' & Rc & Rr & GD & MD & Rg & Hw & Rd & Rm & HT0).
  assert (e' = e0) by congruence. subst e'. assert (ti = t) by congruence. subst ti.
  destruct (mid_rad_num mode_NE e0 c V vc vr Hm Rc Rr) as (Ec & Eq & Xc & Xq & Dr).
  assert (wi = pn1) by (cbn in Hw; congruence). subst wi.
  destruct (row_run mode_NE vr gv pn1 dd t V Dr Xq I eq_refl Rd Rm) as (Dd & Xd & Xt).
  assert (N1 : num_val pn1 = 1). { destruct (xfin_num pn1 1 TrigProofs.xf1) as [_ E]. exact E. }
  rewrite N1 in Xt.
  assert (L0 : xleb (XFin 0) (xval t) = true) by (rewrite num_le_x in Hpos; exact Hpos).
  assert (L1 := L0). rewrite Xt in L1. apply mul_sign in L1; [|destruct Dd as [f ->]; apply flt_dbl | lra]. rewrite Xd in L1.
  assert (DV : is_dbl (XFin V)) by (destruct Dr as [f ->]; rewrite <- Xq; apply flt_dbl).
  destruct GD as (_ & SD & GD).
  destruct (mag_run D mode_NE SD) as (gv' & Hg' & Xg). assert (gv = gv') by exact (ret_det _ _ _ _ Rg (ret_returns _ _ _ _ Hg')). subst gv'.
  destruct (MD P HP) as [ND|MDm].
  { exfalso. destruct ND as [M1 M2]. apply is_nan_num_x in M1, M2. unfold xmag in Xg. rewrite M1, M2 in Xg. cbn in Xg. rewrite Xg in L1. discriminate. }
  apply xmag_high in MDm. rewrite <- Xg in MDm. rewrite Ec in MDm.
  destruct (xflt gv) as [| | |G] eqn:EG; [contradiction|contradiction|discriminate|]. cbn [R_xle] in MDm.
  apply sub_sign in L1; [|exact DV | rewrite <- EG; apply flt_dbl].
  assert (G0 : 0 <= G) by (eapply Rle_trans; [apply Rabs_pos | exact MDm]).
  destruct (near_nn (V - G) V ltac:(lra) DV) as [XR R0].
  assert (DT : is_dbl (XFin (rnd mode_NE (V - G)))) by (rewrite <- XR; apply xround_dbl).
  assert (XT : xval t = XFin (rnd mode_NE (V - G))).
  { rewrite Xt, Xd. unfold xsub, xopp, xadd. replace (V + - G) with (V - G) by ring. rewrite XR. unfold xmul. rewrite Rmult_1_l. now apply xround_dbl_id. }
  (* the row sum *)
  set (M := Rsum n (fun k => mag_at A [0%nat; k])) in *.
  assert (EA : forall k, (k < n)%nat -> exists a, aget (adat A) [0%nat; k] = Some a /\ small_itv a /\ proper_fin a).
  { intros k Hk. destruct (PP k Hk) as (_ & _ & l & _ & _ & [_ ML] & _). destruct (ML k Hk) as (a & Ha & _). exists a. split; [exact Ha|].
    rewrite Forall_forall in FA. apply FA. exact (aget_in _ _ _ Ha). }
  destruct (PP 0%nat Hn) as (t1 & _ & l & _ & HT1 & ML & _). cbn [Nat.eqb] in HT1, ML. rewrite Ht in HT1. injection HT1 as ET1.
  assert (VL : forall k, (k < n)%nat -> is_finite (nth k l fnan) = true /\ B2R (nth k l fnan) = mag_at A [0%nat; k]).
  { intros k Hk. destruct ML as [_ ML]. destruct (ML k Hk) as (a & Ha & Ra). destruct (EA k Hk) as (a' & Ha' & S1 & P1). assert (a' = a) by congruence. subst a'.
    unfold mag_at. rewrite Ha. exact (mag_value a mode_NE _ S1 P1 Ra). }
  assert (SUM1 : Rsum n (fun k => Rabs (B2R (nth k l fnan))) = M).
  { apply Rsum_ext. intros k Hk. destruct (VL k Hk) as [_ ->]. apply Rabs_pos_eq, mag_nn. }
  assert (SUM2 : Rsum n (fun k => B2R (nth k l fnan)) = M).
  { apply Rsum_ext. intros k Hk. now destruct (VL k Hk) as [_ ->]. }
  destruct (SW l (proj1 ML)) as [FS BS].
  { apply Forall_forall. intros f Hf. destruct (In_nth _ _ fnan Hf) as (k & Hk & <-). rewrite (proj1 ML) in Hk. now apply VL. }
  { eapply Rle_trans; [right; exact SUM1 | lra]. }
  assert (BS' : Rabs (B2R (fsum l) - M) <= g * M) by (rewrite <- SUM2 at 1; rewrite <- SUM1; exact BS). clear BS. rename BS' into BS. set (Sf := fsum l) in *.
  assert (PS : 0 < B2R Sf) by (apply Rabs_le_inv in BS; nra).
  set (q := fdiv mode_NE t1 Sf).
  assert (Q0 : forall j e, (j < n)%nat -> aget d [j] = Some e -> is_finite q = true /\
    exists cj, aget y [j] = Some cj /\ Rabs (x j - B2R cj) <= Rabs (B2R q) * (1 + bpow radix2 (-52)) + bpow radix2 (-52) * Rabs (B2R cj) + bpow radix2 (-1074)).
  { intros j e Hj He. destruct (PP j Hj) as (t2 & cj & l2 & e2 & HT2 & ML2 & Cj & Ej & RR). cbn [Nat.eqb] in HT2, ML2.
    assert (t2 = t1) by congruence. subst t2. assert (e2 = e) by congruence. subst e2.
    assert (l2 = l).
    { destruct ML as [L1' P1]. destruct ML2 as [L2' P2]. apply (nth_ext _ _ fnan fnan); [congruence|]. intros k Hk. rewrite L2' in Hk.
      destruct (P1 k Hk) as (a1 & A1 & Q1). destruct (P2 k Hk) as (a2 & A2 & Q2). assert (a2 = a1) by congruence. subst a2. exact (ret_det _ _ _ _ Q2 Q1). }
    subst l2. fold Sf in RR. fold q in RR.
    assert (Fc : is_finite cj = true).
    { rewrite Forall_forall in Fy. assert (IN : In (PFlt cj) (adata (amap PFlt y))) by (cbn [amap adata]; apply in_map; exact (aget_vec_in _ _ _ Cj)).
      destruct (Fy _ IN) as [_ F]. exact F. }
    rewrite Forall_forall in FD. destruct (hull_close cj q mode_NE e (x j) Fc RR (FD e (aget_vec_in _ _ _ He)) (Hx j e He)) as [F1 F2].
    split; [exact F1|]. exists cj. split; [exact Cj | exact F2]. }
  assert (DE : forall j, (j < n)%nat -> exists e, aget d [j] = Some e) by (intros j Hj; destruct (PP j Hj) as (_ & _ & _ & e & _ & _ & _ & Ej & _); now exists e).
  assert (Fq : is_finite q = true) by (destruct (DE 0%nat Hn) as [e He]; exact (proj1 (Q0 0%nat e Hn He))).
  (* its size *)
  assert (XS := proj1 (is_finite_x Sf) FS).
  assert (XQ : xflt q = xround mode_NE (rnd mode_NE (V - G) / B2R Sf)).
  { unfold q. rewrite fdiv_x by (rewrite XS; intro E; injection E; lra). rewrite XS. rewrite ET1 in XT. cbn [xval] in XT. rewrite XT. reflexivity. }
  assert (TS : 0 <= rnd mode_NE (V - G) / B2R Sf) by (apply Rmult_le_pos; [exact R0 | apply Rlt_le, Rinv_0_lt_compat, PS]).
  assert (BQ : B2R q = rnd mode_NE (rnd mode_NE (V - G) / B2R Sf)).
  { rewrite (proj1 (is_finite_x q) Fq) in XQ. unfold xround in XQ. destruct (Rlt_bool (Rabs (rnd mode_NE (rnd mode_NE (V - G) / B2R Sf))) (bpow radix2 1024)); [injection XQ as XQ; exact XQ|].
    destruct (Rlt_bool _ 0) in XQ; discriminate XQ. }
  assert (QE := nearest_err (rnd mode_NE (V - G) / B2R Sf)). rewrite <- BQ, (Rabs_pos_eq _ TS) in QE.
  assert (TE := nearest_err (V - G)). rewrite (Rabs_pos_eq (V - G)) in TE by lra.
  assert (AQ : Rabs (B2R q) <= rnd mode_NE (V - G) / B2R Sf * (1 + bpow radix2 (-53)) + bpow radix2 (-1075)).
  { replace (B2R q) with ((B2R q - rnd mode_NE (V - G) / B2R Sf) + rnd mode_NE (V - G) / B2R Sf) by ring. eapply Rle_trans; [apply Rabs_triang|]. rewrite (Rabs_pos_eq _ TS). lra. }
  assert (U0 := bpow_gt_0 radix2 (-53)). assert (H0 := bpow_gt_0 radix2 (-1075)).
  assert (E52 : bpow radix2 (-52) = 2 * bpow radix2 (-53)) by (change 2 with (bpow radix2 1); now rewrite <- bpow_plus).
  assert (E1074 : bpow radix2 (-1074) = 2 * bpow radix2 (-1075)) by (change 2 with (bpow radix2 1); now rewrite <- bpow_plus).
  assert (E1073 : bpow radix2 (-1073) = 4 * bpow radix2 (-1075)) by (change 4 with (bpow radix2 2); now rewrite <- bpow_plus).
  assert (E1070 : bpow radix2 (-1070) = 32 * bpow radix2 (-1075)) by (change 32 with (bpow radix2 5); now rewrite <- bpow_plus).
  assert (E48 : bpow radix2 (-48) = 32 * bpow radix2 (-53)) by (change 32 with (bpow radix2 5); now rewrite <- bpow_plus).
  assert (U1 : bpow radix2 (-53) <= /100) by (apply Rle_trans with (bpow radix2 (-7)); [apply bpow_le; lia | cbn; lra]).
  set (u := bpow radix2 (-53)) in *. set (eta := bpow radix2 (-1075)) in *.
  apply Rabs_le_inv in TE.
  assert (SZ := size_part u eta M (B2R Sf) g V G (rnd mode_NE (V - G)) (Rabs (B2R q)) ltac:(lra) ltac:(lra) Hg (proj1 HM) PS BS ltac:(lra) ltac:(lra) AQ).
  (* the product *)
  set (W := Rsum n (fun k => mag_at A [0%nat; k] * abs_at (amap PFlt y) k)).
  assert (DP : Rabs (Rsum n (fun k => P 0%nat k * x k) - row_value n P (amap PFlt y) 0%nat) <= M * (Rabs (B2R q) * (1 + 2 * u) + 2 * eta) + 2 * u * W).
  { unfold row_value.
    replace (Rsum n (fun k => P 0%nat k * x k) - Rsum n (fun k => P 0%nat k * match aget (amap PFlt y) [k] with Some v => num_val v | None => 0 end))
      with (Rsum n (fun k => P 0%nat k * (x k - match aget (amap PFlt y) [k] with Some v => num_val v | None => 0 end))).
    2:{ unfold Rminus at 2. replace (- Rsum n (fun k => P 0%nat k * match aget (amap PFlt y) [k] with Some v => num_val v | None => 0 end)) with (-1 * Rsum n (fun k => P 0%nat k * match aget (amap PFlt y) [k] with Some v => num_val v | None => 0 end)) by ring.
        rewrite Rsum_scal, <- Rsum_add. apply Rsum_ext. intros; ring. }
    eapply Rle_trans; [apply Rsum_abs|]. unfold M, W. rewrite (Rmult_comm (Rsum n _)), !Rsum_scal, <- Rsum_add. apply Rsum_le. intros k Hk.
    destruct (EA k Hk) as (a & Ha & S1 & P1). assert (MA : Rabs (P 0%nat k) <= mag_at A [0%nat; k]) by (unfold mag_at; rewrite Ha; apply magnitude_member; [exact P1 | exact (HP 0%nat k a Ha)]).
    destruct (DE k Hk) as [e He]. destruct (Q0 k e Hk He) as (_ & cj & Cj & BJ). unfold abs_at. rewrite aget_map, Cj. cbn [option_map num_val]. rewrite Rabs_mult, E52, E1074 in *.
    apply Rle_trans with (mag_at A [0%nat; k] * (Rabs (B2R q) * (1 + 2 * u) + 2 * u * Rabs (B2R cj) + 2 * eta)); [|right; ring].
    apply Rmult_le_compat; [apply Rabs_pos | apply Rabs_pos | exact MA | exact BJ]. }
  (* together *)
  assert (EMB : mag_at b [0%nat] = magnitude e0) by (unfold mag_at; now rewrite He0).
  unfold single_margin. fold M W. rewrite EMB. rewrite E48, E52, E1070. unfold rounding_margin in DM. rewrite E52, E1073 in DM.
  assert (RB : (num_val (hi e0) - num_val (lo e0)) / 2 <= magnitude e0).
  { unfold magnitude. assert (L := Rmax_l (Rabs (num_val (lo e0))) (Rabs (num_val (hi e0)))). assert (U := Rmax_r (Rabs (num_val (lo e0))) (Rabs (num_val (hi e0)))).
    set (gg := Rmax _ _) in *. apply Rabs_le_inv in L, U. lra. }
  assert (MG := magnitude_nn e0). set (mg := magnitude e0) in *.
  set (p := Rsum n (fun k => P 0%nat k * x k)) in *. set (r0 := row_value n P (amap PFlt y) 0%nat) in *.
  assert (AB : Rabs (p - c) <= V + (2 * g + 8 * u) * V + 2 * eta + 6 * (M * eta) + 2 * u * W).
  { replace (p - c) with ((p - r0) + - (c - r0)) by ring. eapply Rle_trans; [apply Rabs_triang|]. rewrite Rabs_Ropp. lra. }
  assert (PQ : 0 <= W) by (apply Rsum_nn; intros; apply Rmult_le_pos; [apply mag_nn | apply abs_nn]).
  apply (together u eta g M mg V c p _ _ W); clear -U0 U1 H0 Hg HM MG RB DM AB; try tauto; lra.
Qed.
