(** Proofs about the unary properties of interval arrays. *)
From Coq Require Import ZArith Reals List Bool Arith Lia Lra.
From Flocq Require Import Core IEEE754.BinarySingleNaN.
From Verif Require Import Base PyNum Kernel Spec SpecElem Expr Arrays Construct SpecArray XReal XArith KernelProofs KernelMore KernelAlg ExprProofs
  ArrayProofs ArrayMore ArrayItems ConstructProofs ConstructSys ConstructUtil ArrayElemProofs NewtonVec ArrayUnary GSEmpty KaucherDiv ArrayCmp.
Import ListNotations.
Open Scope R_scope.

Section Map.
Variable f : itv -> M itv.
Hypothesis K : forall e, keeps_mode (f e).

Lemma map_elementwise x m Z : consistent x -> returns (arr_map f x) m Z ->
  consistent Z /\ shp Z = shp x /\
  forall idx e, aget (adat x) idx = Some e -> exists c, aget (adat Z) idx = Some c /\ returns (f e) m c.
Proof. intros [Sx Wx] H. destruct (arr_map_spec _ x m Z K H Wx) as (C & S' & P). split; [exact C|]. split; [congruence | exact P]. Qed.
Lemma map_raises x m ex : raises (arr_map f x) m ex ->
  (adata (adat x) = [] /\ ex = ValueError) \/
  exists pre e post, adata (adat x) = pre ++ e :: post /\ Forall (fun b => exists c, returns (f b) m c) pre /\ raises (f e) m ex.
Proof.
  intros H. unfold arr_map, lift_arr in H. unfold raises, outcome, mbind in H.
  destruct (vectorize f (adat x) m) as [[d|e] m1] eqn:E; [discriminate|]. cbn in H. assert (e = ex) by congruence. subst e. clear H.
  unfold vectorize in E. destruct (adata (adat x)) as [|a l] eqn:D; [left; split; [reflexivity|]; inversion E; reflexivity|]. right.
  unfold amapM, mbind in E. rewrite D in E.
  apply (mapM_raises _ K). unfold raises, outcome.
  destruct (mapM f (a :: l) m) as [[d|e] m2] eqn:E2; cbn in *; [discriminate E | inversion E; reflexivity].
Qed.
Lemma map_run x m : consistent x -> adata (adat x) <> [] ->
  (forall e, In e (adata (adat x)) -> exists c, returns (f e) m c) ->
  exists Z, returns (arr_map f x) m Z /\ consistent Z /\ shp Z = shp x /\
  forall idx e, aget (adat x) idx = Some e -> exists c, aget (adat Z) idx = Some c /\ returns (f e) m c.
Proof. intros C N T. destruct (arr_map_total f x m K N T) as [Z HZ]. exists Z. split; [exact HZ|]. now apply map_elementwise. Qed.
End Map.

Lemma pure_map (g : itv -> itv) x m : consistent x -> adata (adat x) <> [] ->
  exists Z, returns (arr_map (fun e => mret (g e)) x) m Z /\ consistent Z /\ shp Z = shp x /\
  forall idx e, aget (adat x) idx = Some e -> aget (adat Z) idx = Some (g e).
Proof.
  intros C N. destruct (map_run (fun e => mret (g e)) (fun e => keeps_ret _) x m C N) as (Z & HZ & CZ & SZ & P).
  { intros e _. exists (g e). now apply returns_ret. }
  exists Z. repeat (split; [assumption|]). intros idx e G. destruct (P idx e G) as (c & Gc & Rc). apply returns_ret in Rc. now subst c.
Qed.
Lemma reorient_arrays x m : consistent x -> adata (adat x) <> [] ->
  (exists Z, returns (arr_dual x) m Z /\ consistent Z /\ shp Z = shp x /\ forall idx e, aget (adat x) idx = Some e -> aget (adat Z) idx = Some (dual e)) /\
  (exists Z, returns (arr_pro x) m Z /\ consistent Z /\ shp Z = shp x /\ forall idx e, aget (adat x) idx = Some e -> aget (adat Z) idx = Some (pro e)) /\
  (exists Z, returns (arr_opp x) m Z /\ consistent Z /\ shp Z = shp x /\ forall idx e, aget (adat x) idx = Some e -> aget (adat Z) idx = Some (opp e)).
Proof. intros C N. split; [|split]; now apply pure_map. Qed.

Lemma neg_array x m : consistent x ->
  exists Z, returns (arr_neg x) m Z /\ consistent Z /\ shp Z = shp x /\ forall idx e, aget (adat x) idx = Some e -> aget (adat Z) idx = Some (neg e).
Proof.
  intros [Sx Wx]. exists (array_interval (amap neg (adat x))).
  assert (E : forall l, mapM (fun e => mret (neg e)) l m = (Ok (map neg l), m)).
  { induction l as [|e l IH]; [reflexivity|]. cbn [mapM map]. unfold mbind at 1. cbn. unfold mbind at 1. rewrite IH. reflexivity. }
  split; [|split; [|split]].
  - unfold arr_neg, lift_arr, amapM, returns, outcome, mbind. rewrite E. reflexivity.
  - split; [reflexivity|]. unfold awf in *. cbn. rewrite map_length. exact Wx.
  - cbn. congruence.
  - intros idx e G. cbn. unfold aget, amap in *. cbn [ashape adata]. destruct (flat (ashape (adat x)) idx) eqn:F; [|discriminate G].
    rewrite nth_error_map, G. reflexivity.
Qed.

(** abs: the exact sets *)
Lemma abs_array x m : consistent x -> adata (adat x) <> [] -> Forall small_itv (adata (adat x)) -> Forall proper_fin (adata (adat x)) ->
  exists Z, returns (arr_abs x) m Z /\ consistent Z /\ shp Z = shp x /\
  forall idx e, aget (adat x) idx = Some e -> exists z, aget (adat Z) idx = Some z /\ forall r, member z r <-> exists u, member e u /\ r = Rabs u.
Proof.
  intros C N S P. rewrite Forall_forall in S, P.
  destruct (map_run abs_itv keeps_abs x m C N) as (Z & HZ & CZ & SZ & Q).
  { intros e He. destruct (abs_exact e m (S e He) (P e He)) as (z & Hz & _). eauto. }
  exists Z. repeat (split; [assumption|]). intros idx e G. destruct (Q idx e G) as (c & Gc & Rc). exists c. split; [exact Gc|].
  assert (I := aget_in _ _ _ G). destruct (abs_exact e m (S e I) (P e I)) as (z & Hz & T). unfold returns in *.
  assert (c = z) by congruence. now subst c.
Qed.

(** to_float *)
Lemma to_float_raises x m : adata (adat x) <> [] -> raises (arr_to_float x) m AttributeError.
Proof.
  intro N. unfold arr_to_float, lift_arr, vectorize. destruct (adata (adat x)) as [|e l] eqn:E; [congruence|].
  unfold raises, outcome, amapM, mbind. rewrite E. reflexivity.
Qed.

(** khi *)
Lemma near_one : fmt (1 - bpow radix2 (-53)).
Proof.
  replace (1 - bpow radix2 (-53)) with (IZR (2 ^ 53 - 1) * bpow radix2 (-53)).
  - apply fmt_int; [split; [discriminate | reflexivity] | lia].
  - rewrite minus_IZR. replace (IZR (2 ^ 53)) with (bpow radix2 53) by reflexivity.
    rewrite Rmult_minus_distr_r, <- bpow_plus. simpl (bpow radix2 (53 + -53)). lra.
Qed.
Lemma below_one (a b : R) : generic_format radix2 fexp a -> generic_format radix2 fexp b -> Rabs a < Rabs b ->
  Rabs (a / b) <= 1 - bpow radix2 (-53).
Proof.
  intros Ga Gb L.
  assert (B0 : 0 < Rabs b) by (apply Rle_lt_trans with (2 := L); apply Rabs_pos).
  unfold Rdiv. rewrite Rabs_mult, Rabs_inv. apply Rmult_le_reg_r with (1 := B0). rewrite Rmult_assoc, Rinv_l, Rmult_1_r by lra.
  set (x := Rabs b) in *. set (y := Rabs a) in *.
  assert (Gx : generic_format radix2 fexp x) by now apply generic_format_abs.
  assert (Gy : generic_format radix2 fexp y) by now apply generic_format_abs.
  assert (Y0 : 0 <= y) by apply Rabs_pos.
  assert (P53 : 0 < bpow radix2 (-53) <= 1 / 2).
  { split; [apply bpow_gt_0|]. replace (1 / 2) with (bpow radix2 (-1)) by (simpl; lra). apply bpow_le. lia. }
  destruct (Req_dec y 0) as [Ey|Ny]; [rewrite Ey; apply Rmult_le_pos; lra|].
  destruct (Raux.mag radix2 y) as (e, He) eqn:Em. assert (He' := He Ny). rewrite Rabs_pos_eq in He' by lra.
  assert (Me : (-1074 <= cexp radix2 fexp y)%Z) by (unfold cexp, SpecFloat.fexp, SpecFloat.emin; lia).
  assert (Ue : ulp radix2 fexp y = bpow radix2 (cexp radix2 fexp y)) by now apply ulp_neq_0.
  assert (U : bpow radix2 (e - 53) <= ulp radix2 fexp y).
  { rewrite Ue. apply bpow_le. unfold cexp. rewrite Em. cbn [mag_val]. unfold SpecFloat.fexp. lia. }
  assert (S1 : y + ulp radix2 fexp y <= x).
  { rewrite <- succ_eq_pos by lra. apply succ_le_lt; auto with typeclass_instances. }
  assert (T : y + ulp radix2 fexp y <= bpow radix2 e).
  { assert (C1 : (cexp radix2 fexp y <= e - 1)%Z).
    { assert (Z1 : ulp radix2 fexp y <= y) by (apply ulp_le_id; auto with typeclass_instances; lra).
      rewrite Ue in Z1. assert (Z2 : (cexp radix2 fexp y < e)%Z) by (apply (lt_bpow radix2); lra). lia. }
    rewrite <- succ_eq_pos by lra. apply succ_le_lt; auto with typeclass_instances; [|lra].
    apply generic_format_bpow. unfold SpecFloat.fexp, SpecFloat.emin. lia. }
  destruct (Rle_lt_dec x (bpow radix2 e)) as [X1|X1].
  - assert (x * bpow radix2 (-53) <= bpow radix2 (e - 53)); [|lra].
    replace (e - 53)%Z with (e + -53)%Z by lia. rewrite bpow_plus. apply Rmult_le_compat_r; lra.
  - apply Rle_trans with ((1 - bpow radix2 (-53)) * bpow radix2 e); [|apply Rmult_le_compat_l; lra].
    rewrite Rmult_minus_distr_r, <- bpow_plus. replace (-53 + e)%Z with (e - 53)%Z by lia. lra.
Qed.
Lemma ratio_below a b m : generic_format radix2 fexp a -> generic_format radix2 fexp b -> Rabs a < Rabs b ->
  xround m (a / b) = XFin (rnd m (a / b)) /\ Rabs (rnd m (a / b)) < 1.
Proof.
  intros Ga Gb L. assert (H := below_one a b Ga Gb L). destruct near_one as [G1 _].
  assert (V : Rabs (rnd m (a / b)) <= 1 - bpow radix2 (-53)) by (apply abs_round_le_generic; auto with typeclass_instances).
  assert (P := bpow_gt_0 radix2 (-53)). split; [|lra].
  unfold xround. rewrite Rlt_bool_true; [reflexivity|]. apply Rle_lt_trans with (1 := V).
  apply Rlt_trans with (bpow radix2 0); [simpl; lra|]. apply bpow_lt. lia.
Qed.
Lemma ratio_unit a b m : b <> 0 -> Rabs a = Rabs b -> xround m (a / b) = XFin (a / b) /\ rnd m (a / b) = a / b /\ (a = b /\ a / b = 1 \/ a = - b /\ a / b = -1).
Proof.
  intros B E. assert (C : a = b /\ a / b = 1 \/ a = - b /\ a / b = -1).
  { assert (a = b \/ a = - b) as [-> | ->] by (revert E; unfold Rabs; destruct (Rcase_abs a), (Rcase_abs b); intros; lra);
      [left | right]; split; try reflexivity; field; exact B. }
  assert (F : generic_format radix2 fexp (a / b) /\ Rabs (a / b) < bpow radix2 1024).
  { assert (O : generic_format radix2 fexp 1) by (replace 1 with (bpow radix2 0) by reflexivity; apply generic_format_bpow; vm_compute; discriminate).
    assert (P : 1 < bpow radix2 1024) by (replace 1 with (bpow radix2 0) at 1 by reflexivity; apply bpow_lt; lia).
    destruct C as [[_ ->] | [_ ->]]; (split; [first [exact O | now apply generic_format_opp] | unfold Rabs; destruct (Rcase_abs _); lra]). }
  destruct F as [G L]. split; [now apply xround_gen|]. split; [|exact C]. apply round_generic; auto with typeclass_instances.
Qed.

Lemma div_run x y m v : small_num x -> small_num y -> finite_num x -> finite_num y -> num_val y <> 0 ->
  xround m (num_val x / num_val y) = XFin v -> exists f, returns (div_ x y) m (PFlt f) /\ is_finite f = true /\ B2R f = v.
Proof.
  intros Sx Sy Fx Fy N E. apply finite_num_x in Fx, Fy.
  destruct (num_div_x m x y Sx Sy) as (w & Hw & _ & Xw); [rewrite Fy; congruence|].
  rewrite Fx, Fy in Xw. cbn [xdiv] in Xw. rewrite E in Xw.
  assert (D : exists f, w = PFlt f).
  { clear -Hw. unfold num_div in Hw. destruct x as [a|g], y as [b|h].
    - destruct (b =? 0)%Z; [discriminate|]. destruct (_ && _)%bool; [inversion Hw; eauto|]. destruct (is_finite _); [inversion Hw; eauto | discriminate].
    - destruct (to_double (PInt a)); [|discriminate]. cbn in Hw. destruct (flt_eqb _ _); [discriminate | inversion Hw; eauto].
    - destruct (to_double (PInt b)); [|discriminate]. cbn in Hw. destruct (flt_eqb _ _); [discriminate | inversion Hw; eauto].
    - cbn in Hw. destruct (flt_eqb _ _); [discriminate | inversion Hw; eauto]. }
  destruct D as [f ->]. exists f. split; [|].
  - unfold returns, outcome, div_, mprim. now rewrite Hw.
  - cbn [xval] in Xw. assert (F : is_finite f = true) by (destruct f as [ |[|]| | ]; first [reflexivity | cbn in Xw; discriminate]).
    split; [exact F|]. apply is_finite_x in F. rewrite Xw in F. congruence.
Qed.
Lemma div_zero x y m : small_num x -> finite_num x -> small_num y -> finite_num y -> num_val y = 0 -> raises (div_ x y) m ZeroDivisionError.
Proof.
  intros Sx Fx Sy Fy E. unfold raises, outcome, div_, mprim. destruct (small_double x Sx) as (f & Hf & Hfx), (small_double y Sy) as (g & Hg & Hgx).
  apply finite_num_x in Fy. rewrite E in Fy. assert (Hgb : flt_eqb g PyNum.f0 = true).
  { rewrite flt_eqb_x, Hgx, Fy. change (xflt PyNum.f0) with (XFin 0). unfold xeqb. cbn. now rewrite Rcompare_Eq. }
  unfold num_div. destruct x as [a|f0], y as [b|g0]; try (rewrite Hf, Hg; cbn [rbind]; rewrite Hgb; reflexivity).
  assert (b = 0)%Z as -> by (apply eq_IZR; exact E). reflexivity.
Qed.

Lemma small_gen v : small_num v -> finite_num v -> generic_format radix2 fexp (num_val v).
Proof.
  intros S F. destruct (small_double v S) as (f & _ & Hx). apply finite_num_x in F. rewrite F in Hx.
  assert (Ff : is_finite f = true) by (destruct f as [ |[|]| | ]; first [reflexivity | cbn in Hx; discriminate]).
  apply is_finite_x in Ff. rewrite Hx in Ff. inversion Ff as [E]. rewrite E. apply gen_B2R.
Qed.
Lemma khi_run X m : small_itv X ->
  khi X m = (if xleb (xabs (xval (lo X))) (xabs (xval (hi X))) then div_ (lo X) (hi X) m else div_ (hi X) (lo X) m).
Proof.
  intros [S1 S2]. destruct (fabs_run (lo X) m S1) as (a & Ha & Xa), (fabs_run (hi X) m S2) as (b & Hb & Xb).
  unfold khi, mbind. rewrite Ha. cbv beta iota. rewrite Hb. cbv beta iota. rewrite flt_leb_x, Xa, Xb. now destruct (xleb _ _).
Qed.
Lemma khi_spec X m : small_itv X -> finite_itv X ->
  let a := num_val (lo X) in let b := num_val (hi X) in
  (a = 0 -> b = 0 -> raises (khi X) m ZeroDivisionError) /\
  (a <> 0 \/ b <> 0 -> exists f, returns (khi X) m (PFlt f) /\ is_finite f = true /\
     B2R f = rnd m (if Rle_lt_dec (Rabs a) (Rabs b) then a / b else b / a) /\
     -1 <= B2R f <= 1 /\ (B2R f = 1 <-> a = b) /\ (B2R f = -1 <-> a = - b)).
Proof.
  intros S F a b. assert (R := khi_run X m S). destruct S as [S1 S2], F as [F1 F2].
  assert (V1 := proj1 (finite_num_x _) F1). assert (V2 := proj1 (finite_num_x _) F2). fold a in V1. fold b in V2.
  rewrite V1, V2 in R. cbn [xabs] in R.
  split.
  - intros Ea Eb. unfold raises, outcome. rewrite R. destruct (xleb _ _); [exact (div_zero _ _ m S1 F1 S2 F2 Eb) | exact (div_zero _ _ m S2 F2 S1 F1 Ea)].
  - intro N. assert (Ga := small_gen _ S1 F1). fold a in Ga.
    assert (Gb := small_gen _ S2 F2). fold b in Gb.
    destruct (Rle_lt_dec (Rabs a) (Rabs b)) as [L|L].
    + assert (B0 : b <> 0) by (intro Z; rewrite Z, Rabs_R0 in L; assert (a = 0) by (revert L; unfold Rabs; destruct (Rcase_abs a); lra); lra).
      assert (T : xleb (XFin (Rabs a)) (XFin (Rabs b)) = true) by (now apply xleb_fin). rewrite T in R.
      assert (xround m (a / b) = XFin (rnd m (a / b)) /\ -1 <= rnd m (a / b) <= 1 /\ (rnd m (a / b) = 1 <-> a = b) /\ (rnd m (a / b) = -1 <-> a = - b)) as (Q1 & Q2).
      { destruct L as [L|E].
        - destruct (ratio_below a b m Ga Gb L) as [H1 H2]. split; [exact H1|]. split; [revert H2; unfold Rabs; destruct (Rcase_abs _); lra|].
          split; split; intro Z; exfalso; [rewrite Z in H2; revert H2; unfold Rabs; destruct (Rcase_abs 1); lra | rewrite Z in L; lra
            | rewrite Z in H2; revert H2; unfold Rabs; destruct (Rcase_abs (-1)); lra | rewrite Z, Rabs_Ropp in L; lra].
        - destruct (ratio_unit a b m B0 E) as (H1 & H2 & [[H3 H4] | [H3 H4]]); rewrite H2; (split; [exact H1|]); rewrite H4; (split; [lra|]); split; split; intros; lra. }
      destruct (div_run (lo X) (hi X) m _ S1 S2 F1 F2 B0 Q1) as (f & Hf & Ff & Vf).
      exists f. split; [unfold returns, outcome in *; now rewrite R|]. split; [exact Ff|]. rewrite Vf. split; [reflexivity | exact Q2].
    + assert (A0 : a <> 0) by (intro Z; rewrite Z, Rabs_R0 in L; assert (H := Rabs_pos b); lra).
      assert (T : xleb (XFin (Rabs a)) (XFin (Rabs b)) = false).
      { destruct (xleb _ _) eqn:T; [|reflexivity]. apply xleb_fin in T. lra. } rewrite T in R.
      destruct (ratio_below b a m Gb Ga L) as [H1 H2].
      destruct (div_run (hi X) (lo X) m _ S2 S1 F2 F1 A0 H1) as (f & Hf & Ff & Vf).
      exists f. split; [unfold returns, outcome in *; now rewrite R|]. split; [exact Ff|]. rewrite Vf. split; [reflexivity|].
      split; [revert H2; unfold Rabs; destruct (Rcase_abs _); lra|].
      split; split; intro Z; exfalso; [rewrite Z in H2; revert H2; unfold Rabs; destruct (Rcase_abs 1); lra | rewrite Z in L; lra
            | rewrite Z in H2; revert H2; unfold Rabs; destruct (Rcase_abs (-1)); lra | rewrite Z, Rabs_Ropp in L; lra].
Qed.

Lemma khi_array x m : adata (adat x) <> [] -> Forall small_itv (adata (adat x)) -> Forall finite_itv (adata (adat x)) ->
  Forall (fun e => num_val (lo e) <> 0 \/ num_val (hi e) <> 0) (adata (adat x)) ->
  exists Z, returns (arr_khi x) m Z /\ ashape Z = ashape (adat x) /\ Forall2 (fun e v => returns (khi e) m v) (adata (adat x)) (adata Z).
Proof.
  intros N S F Z. rewrite Forall_forall in S, F, Z.
  assert (Q : forall e, In e (adata (adat x)) -> exists f, returns (khi e) m (PFlt f)).
  { intros e I. destruct (proj2 (khi_spec e m (S e I) (F e I)) (Z e I)) as (f & Hf & _). eauto. }
  destruct (mapM_total khi (adata (adat x)) m keeps_khi) as [vs Hvs]. { intros e I. destruct (Q e I). eauto. }
  apply mapM_returns in Hvs; [|exact keeps_khi].
  exists (mkarr (ashape (adat x)) vs). split; [|split; [reflexivity|exact Hvs]].
  apply vectorize_num_exact; auto using keeps_khi.
  - left. clear -Hvs Q. revert Q. induction Hvs as [|e v l l' H1 H2 IH]; intro Q; constructor.
    + destruct (Q e (or_introl eq_refl)) as [f Hf]. exists f. unfold returns in *. congruence.
    + apply IH. intros e' I. apply Q. now right.
  - intros ->. inversion Hvs. congruence.
Qed.

(** [khi([1, [1, 2]])] is [1, 0]: the dtype of the first result is int. *)
Lemma khi_mixed_x : forall m, exists a Z v e, returns (u_khi_arr a) m Z /\ aget a [1%nat] = Some (OItv e) /\ proper_fin e /\ small_itv e /\
  aget Z [1%nat] = Some v /\ num_val v = 0 /\ exists w, returns (u_khi (OItv e)) m w /\ finite_num w /\ num_val w = 1 / 2.
Proof.
  intro m. set (e := mkitv Classical (PInt 1) (PInt 2)).
  exists (mkarr [2%nat] [ONum (PInt 1); OItv e]), (mkarr [2%nat] [PInt 1; PInt 0]), (PInt 0), e.
  split; [destruct m; vm_compute; reflexivity|]. split; [reflexivity|].
  assert (F : finite_itv e) by (split; exact I). assert (S : small_itv e) by (split; cbn; lia).
  split; [split; [exact F | cbn; lra]|]. split; [exact S|]. split; [reflexivity|]. split; [reflexivity|].
  assert (T := proj2 (khi_spec e m S F)). cbv zeta in T. change (num_val (lo e)) with 1 in T. change (num_val (hi e)) with 2 in T.
  destruct T as (f & Hf & Ff & Vf & _); [left; lra|].
  exists (PFlt f). split; [exact Hf|]. split; [exact Ff|]. cbn [num_val]. rewrite Vf.
  destruct (Rle_lt_dec _ _) as [L|L]; [|exfalso; rewrite (Rabs_pos_eq 1), (Rabs_pos_eq 2) in L by lra; lra].
  apply round_generic; auto with typeclass_instances. replace (1 / 2) with (bpow radix2 (-1)) by (simpl; lra). apply generic_format_bpow. vm_compute. discriminate.
Qed.

(** numpy functions with the interval array first *)
Lemma array_first o x y m : np_arr_left o x y m = arr_op o x (op_arr x) m /\ np_matmul_left x y m = matmul (op_arr x) (op_arr x) m.
Proof. split; [destruct o; reflexivity | reflexivity]. Qed.
Lemma got1 {T} (c : M T) m (f : T -> bool) : match outcome c m with Ok v => f v | Err _ => false end = true -> exists v, returns c m v /\ f v = true.
Proof. unfold returns. destruct (outcome c m) as [v|e]; [|discriminate]. eauto. Qed.
(** np.subtract(X, Y) for X = [[1, 2]], Y = [[5, 6]] is [[-1, 1]]; np.subtract(X, y) returns although the shapes do not fit. *)
Lemma array_first_x m : exists x y Z z X Y, consistent x /\ consistent y /\ shp x = shp y /\
  returns (np_arr_left OpSub x (op_arr y)) m Z /\ aget (adat Z) [0%nat] = Some z /\ aget (adat x) [0%nat] = Some X /\ aget (adat y) [0%nat] = Some Y /\
  good X /\ good Y /\ exists u v, member X u /\ member Y v /\ ~ member z (u - v).
Proof.
  set (X := mkitv Classical (PInt 1) (PInt 2)). set (Y := mkitv Classical (PInt 5) (PInt 6)).
  set (x := array_interval (mkarr [1%nat] [X])). set (y := array_interval (mkarr [1%nat] [Y])).
  destruct (got1 (np_arr_left OpSub x (op_arr y)) m (fun Z => match aget (adat Z) [0%nat] with Some z => num_lt (PInt (-2)) (lo z) | None => false end))
    as (Z & HZ & T); [destruct m; vm_compute; reflexivity|].
  destruct (aget (adat Z) [0%nat]) as [z|] eqn:G; [|discriminate].
  exists x, y, Z, z, X, Y. split; [split; reflexivity|]. split; [split; reflexivity|]. split; [reflexivity|]. split; [exact HZ|].
  split; [exact G|]. split; [reflexivity|]. split; [reflexivity|].
  split; [split; [reflexivity|split; [split; simpl; lia|right; exists 1; split; simpl; lra]]|].
  split; [split; [reflexivity|split; [split; simpl; lia|right; exists 5; split; simpl; lra]]|].
  exists 1, 5. split; [split; simpl; lra|]. split; [split; simpl; lra|].
  rewrite num_lt_x in T. cbn [xval] in T. rewrite member_x. intros [H _].
  destruct (xval (lo z)) as [| | |r]; cbn in T, H; try discriminate; try contradiction.
  unfold xltb in T. cbn in T. destruct (Rcompare_spec (-2) r); try discriminate; lra.
Qed.
Lemma array_first_shapes_x m : exists x y Z, consistent x /\ consistent y /\ (~ exists s, broadcast_shape (shp x) (shp y) s) /\
  returns (np_arr_left OpSub x (op_arr y)) m Z.
Proof.
  set (X := mkitv Classical (PInt 1) (PInt 2)).
  set (x := array_interval (mkarr [2%nat] [X; X])). set (y := array_interval (mkarr [3%nat] [X; X; X])).
  destruct (got1 (np_arr_left OpSub x (op_arr y)) m (fun _ => true)) as (Z & HZ & _); [destruct m; vm_compute; reflexivity|].
  exists x, y, Z. split; [split; reflexivity|]. split; [split; reflexivity|]. split; [|exact HZ].
  intros [s B]. apply bcast_iff in B. discriminate.
Qed.
Lemma inv_array x m : consistent x -> adata (adat x) <> [] ->
  Forall (fun e => small_itv e /\ finite_itv e /\ num_val (lo e) <> 0 /\ num_val (hi e) <> 0) (adata (adat x)) ->
  exists Z, returns (arr_inv x) m Z /\ consistent Z /\ shp Z = shp x /\
  forall idx e, aget (adat x) idx = Some e -> exists z, aget (adat Z) idx = Some z /\
    greatest_lower_double (fun r => r = 1 / num_val (lo e)) (lo z) /\ least_upper_double (fun r => r = 1 / num_val (hi e)) (hi z) /\
    (kd z = Classical <-> num_val (hi e) <= num_val (lo e)).
Proof.
  intros C N S. rewrite Forall_forall in S.
  destruct (map_run inv keeps_inv x m C N) as (Z & HZ & CZ & SZ & Q).
  { intros e He. destruct (S e He) as (S1 & S2 & S3 & S4). destruct (inv_ends e m S1 S2 S3 S4) as (z & Hz & _). eauto. }
  exists Z. repeat (split; [assumption|]). intros idx e G. destruct (Q idx e G) as (c & Gc & Rc). exists c. split; [exact Gc|].
  destruct (S e (aget_in _ _ _ G)) as (S1 & S2 & S3 & S4). destruct (inv_ends e m S1 S2 S3 S4) as (z & Hz & T). unfold returns in *.
  assert (c = z) by congruence. now subst c.
Qed.
Lemma unary_raises c f x m ex : c = arr_inv /\ f = inv \/ c = arr_abs /\ f = abs_itv -> raises (c x) m ex ->
  (adata (adat x) = [] /\ ex = ValueError) \/
  exists pre e post, adata (adat x) = pre ++ e :: post /\ Forall (fun b => exists c, returns (f b) m c) pre /\ raises (f e) m ex.
Proof. intros [[-> ->] | [-> ->]]; apply map_raises; [exact keeps_inv | exact keeps_abs]. Qed.
Lemma to_float_reversed x m :
  (adata (adat x) <> [] -> raises (arr_to_float x) m AttributeError) /\ ArrayCmp.arr_reversed x = Err AttributeError.
Proof. split; [apply to_float_raises | reflexivity]. Qed.
