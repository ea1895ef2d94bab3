(** Algebraic and order laws of the kernel, isotonicity, mid/mig/mag. *)
From Coq Require Import ZArith Reals List Bool Lia Lra Psatz.
From Flocq Require Import Core IEEE754.BinarySingleNaN.
From Verif Require Import Base PyNum Kernel Spec XReal XArith KernelProofs Expr ExprProofs.
Import ListNotations.
Open Scope R_scope.

(** ** Isotonicity *)
Lemma tight_mono (S S2 : R -> Prop) Z Z2 :
  (forall r, S r -> S2 r) -> tight S Z -> tight S2 Z2 -> (exists r, S r) ->
  (exists i u, lo Z2 = PFlt i /\ hi Z2 = PFlt u) -> inside Z Z2.
Proof.
  intros HS [[_ H1] [_ H2]] [[H3 _] [H4 _]] [r Hr] (i & u & Ei & Eu).
  rewrite Ei in H3. rewrite Eu in H4. unfold inside. rewrite Ei, Eu. split.
  - apply H1; [|intros; now apply H3, HS].
    apply not_true_is_false. rewrite is_nan_x. specialize (H3 r (HS r Hr)). rewrite num_le_R_x in H3. simpl in H3.
    intro E; rewrite E in H3; exact H3.
  - apply H2; [|intros; now apply H4, HS].
    apply not_true_is_false. rewrite is_nan_x. specialize (H4 r (HS r Hr)). rewrite R_le_num_x in H4. simpl in H4.
    intro E; rewrite E in H4; exact H4.
Qed.

Lemma inside_member X Y r : inside X Y -> member X r -> member Y r.
Proof.
  intros [H1 H2]. rewrite !member_x. rewrite num_le_x in H1, H2. intros []. split.
  - now apply xleb_xle_R with (xval (lo X)).
  - now apply R_xle_xleb with (xval (hi X)).
Qed.
Lemma image2_mono op X X2 Y Y2 r : inside X X2 -> inside Y Y2 -> image2 op X Y r -> image2 op X2 Y2 r.
Proof. intros HX HY (x & y & Hx & Hy & ->). exists x, y. split; [|split]; auto; eapply inside_member; eauto. Qed.
Lemma image2_ex op X Y : proper_fin X -> proper_fin Y -> exists r, image2 op X Y r.
Proof.
  intros PX PY. destruct (proper_fin_x X PX) as (a & b & Ha & Hb & Hab & _). destruct (proper_fin_x Y PY) as (c & d & Hc & Hd & Hcd & _).
  destruct (proper_members X a b Ha Hb Hab), (proper_members Y c d Hc Hd Hcd).
  exists (op a c), a, c; auto.
Qed.
Lemma gives_flt c m k xi xu Z : gives c m k xi xu -> returns c m Z -> exists i u, lo Z = PFlt i /\ hi Z = PFlt u.
Proof.
  intros (i & u & H & _) HZ. unfold returns, outcome in HZ. rewrite H in HZ. simpl in HZ. inversion HZ. exists i, u. split; reflexivity.
Qed.

Lemma contains0_mono Y Y2 : inside Y Y2 -> contains_num Y2 pn0 = false -> contains_num Y pn0 = false.
Proof.
  intros [H1 H2]. rewrite !contains0_x. rewrite num_le_x in H1, H2. intro H.
  destruct (xleb (xval (lo Y)) (XFin 0)) eqn:E1; [|reflexivity]. destruct (xleb (XFin 0) (xval (hi Y))) eqn:E2; [|reflexivity].
  rewrite (xleb_trans _ _ _ H1 E1), (xleb_trans _ _ _ E2 H2) in H. discriminate.
Qed.


Lemma op_tight o X Y m : kd X = Classical -> kd Y = Classical -> small_itv X -> small_itv Y -> proper_fin X -> proper_fin Y ->
  (o = OpDiv -> contains_num Y pn0 = false) ->
  exists Z, returns (py_op o (OItv X) (OItv Y)) m Z /\ tight (image2 (opR o) X Y) Z /\
    exists i u, lo Z = PFlt i /\ hi Z = PFlt u.
Proof.
  intros kX kY sX sY PX PY H0. destruct o; cbv [py_op py_add py_sub py_mul py_div opR].
  - destruct (add_tight X Y m sX sY PX PY) as (Z & HZ & T). exists Z. split; [exact HZ|split; [exact T|]].
    exact (gives_flt _ _ _ _ _ _ (add_gives X Y m sX sY) HZ).
  - destruct (sub_tight X Y m sX sY PX PY) as (Z & HZ & T). exists Z. split; [exact HZ|split; [exact T|]].
    exact (gives_flt _ _ _ _ _ _ (sub_gives X Y m sX sY) HZ).
  - destruct (mul_tight X Y m sX sY kX kY PX PY) as (Z & HZ & T). exists Z. split; [exact HZ|split; [exact T|]].
    exact (gives_flt _ _ _ _ _ _ (mul_gives X Y m sX sY kX kY) HZ).
  - specialize (H0 eq_refl).
    destruct (div_tight X Y m sX sY kX kY PX PY H0) as (Z & HZ & T). exists Z. split; [exact HZ|split; [exact T|]].
    refine (gives_flt _ _ _ _ _ _ (div_gives X Y m sX sY kX kY H0 _) HZ).
    right. destruct (proper_fin_x Y PY) as (c & d & -> & -> & Hcd & _). now apply xleb_fin.
Qed.

Lemma op_isotonic o X X2 Y Y2 m :
  kd X = Classical -> kd Y = Classical -> kd X2 = Classical -> kd Y2 = Classical ->
  small_itv X -> small_itv Y -> small_itv X2 -> small_itv Y2 ->
  proper_fin X -> proper_fin Y -> proper_fin X2 -> proper_fin Y2 ->
  inside X X2 -> inside Y Y2 -> (o = OpDiv -> contains_num Y2 pn0 = false) ->
  exists Z Z2, returns (py_op o (OItv X) (OItv Y)) m Z /\ returns (py_op o (OItv X2) (OItv Y2)) m Z2 /\ inside Z Z2.
Proof.
  intros kX kY kX2 kY2 sX sY sX2 sY2 PX PY PX2 PY2 IX IY H0.
  destruct (op_tight o X Y m kX kY sX sY PX PY) as (Z & HZ & TZ & _).
  { intro E. eapply contains0_mono; eauto. }
  destruct (op_tight o X2 Y2 m kX2 kY2 sX2 sY2 PX2 PY2 H0) as (Z2 & HZ2 & TZ2 & F).
  exists Z, Z2. split; [assumption|split; [assumption|]].
  eapply tight_mono; [|exact TZ|exact TZ2|now apply image2_ex|exact F].
  intros r Hr. eapply image2_mono; eauto.
Qed.

(** ** dual, opp, neg, pro *)
Lemma num_neg_neg x : num_neg (num_neg x) = x.
Proof. destruct x; simpl; [now rewrite Z.opp_involutive | unfold fneg; now rewrite Bopp_involutive]. Qed.
Lemma itv_eta X : mkitv (kd X) (lo X) (hi X) = X.
Proof. now destruct X. Qed.
Lemma neg_neg X : neg (neg X) = X.
Proof. unfold neg; simpl. rewrite !num_neg_neg. apply itv_eta. Qed.
Lemma dual_ends X : lo (dual X) = hi X /\ hi (dual X) = lo X.
Proof. unfold dual. destruct num_le; auto. Qed.
Lemma dual_dual_ends X : lo (dual (dual X)) = lo X /\ hi (dual (dual X)) = hi X.
Proof. destruct (dual_ends X), (dual_ends (dual X)). split; congruence. Qed.
Lemma dual_dual X : well_kinded X -> dual (dual X) = X.
Proof.
  intros W. destruct (dual_ends X) as [E1 E2].
  unfold dual at 1. rewrite E1, E2. unfold well_kinded in W.
  destruct (num_le (lo X) (hi X)).
  - rewrite <- (itv_eta X) at 3. f_equal. symmetry. now apply W.
  - rewrite <- (itv_eta X) at 3. f_equal. destruct (kd X) eqn:K; [|reflexivity]. assert (false = true) by (now apply W). discriminate.
Qed.
Lemma opp_neg_dual X : opp X = neg (dual X).
Proof. unfold opp, neg, dual. now destruct num_le. Qed.
Lemma opp_ends X : lo (opp X) = num_neg (lo X) /\ hi (opp X) = num_neg (hi X).
Proof. unfold opp. now destruct num_le. Qed.
Lemma opp_opp_ends X : lo (opp (opp X)) = lo X /\ hi (opp (opp X)) = hi X.
Proof. destruct (opp_ends X) as [E1 E2], (opp_ends (opp X)) as [F1 F2]. rewrite F1, F2, E1, E2. now rewrite !num_neg_neg. Qed.
Lemma xopp_xleb a b : xleb (xopp a) (xopp b) = xleb b a.
Proof.
  unfold xleb. destruct a, b; simpl; trivial.
  destruct (Rcompare_spec (-r) (-r0)), (Rcompare_spec r0 r); try reflexivity; lra.
Qed.
Lemma num_le_neg x y : num_le (num_neg x) (num_neg y) = num_le y x.
Proof. rewrite !num_le_x, !num_neg_x. apply xopp_xleb. Qed.
Lemma opp_opp X : well_kinded X -> opp (opp X) = X.
Proof.
  intros W. destruct (opp_ends X) as [E1 E2]. destruct (opp_opp_ends X) as [F1 F2].
  rewrite <- (itv_eta (opp (opp X))), F1, F2. rewrite <- (itv_eta X) at 4. f_equal.
  unfold opp at 1. rewrite E1, E2, num_le_neg. unfold well_kinded in W.
  destruct (num_le (lo X) (hi X)); simpl.
  - symmetry; now apply W.
  - destruct (kd X) eqn:K; [|reflexivity]. assert (false = true) by (now apply W). discriminate.
Qed.
Lemma pro_pro X : pro (pro X) = pro X.
Proof. unfold pro. destruct (kd X); reflexivity. Qed.
Lemma no_nan_x X : no_nan X <-> xval (lo X) <> XNan /\ xval (hi X) <> XNan.
Proof.
  unfold no_nan. split; intros [H1 H2].
  - split; rewrite <- is_nan_num_x; congruence.
  - rewrite <- is_nan_num_x in H1, H2. split; now apply not_true_is_false.
Qed.
Lemma pro_ordered X : no_nan X -> (kd X = Classical -> num_le (lo X) (hi X) = true) ->
  kd (pro X) = Classical /\ num_le (lo (pro X)) (hi (pro X)) = true /\
  ((lo (pro X) = lo X /\ hi (pro X) = hi X) \/ (lo (pro X) = hi X /\ hi (pro X) = lo X) \/
   (num_eq (lo X) (hi X) = true /\ lo (pro X) = lo X /\ hi (pro X) = lo X)).
Proof.
  rewrite no_nan_x. intros [N1 N2] W. unfold pro. destruct (kd X); simpl.
  - split; [reflexivity|]. split; [now apply W | left; split; reflexivity].
  - split; [reflexivity|]. unfold num_min2, num_max2. rewrite !num_lt_x, !num_le_x.
    destruct (xltb (xval (hi X)) (xval (lo X))) eqn:E1; destruct (xltb (xval (lo X)) (xval (hi X))) eqn:E2.
    + exfalso. apply xltb_xleb in E2. unfold xltb in E1. unfold xleb in E2.
      destruct (xval (lo X)), (xval (hi X)); simpl in *; try discriminate; try congruence;
        revert E1 E2; destruct (Rcompare_spec r r0); destruct (Rcompare_spec r0 r); try discriminate; lra.
    + split; [now apply xltb_xleb | right; left; split; reflexivity].
    + split; [now apply xltb_xleb | left; split; reflexivity].
    + split; [now apply xleb_refl | right; right; split; [|split; reflexivity]].
      rewrite num_eq_x. unfold xeqb. unfold xltb in E1, E2.
      destruct (xval (lo X)) as [| | |r], (xval (hi X)) as [| | |r0]; simpl in *; try discriminate; try congruence.
      destruct (Rcompare_spec r r0); destruct (Rcompare_spec r0 r); try discriminate; try reflexivity; lra.
Qed.
Lemma dual_well_kinded X : no_nan X -> num_le (hi X) (lo X) = true /\ kd (dual X) = Classical \/ num_le (hi X) (lo X) = false /\ kd (dual X) = Kaucher.
Proof. intros _. unfold dual. destruct num_le; auto. Qed.
Lemma dual_wk X : well_kinded (dual X).
Proof. unfold well_kinded. destruct (dual_ends X) as [-> ->]. unfold dual. destruct num_le; simpl; split; congruence. Qed.
Lemma opp_wk X : well_kinded (opp X).
Proof. unfold well_kinded. destruct (opp_ends X) as [-> ->]. rewrite num_le_neg. unfold opp. destruct num_le; simpl; split; congruence. Qed.

(** ** X + opp X *)
Lemma add_opp_zero X m : small_itv X -> finite_itv X ->
  exists Z, returns (py_add (OItv X) (OItv (opp X))) m Z /\ py_eq Z (ONum (PInt 0)) = true.
Proof.
  intros sX [F1 F2]. destruct (opp_ends X) as [E1 E2].
  assert (sO : small_itv (opp X)) by (destruct sX; split; rewrite ?E1, ?E2; now apply small_neg).
  destruct (gives_returns _ _ _ _ _ (add_gives X (opp X) m sX sO)) as (Z & HZ & _ & Hl & Hh & _).
  exists Z. split; [exact HZ|]. unfold py_eq, cmp_both. rewrite !num_eq_x, Hl, Hh, E1, E2, !num_neg_x.
  apply finite_num_x in F1, F2. rewrite F1, F2. simpl xopp. unfold xadd.
  rewrite !Rplus_opp_r. rewrite !(xround_dbl_id _ 0) by apply zero_dbl. simpl.
  assert (xeqb (XFin 0) (XFin 0) = true) by (now apply xeqb_fin). now rewrite H.
Qed.

(** ** mid *)
Lemma mid_run X m a b : small_itv X -> xval (lo X) = XFin a -> xval (hi X) = XFin b -> no_overflow m (b + a) ->
  exists v, returns (mid X) m v /\ xval v = xround m (/ 2 * rnd m (b + a)).
Proof.
  intros [sl sh] Hl Hh No.
  destruct (num_add_x m _ _ sh sl) as (w & Hw & Ew & Vw). rewrite Hl, Hh in Vw. simpl in Vw.
  assert (Vw' : xval w = XFin (rnd m (b + a))).
  { rewrite Vw. unfold xround. unfold no_overflow in No. now rewrite Rlt_bool_true. }
  destruct (to_double_exact w Ew) as (f & Hf & Hfx).
  exists (PFlt (fmul m fhalf f)). split.
  - unfold returns, outcome, mid, add_, mul_, mbind, mprim. rewrite Hw. simpl.
    unfold num_mul, arith2. destruct w as [z|g]; simpl in Hf |- *.
    + rewrite Hf. reflexivity.
    + inversion Hf. reflexivity.
  - cbn [xval]. rewrite fmul_x, Hfx, Vw'.
    assert (E : xflt fhalf = XFin (/2)).
    { assert (is_finite fhalf = true) by reflexivity. apply is_finite_x in H. rewrite H. f_equal.
      unfold fhalf, fl.
      assert (H1 := binary_normalize_correct 53 1024 prec53 prec53_lt mode_NE 1 (-1) false). cbv zeta in H1.
      assert (HF : F2R (Float radix2 1 (-1)) = / 2) by (unfold F2R; simpl; lra).
      rewrite HF in H1. rewrite round_generic in H1; auto with typeclass_instances.
      - rewrite Rlt_bool_true in H1; [apply H1|]. rewrite Rabs_pos_eq by lra.
        apply Rlt_trans with (bpow radix2 1); [simpl; lra | apply bpow_lt; lia].
      - change (/2) with (bpow radix2 (-1)). apply generic_format_bpow. unfold SpecFloat.fexp, SpecFloat.emin. lia. }
    rewrite E. reflexivity.
Qed.
Lemma gen_double a : generic_format radix2 fexp a -> generic_format radix2 fexp (2 * a).
Proof.
  intro H. replace (2 * a) with (a * bpow radix2 1) by (change (bpow radix2 1) with 2; ring).
  destruct (Req_dec a 0) as [->|Ha]; [rewrite Rmult_0_l; apply generic_format_0|].
  set (e := cexp radix2 fexp a). set (f := Ztrunc (scaled_mantissa radix2 fexp a)).
  assert (E : a = F2R (Float radix2 f e)) by exact H.
  assert (E2 : a * bpow radix2 1 = F2R (Float radix2 f (e + 1))).
  { rewrite E at 1. unfold F2R; cbn [Defs.Fnum Defs.Fexp]. rewrite bpow_plus. ring. }
  rewrite E2. apply generic_format_F2R. intros _. rewrite <- E2.
  unfold e, cexp. rewrite mag_mult_bpow by assumption. unfold SpecFloat.fexp, SpecFloat.emin. lia.
Qed.
Lemma mid_in X m : small_itv X -> proper_fin X -> no_overflow m (num_val (lo X) + num_val (hi X)) ->
  exists v, returns (mid X) m v /\ num_le (lo X) v = true /\ num_le v (hi X) = true.
Proof.
  intros sX PX No. destruct (proper_fin_x X PX) as (a & b & Ha & Hb & Hab & Ea & Eb).
  assert (Ga : is_dbl (XFin a)) by (rewrite <- Ha; destruct (small_double _ (proj1 sX)) as (f & _ & <-); now exists f).
  assert (Gb : is_dbl (XFin b)) by (rewrite <- Hb; destruct (small_double _ (proj2 sX)) as (f & _ & <-); now exists f).
  destruct (dbl_gen _ Ga) as [ga ma], (dbl_gen _ Gb) as [gb mb].
  rewrite <- Ea, <- Eb, Rplus_comm in No.
  destruct (mid_run X m a b sX Ha Hb No) as (v & Hv & Vv). exists v. split; [assumption|].
  rewrite !num_le_x, Ha, Hb, Vv.
  set (s := rnd m (b + a)).
  assert (S1 : 2 * a <= s) by (apply round_ge_generic; auto with typeclass_instances; [now apply gen_double | lra]).
  assert (S2 : s <= 2 * b) by (apply round_le_generic; auto with typeclass_instances; [now apply gen_double | lra]).
  assert (T1 : a <= rnd m (/2 * s)) by (apply round_ge_generic; auto with typeclass_instances; lra).
  assert (T2 : rnd m (/2 * s) <= b) by (apply round_le_generic; auto with typeclass_instances; lra).
  unfold xround. rewrite Rlt_bool_true.
  - split; now apply xleb_fin.
  - apply Rle_lt_trans with (2 := fmaxR_lt). apply Rabs_le_inv in ma, mb. apply Rabs_le. lra.
Qed.

(** ** mig, mag *)
Lemma mig_exact X m : small_itv X -> proper_fin X ->
  exists f, returns (mig X) m f /\ is_finite f = true /\
    (exists x, member X x /\ B2R f = Rabs x) /\ forall x, member X x -> B2R f <= Rabs x.
Proof.
  intros sX PX. destruct (mig_run X m sX) as (f & Hf & Hx).
  destruct (proper_fin_x X PX) as (a & b & Ha & Hb & Hab & _).
  destruct (proper_members X a b Ha Hb Hab) as [Ma Mb].
  exists f. split; [now apply ret_returns with m|].
  assert (E : exists r, xflt f = XFin r /\ exists x, member X x /\ r = Rabs x).
  { rewrite Hx. unfold xmig. rewrite contains_int0, Ha, Hb.
    destruct (xleb (XFin a) (XFin 0) && xleb (XFin 0) (XFin b)) eqn:E.
    - apply andb_prop in E. destruct E as [E1 E2]. apply xleb_fin in E1, E2.
      exists 0. split; [reflexivity|]. exists 0. rewrite Rabs_R0. split; [|reflexivity].
      rewrite member_x, Ha, Hb. simpl; lra.
    - destruct (xmin2_or (xabs (XFin a)) (xabs (XFin b))) as [->| ->]; simpl; eauto. }
  destruct E as (r & Er & x & Mx & Rx).
  assert (Ff : is_finite f = true) by (destruct f as [|[]| |]; simpl in *; congruence).
  assert (Rf : B2R f = r) by (apply is_finite_x in Ff; congruence).
  split; [assumption|]. split; [exists x; split; [assumption|congruence]|].
  intros y My. apply xmig_low in My. rewrite <- Hx, Er in My. simpl in My. lra.
Qed.
Lemma mag_exact X m : small_itv X -> proper_fin X ->
  exists f, returns (mag X) m f /\ is_finite f = true /\
    (exists x, member X x /\ B2R f = Rabs x) /\ forall x, member X x -> Rabs x <= B2R f.
Proof.
  intros sX PX. destruct (mag_run X m sX) as (f & Hf & Hx).
  destruct (proper_fin_x X PX) as (a & b & Ha & Hb & Hab & _).
  destruct (proper_members X a b Ha Hb Hab) as [Ma Mb].
  exists f. split; [now apply ret_returns with m|].
  assert (E : exists r, xflt f = XFin r /\ exists x, member X x /\ r = Rabs x).
  { rewrite Hx. unfold xmag. rewrite Ha, Hb.
    destruct (xmax2_or (xabs (XFin a)) (xabs (XFin b))) as [->| ->]; simpl; eauto. }
  destruct E as (r & Er & x & Mx & Rx).
  assert (Ff : is_finite f = true) by (destruct f as [|[]| |]; simpl in *; congruence).
  assert (Rf : B2R f = r) by (apply is_finite_x in Ff; congruence).
  split; [assumption|]. split; [exists x; split; [assumption|congruence]|].
  intros y My. apply xmag_high in My. rewrite <- Hx, Er in My. simpl in My. lra.
Qed.

(** exact range of the absolute value: every value between the ends is attained *)
Lemma abs_exact X m : small_itv X -> proper_fin X ->
  exists Z, returns (abs_itv X) m Z /\ forall r, member Z r <-> exists x, member X x /\ r = Rabs x.
Proof.
  intros sX PX. destruct (gives_returns _ _ _ _ _ (abs_gives X m sX)) as (Z & HZ & _ & Hl & Hh & _).
  exists Z. split; [assumption|]. intro r.
  destruct (proper_fin_x X PX) as (a & b & Ha & Hb & Hab & _).
  split.
  - rewrite member_x, Hl, Hh. unfold xmig, xmag. rewrite contains_int0, Ha, Hb.
    intros [H1 H2].
    assert (Hr : exists x, a <= x <= b /\ r = Rabs x).
    { unfold xmax2, xltb in H2. simpl in H2.
      destruct (xleb (XFin a) (XFin 0) && xleb (XFin 0) (XFin b)) eqn:E.
      - apply andb_prop in E. destruct E as [E1 E2]. apply xleb_fin in E1, E2. simpl in H1.
        rewrite (Rabs_left1 a) in H2 by lra. rewrite (Rabs_pos_eq b) in H2 by lra.
        destruct (Rcompare_spec (-a) b); simpl in H2.
        + exists r. rewrite Rabs_pos_eq by lra. lra.
        + exists r. rewrite Rabs_pos_eq by lra. lra.
        + exists (- r). rewrite Rabs_Ropp, Rabs_pos_eq by lra. lra.
      - unfold xmin2, xltb in H1. simpl in H1.
        assert (Hs : 0 < a \/ b < 0).
        { destruct (Rlt_or_le 0 a); [now left|]. destruct (Rlt_or_le b 0); [now right|].
          apply xleb_fin in H, H0. rewrite H, H0 in E. discriminate. }
        destruct Hs.
        + rewrite !Rabs_pos_eq in H1, H2 by lra.
          exists r. destruct (Rcompare_spec b a), (Rcompare_spec a b); simpl in H1, H2; try lra; rewrite Rabs_pos_eq by lra; lra.
        + rewrite !(Rabs_left a) in H1, H2 by lra. rewrite !(Rabs_left b) in H1, H2 by lra.
          exists (- r). destruct (Rcompare_spec (-b) (-a)), (Rcompare_spec (-a) (-b)); simpl in H1, H2; try lra; rewrite Rabs_Ropp, Rabs_pos_eq by lra; lra. }
    destruct Hr as (x & Hx & ->). exists x. split; [|reflexivity]. rewrite member_x, Ha, Hb. simpl. lra.
  - intros (x & Mx & ->). rewrite member_x, Hl, Hh. split; [now apply xmig_low | now apply xmag_high].
Qed.

(** ** Order laws *)
Lemma xcmp_refl a : a <> XNan -> xcmp a a = Some Eq.
Proof. destruct a; simpl; intro; try congruence. now rewrite Rcompare_Eq. Qed.
Lemma xeqb_eq a b : xeqb a b = true <-> a = b /\ a <> XNan.
Proof.
  unfold xeqb. split.
  - destruct a, b; simpl; try discriminate; try (split; congruence).
    destruct (Rcompare_spec r r0); try discriminate. intros _; split; congruence.
  - intros [-> H]. now rewrite xcmp_refl.
Qed.
Lemma xltb_trans a b c : xltb a b = true -> xltb b c = true -> xltb a c = true.
Proof.
  unfold xltb. destruct a, b, c; simpl; intros; try discriminate; try reflexivity;
    xcase; try discriminate; try reflexivity; lra.
Qed.
Lemma xltb_irrefl a : xltb a a = false.
Proof. unfold xltb. destruct a; simpl; try reflexivity. now rewrite Rcompare_Eq. Qed.

Lemma py_eq_spec X Y : py_eq X (OItv Y) = true <->
  xval (lo X) = xval (lo Y) /\ xval (hi X) = xval (hi Y) /\ xval (lo X) <> XNan /\ xval (hi X) <> XNan.
Proof. unfold py_eq, cmp_both. rewrite andb_true_iff, !num_eq_x, !xeqb_eq. tauto. Qed.
Lemma py_le_spec X Y : py_le X (OItv Y) = true <->
  xleb (xval (lo X)) (xval (lo Y)) = true /\ xleb (xval (hi X)) (xval (hi Y)) = true.
Proof. unfold py_le, cmp_both. now rewrite andb_true_iff, !num_le_x. Qed.
Lemma py_lt_spec X Y : py_lt X (OItv Y) = true <->
  xltb (xval (lo X)) (xval (lo Y)) = true /\ xltb (xval (hi X)) (xval (hi Y)) = true.
Proof. unfold py_lt, cmp_both. now rewrite andb_true_iff, !num_lt_x. Qed.
Lemma py_ne_negb X o : py_ne X o = negb (py_eq X o).
Proof. unfold py_ne, py_eq, cmp_both, num_ne. destruct o; now rewrite negb_andb. Qed.
Lemma py_ge_le X Y : py_ge X (OItv Y) = py_le Y (OItv X).
Proof. reflexivity. Qed.
Lemma py_gt_lt X Y : py_gt X (OItv Y) = py_lt Y (OItv X).
Proof. reflexivity. Qed.

Lemma order_laws :
  (forall X o, py_ne X o = negb (py_eq X o)) /\
  (forall X, no_nan X -> py_eq X (OItv X) = true) /\
  (forall X Y, py_eq X (OItv Y) = py_eq Y (OItv X)) /\
  (forall X Y Z, py_eq X (OItv Y) = true -> py_eq Y (OItv Z) = true -> py_eq X (OItv Z) = true) /\
  (forall X, no_nan X -> py_le X (OItv X) = true) /\
  (forall X Y Z, py_le X (OItv Y) = true -> py_le Y (OItv Z) = true -> py_le X (OItv Z) = true) /\
  (forall X Y, py_le X (OItv Y) = true -> py_le Y (OItv X) = true -> py_eq X (OItv Y) = true) /\
  (forall X, py_lt X (OItv X) = false) /\
  (forall X Y Z, py_lt X (OItv Y) = true -> py_lt Y (OItv Z) = true -> py_lt X (OItv Z) = true) /\
  (forall X Y, py_lt X (OItv Y) = true -> py_le X (OItv Y) = true /\ py_eq X (OItv Y) = false) /\
  (forall X Y, py_gt X (OItv Y) = py_lt Y (OItv X)) /\
  (forall X Y, py_ge X (OItv Y) = py_le Y (OItv X)).
Proof.
  split; [apply py_ne_negb|].
  split. { intros X H. apply no_nan_x in H. apply py_eq_spec. tauto. }
  split. { intros X Y. apply eq_iff_eq_true. rewrite !py_eq_spec. split; intros (H1 & H2 & H3 & H4); rewrite H1, H2 in *; auto. }
  split. { intros X Y Z. rewrite !py_eq_spec. intros (H1 & H2 & H3 & H4) (K1 & K2 & _). repeat split; congruence. }
  split. { intros X H. apply no_nan_x in H. apply py_le_spec. split; apply xleb_refl; tauto. }
  split. { intros X Y Z. rewrite !py_le_spec. intros [] []. split; eapply xleb_trans; eauto. }
  split. { intros X Y. rewrite !py_le_spec, py_eq_spec. intros [] [].
           repeat split; try (now apply xleb_antisym); eapply xleb_nnan_l; eauto. }
  split. { intro X. apply not_true_is_false. rewrite py_lt_spec, !xltb_irrefl. intros []; discriminate. }
  split. { intros X Y Z. rewrite !py_lt_spec. intros [] []. split; eapply xltb_trans; eauto. }
  split. { intros X Y. rewrite py_lt_spec, py_le_spec. intros [H1 H2]. split; [split; now apply xltb_xleb|].
           apply not_true_is_false. rewrite py_eq_spec. intros (E & _). rewrite E, xltb_irrefl in H1. discriminate. }
  split; reflexivity.
Qed.

(** ** Membership test *)
Lemma contains_num_spec X c : finite_num c -> (contains_num X c = true <-> member X (num_val c)).
Proof.
  intro F. apply finite_num_x in F. unfold contains_num. rewrite andb_true_iff, !num_le_x, member_x, F.
  destruct (xval (lo X)), (xval (hi X)); simpl; rewrite ?xleb_fin; unfold xleb; simpl; intuition congruence.
Qed.
Lemma contains_itv_spec X Y : proper_fin Y ->
  (contains_itv X Y = true <-> forall r, member Y r -> member X r).
Proof.
  intro P. destruct (proper_fin_x Y P) as (a & b & Ha & Hb & Hab & _).
  unfold contains_itv. rewrite andb_true_iff, !num_le_x, Ha, Hb. split.
  - intros [H1 H2] r. rewrite !member_x, Ha, Hb. simpl. intros [G1 G2]. split.
    + eapply xleb_xle_R; [exact H1 | exact G1].
    + eapply R_xle_xleb; [|exact H2]. exact G2.
  - intro H. destruct (proper_members Y a b Ha Hb Hab) as [Ma Mb]. apply H in Ma, Mb.
    rewrite member_x in Ma, Mb. destruct Ma as [Ma _], Mb as [_ Mb]. split.
    + destruct (xval (lo X)); simpl in Ma; try contradiction; [reflexivity|]. now apply xleb_fin.
    + destruct (xval (hi X)); simpl in Mb; try contradiction; [reflexivity|]. now apply xleb_fin.
Qed.
