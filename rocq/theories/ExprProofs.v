(** Mixed operations, mode restoration, and the fundamental theorem. *)
From Coq Require Import ZArith Reals List Bool Lia Lra Psatz.
From Flocq Require Import Core IEEE754.BinarySingleNaN.
From Verif Require Import Base PyNum Kernel Spec XReal XArith KernelProofs Expr.
Import ListNotations.
Open Scope R_scope.

(** ** Mode restoration *)
Create HintDb keeps.
Global Hint Resolve keeps_ret keeps_raise keeps_prim keeps_lift keeps_with : keeps.
Ltac keeps := repeat first
  [ progress cbv zeta
  | solve [auto with keeps]
  | match goal with |- keeps_mode (mbind _ _) => apply keeps_bind; [|intro] end
  | match goal with
    | |- keeps_mode (match ?x with _ => _ end) => destruct x
    | |- keeps_mode (if ?b then _ else _) => destruct b
    | |- keeps_mode (let (_, _) := ?x in _) => destruct x
    end
  | match goal with |- keeps_mode ?c => let h := head_of c in unfold h end ]
with head_of c := match c with ?f _ => head_of f | _ => c end.

Lemma keeps_as_double c : keeps_mode c -> keeps_mode (as_double c).
Proof. intro. unfold as_double. apply keeps_bind; [assumption|intro]. apply keeps_lift. Qed.
Global Hint Resolve keeps_as_double : keeps.
Lemma keeps_rmul s c : keeps_mode (rmul s c).
Proof. unfold rmul. destruct (kd s); [unfold classical_rmul | unfold kaucher_rmul, plus_part, minus_part, sub_]; keeps. Qed.
Lemma keeps_radd s c : keeps_mode (radd s c). Proof. unfold radd; keeps. Qed.
Lemma keeps_rsub s c : keeps_mode (rsub s c). Proof. unfold rsub; keeps. Qed.
Global Hint Resolve keeps_rmul keeps_radd keeps_rsub : keeps.
Lemma keeps_rtruediv s c : keeps_mode (rtruediv s c). Proof. unfold rtruediv; keeps. Qed.
Lemma keeps_mul_sum x y : keeps_mode (mul_sum x y).
Proof. unfold mul_sum, plus_part, minus_part, sub_; keeps. Qed.
Lemma keeps_mul_max x y : keeps_mode (mul_max x y).
Proof. unfold mul_max, plus_part, minus_part, sub_; keeps. Qed.
Lemma keeps_mul_classical x y : keeps_mode (mul_classical x y). Proof. unfold mul_classical; keeps. Qed.
Lemma keeps_div_classical x y : keeps_mode (div_classical x y). Proof. unfold div_classical; keeps. Qed.
Lemma keeps_recip x : keeps_mode (recip x). Proof. unfold recip; keeps. Qed.
Global Hint Resolve keeps_rtruediv keeps_mul_sum keeps_mul_max keeps_mul_classical keeps_div_classical keeps_recip : keeps.
Lemma keeps_add s o : keeps_mode (itv_add s o). Proof. unfold itv_add; keeps. Qed.
Lemma keeps_sub s o : keeps_mode (itv_sub s o). Proof. unfold itv_sub; keeps. Qed.
Lemma keeps_mul s o : keeps_mode (itv_mul s o). Proof. unfold itv_mul; keeps. Qed.
Lemma keeps_div s o : keeps_mode (itv_div s o). Proof. unfold itv_div, div_; keeps. Qed.
Global Hint Resolve keeps_add keeps_sub keeps_mul keeps_div : keeps.
Lemma keeps_py_op o x y : keeps_mode (py_op o x y).
Proof. destruct o; simpl; [unfold py_add|unfold py_sub|unfold py_mul|unfold py_div]; keeps. Qed.
Lemma keeps_fabs x : keeps_mode (fabs_ x). Proof. unfold fabs_; keeps. Qed.
Global Hint Resolve keeps_py_op keeps_fabs : keeps.
Lemma keeps_mig s : keeps_mode (mig s). Proof. unfold mig; keeps. Qed.
Lemma keeps_mag s : keeps_mode (mag s). Proof. unfold mag; keeps. Qed.
Lemma keeps_wid s : keeps_mode (wid s). Proof. unfold wid, sub_; keeps. Qed.
Global Hint Resolve keeps_mig keeps_mag keeps_wid : keeps.
Lemma keeps_rad s : keeps_mode (rad s). Proof. unfold rad, mul_; keeps. Qed.
Lemma keeps_mid s : keeps_mode (mid s). Proof. unfold mid, add_, mul_; keeps. Qed.
Lemma keeps_inv s : keeps_mode (inv s). Proof. unfold inv; keeps. Qed.
Lemma keeps_khi s : keeps_mode (khi s). Proof. unfold khi, div_; keeps. Qed.
Lemma keeps_abs s : keeps_mode (abs_itv s). Proof. unfold abs_itv; keeps. Qed.
Global Hint Resolve keeps_rad keeps_mid keeps_inv keeps_khi keeps_abs : keeps.
Section L.
Variable L : libm.
Lemma keeps_math_exp x : keeps_mode (math_exp L x). Proof. unfold math_exp; keeps. Qed.
Lemma keeps_math_log x : keeps_mode (math_log L x). Proof. unfold math_log; keeps. Qed.
Lemma keeps_math_trig f x : keeps_mode (math_trig f x). Proof. unfold math_trig; keeps. Qed.
Hint Resolve keeps_math_exp keeps_math_log keeps_math_trig : keeps.
Lemma keeps_exp s : keeps_mode (itv_exp L s).
Proof.
  intro m. unfold itv_exp.
  set (c := mbind (math_exp L (lo s)) _).
  assert (K : keeps_mode c) by (unfold c; keeps).
  specialize (K m). destruct (c m) as [[a|[]] m1]; exact K.
Qed.
Lemma keeps_log s : keeps_mode (itv_log L s). Proof. unfold itv_log; keeps. Qed.
Lemma keeps_trig_range s a b t1 t2 : keeps_mode (trig_range s a b t1 t2). Proof. unfold trig_range; keeps. Qed.
Hint Resolve keeps_exp keeps_log keeps_trig_range : keeps.
Lemma keeps_sin s : keeps_mode (itv_sin L s). Proof. unfold itv_sin, math_sin; keeps. Qed.
Lemma keeps_cos s : keeps_mode (itv_cos L s). Proof. unfold itv_cos, math_cos; keeps. Qed.
Lemma keeps_sqrt s : keeps_mode (itv_sqrt L s). Proof. unfold itv_sqrt; keeps. Qed.
Hint Resolve keeps_sin keeps_cos keeps_sqrt : keeps.
Lemma keeps_pow s e : keeps_mode (itv_pow L s e).
Proof. unfold itv_pow, classical_pow, kaucher_pow. keeps. Qed.
Lemma keeps_ufunc s u o : keeps_mode (array_ufunc L s u o).
Proof. unfold array_ufunc, radd_any, rmul_any. keeps. Qed.
Hint Resolve keeps_ufunc : keeps.
Lemma keeps_np u x y : keeps_mode (np_binary L u x y).
Proof. unfold np_binary. keeps. Qed.
End L.
Lemma keeps_eval env e : keeps_mode (eval env e).
Proof. induction e; simpl; keeps. Qed.

(** ** Mixed operations *)
Lemma small_neg c : small_num c -> small_num (num_neg c).
Proof. destruct c; simpl; [now rewrite Z.abs_opp | trivial]. Qed.

Lemma radd_gives X c m : small_itv X -> small_num c ->
  gives (radd X c) m (kd X) (xadd mode_DN (xval (lo X)) (xval c)) (xadd mode_UP (xval (hi X)) (xval c)).
Proof. intros [Hl Hh] Hc. unfold gives, radd. apply two_ends; now apply add_run. Qed.
Lemma rsub_gives X c m : small_itv X -> small_num c ->
  gives (rsub X c) m (kd X) (xsub mode_DN (xval c) (xval (hi X))) (xsub mode_UP (xval c) (xval (lo X))).
Proof. intros [Hl Hh] Hc. unfold gives, rsub. apply two_ends; now apply sub_run. Qed.

Lemma min2_run c0 x y r : small_num c0 -> small_num x -> small_num y ->
  dbl_run (as_double (p <- mul_ c0 x ;; q <- mul_ c0 y ;; mret (num_min2 p q))) r
    (xmin2 (xmul r (xval c0) (xval x)) (xmul r (xval c0) (xval y))).
Proof.
  intros Hc Hx Hy. destruct (num_mul_x r _ _ Hc Hx) as (p & Hp & Ep & <-). destruct (num_mul_x r _ _ Hc Hy) as (q & Hq & Eq & <-).
  rewrite <- num_min2_x. apply as_double_run; [|now apply exact_min2].
  unfold mul_, mbind, mprim, mret. now rewrite Hp, Hq.
Qed.
Lemma max2_run c0 x y r : small_num c0 -> small_num x -> small_num y ->
  dbl_run (as_double (p <- mul_ c0 x ;; q <- mul_ c0 y ;; mret (num_max2 p q))) r
    (xmax2 (xmul r (xval c0) (xval x)) (xmul r (xval c0) (xval y))).
Proof.
  intros Hc Hx Hy. destruct (num_mul_x r _ _ Hc Hx) as (p & Hp & Ep & <-). destruct (num_mul_x r _ _ Hc Hy) as (q & Hq & Eq & <-).
  rewrite <- num_max2_x. apply as_double_run; [|now apply exact_max2].
  unfold mul_, mbind, mprim, mret. now rewrite Hp, Hq.
Qed.
Lemma rmul_gives X c m : small_itv X -> small_num c -> kd X = Classical ->
  gives (rmul X c) m Classical
    (xmin2 (xmul mode_DN (xval c) (xval (lo X))) (xmul mode_DN (xval c) (xval (hi X))))
    (xmax2 (xmul mode_UP (xval c) (xval (lo X))) (xmul mode_UP (xval c) (xval (hi X)))).
Proof.
  intros [Hl Hh] Hc kX. unfold gives, rmul. rewrite kX. unfold classical_rmul.
  apply two_ends; [now apply min2_run | now apply max2_run].
Qed.

Lemma scale_encl c a b x : xle_R a x -> R_xle x b ->
  let L := xmin2 (xmul mode_DN (XFin c) a) (xmul mode_DN (XFin c) b) in
  let U := xmax2 (xmul mode_UP (XFin c) a) (xmul mode_UP (XFin c) b) in
  (L = XNan /\ U = XNan) \/ (xle_R L (c * x) /\ R_xle (c * x) U).
Proof.
  intros Ha Hb L U.
  destruct (xmulE (XFin c) a) eqn:E.
  1: { left. unfold L, U. rewrite (proj2 (xmul_nan_E mode_DN _ a)), (proj2 (xmul_nan_E mode_UP _ a)) by assumption.
       now rewrite xmin2_nan_l, xmax2_nan_l. }
  all: right; assert (N : forall m, xmul m (XFin c) a <> XNan) by (intro m; rewrite (xmul_nan_E m); congruence).
  all: assert (HL : exists p, (p = xmulE (XFin c) a \/ p = xmulE (XFin c) b) /\ xle_R p (c * x))
    by (destruct (mul_low (XFin c) (XFin c) a b c x) as (p & Hin & Hp);
        [simpl; lra | simpl; lra | assumption | assumption | intros [? _]; congruence |
         simpl In in Hin; exists p; split; [|assumption]; destruct Hin as [<-|[<-|[<-|[<-|[]]]]]; auto]).
  all: assert (HU : exists p, (p = xmulE (XFin c) a \/ p = xmulE (XFin c) b) /\ R_xle (c * x) p)
    by (destruct (mul_high (XFin c) (XFin c) a b c x) as (p & Hin & Hp);
        [simpl; lra | simpl; lra | assumption | assumption | intros [? _]; congruence |
         simpl In in Hin; exists p; split; [|assumption]; destruct Hin as [<-|[<-|[<-|[<-|[]]]]]; auto]).
  all: split;
    [ destruct HL as (p & [->| ->] & Hp); apply xmul_E_low in Hp;
      [ eapply xleb_xle_R; [apply xmin2_le_l; apply N | exact Hp]
      | eapply xleb_xle_R; [apply xmin2_le_r; [apply N | now apply xle_R_nnan in Hp] | exact Hp] ]
    | destruct HU as (p & [->| ->] & Hp); apply xmul_E_high in Hp;
      [ eapply R_xle_xleb; [exact Hp | apply xmax2_ge_l; apply N]
      | eapply R_xle_xleb; [exact Hp | apply xmax2_ge_r; [apply N | now apply R_xle_nnan in Hp]] ] ].
Qed.

Lemma radd_encl X c m : small_itv X -> small_num c -> finite_num c ->
  exists Z, returns (radd X c) m Z /\ forall x, member X x -> member Z (x + num_val c).
Proof.
  intros HX Hc Fc. destruct (gives_returns _ _ _ _ _ (radd_gives X c m HX Hc)) as (Z & HZ & _ & Hl & Hh & _).
  apply finite_num_x in Fc. rewrite Fc in Hl, Hh.
  exists Z. split; [assumption|]. intro x. rewrite !member_x, Hl, Hh. intros []. split.
  - apply xadd_low; [assumption | simpl; lra].
  - apply xadd_high; [assumption | simpl; lra].
Qed.
Lemma rsub_encl X c m : small_itv X -> small_num c -> finite_num c ->
  exists Z, returns (rsub X c) m Z /\ forall x, member X x -> member Z (num_val c - x).
Proof.
  intros HX Hc Fc. destruct (gives_returns _ _ _ _ _ (rsub_gives X c m HX Hc)) as (Z & HZ & _ & Hl & Hh & _).
  apply finite_num_x in Fc. rewrite Fc in Hl, Hh.
  exists Z. split; [assumption|]. intro x. rewrite !member_x, Hl, Hh. intros []. split.
  - apply xsub_low; [simpl; lra | assumption].
  - apply xsub_high; [simpl; lra | assumption].
Qed.
Lemma rmul_encl X c m : small_itv X -> small_num c -> finite_num c -> kd X = Classical ->
  exists Z, returns (rmul X c) m Z /\ forall x, member X x -> member_or_nan Z (num_val c * x).
Proof.
  intros HX Hc Fc kX. destruct (gives_returns _ _ _ _ _ (rmul_gives X c m HX Hc kX)) as (Z & HZ & _ & Hl & Hh & _).
  apply finite_num_x in Fc. rewrite Fc in Hl, Hh.
  exists Z. split; [assumption|]. intro x. unfold member_or_nan. rewrite nan_itv_x, !member_x, Hl, Hh. intros [].
  now apply scale_encl.
Qed.

Lemma xval_pn1 : xval pn1 = XFin 1.
Proof.
  change (xval pn1) with (xflt (fl 1 0)). destruct (xval_fl_small 1) as [F V]; [lia|].
  apply is_finite_x in F. rewrite F, V. reflexivity.
Qed.

Lemma recip_encl a b x : xle_R a x -> R_xle x b -> no_zero a b ->
  xle_R (xdiv mode_DN (XFin 1) b) (1 / x) /\ R_xle (1 / x) (xdiv mode_UP (XFin 1) a).
Proof.
  intros Ha Hb H0. split.
  - apply xdiv_E_low. destruct H0 as [H0|H0].
    + destruct a as [| | |a]; simpl in Ha; try contradiction; try discriminate. apply xltb_fin in H0.
      destruct b as [| | |b]; simpl in Hb; try contradiction; simpl.
      * assert (0 < / x) by (apply Rinv_0_lt_compat; lra). lra.
      * apply div_corner_low2; lra.
    + destruct b as [| | |b]; simpl in Hb; try contradiction; try discriminate. apply xltb_fin in H0. simpl.
      assert (/ b <= / x); [|lra]. apply Ropp_le_cancel. rewrite <- !Rinv_opp.
      apply Rinv_le; lra.
  - apply xdiv_E_high. destruct H0 as [H0|H0].
    + destruct a as [| | |a]; simpl in Ha; try contradiction; try discriminate. apply xltb_fin in H0. simpl.
      assert (/ x <= / a); [|lra]. apply Rinv_le; lra.
    + destruct b as [| | |b]; simpl in Hb; try contradiction; try discriminate. apply xltb_fin in H0.
      destruct a as [| | |a]; simpl in Ha; try contradiction; simpl.
      * assert (/ x < 0) by (apply Rinv_lt_0_compat; lra). lra.
      * assert (/ x <= / a); [|lra]. apply Ropp_le_cancel. rewrite <- !Rinv_opp. apply Rinv_le; lra.
Qed.

Lemma rtruediv_gives X c m : small_itv X -> small_num c -> kd X = Classical ->
  contains_num X pn0 = false -> ordered_or_nan X ->
  let a' := xdiv mode_DN (XFin 1) (xval (hi X)) in
  let b' := xdiv mode_UP (XFin 1) (xval (lo X)) in
  gives (rtruediv X c) m Classical
    (xmin2 (xmul mode_DN (xval c) a') (xmul mode_DN (xval c) b'))
    (xmax2 (xmul mode_UP (xval c) a') (xmul mode_UP (xval c) b')).
Proof.
  intros [Hl Hh] Hc kX H0 Ho. destruct (zero_ends X H0 Ho) as [N1 N2]. intros a' b'.
  destruct (div_run mode_DN pn1 (hi X) I Hh N2) as (i & Hi & Hxi).
  destruct (div_run mode_UP pn1 (lo X) I Hl N1) as (u & Hu & Hxu).
  rewrite xval_pn1 in Hxi, Hxu.
  assert (G := rmul_gives (mkitv (kd X) (PFlt i) (PFlt u)) c m (conj I I) Hc kX).
  simpl lo in G. simpl hi in G. simpl xval in G. rewrite Hxi, Hxu in G.
  destruct G as (i' & u' & G & G1 & G2). exists i', u'. split; [|split; assumption].
  unfold rtruediv. rewrite H0.
  rewrite (bind_ok _ _ _ _ _ (with_rounding_ok FE_DOWNWARD _ m _ _ Hi)).
  rewrite (bind_ok _ _ _ _ _ (with_rounding_ok FE_UPWARD _ m _ _ Hu)). exact G.
Qed.

Lemma rtruediv_encl X c m : small_itv X -> small_num c -> finite_num c -> kd X = Classical ->
  contains_num X pn0 = false -> ordered_or_nan X ->
  exists Z, returns (rtruediv X c) m Z /\ forall x, member X x -> member_or_nan Z (num_val c / x).
Proof.
  intros HX Hc Fc kX H0 Ho.
  destruct (gives_returns _ _ _ _ _ (rtruediv_gives X c m HX Hc kX H0 Ho)) as (Z & HZ & _ & Hl & Hh & _).
  apply finite_num_x in Fc. rewrite Fc in Hl, Hh.
  exists Z. split; [assumption|]. intros x Hx. assert (N := not_zero_end X x H0 Hx). revert Hx.
  unfold member_or_nan. rewrite nan_itv_x, !member_x, Hl, Hh. intros [Ha Hb].
  destruct (recip_encl _ _ _ Ha Hb N) as [R1 R2].
  replace (num_val c / x) with (num_val c * (1 / x)) by (unfold Rdiv; ring).
  now apply scale_encl.
Qed.
Lemma rtruediv_raises X c m : contains_num X pn0 = true -> rtruediv X c m = (Err ValueError, m).
Proof. intro H. unfold rtruediv. now rewrite H. Qed.

(** ** The invariant of intervals built by the operations *)

Lemma good_ordered X : good X -> ordered_or_nan X.
Proof.
  intros (_ & _ & [H|[r H]]); [now left|]. right. apply member_x in H. destruct H. eapply member_order; eauto.
Qed.

Definition sound1 (f : R -> option R) (X Z : itv) : Prop :=
  nan_itv X /\ nan_itv Z \/ forall x, member X x -> exists r, f x = Some r /\ member_or_nan Z r.

(** weak soundness of a two-argument operation: absorbs NaN, encloses. *)
Definition wsound2 (f : R -> R -> option R) (X Y Z : itv) : Prop :=
  (nan_itv X \/ nan_itv Y -> nan_itv Z) /\
  forall x y, member X x -> member Y y -> exists r, f x y = Some r /\ member_or_nan Z r.
Definition wsound1 (f : R -> option R) (X Z : itv) : Prop :=
  (nan_itv X -> nan_itv Z) /\
  forall x, member X x -> exists r, f x = Some r /\ member_or_nan Z r.

Lemma no_zero_nz a b y : xle_R a y -> R_xle y b -> no_zero a b -> y <> 0.
Proof.
  intros Ha Hb [H|H] ->.
  - destruct a; simpl in Ha; try contradiction; try discriminate. apply xltb_fin in H. lra.
  - destruct b; simpl in Hb; try contradiction; try discriminate. apply xltb_fin in H. lra.
Qed.

Lemma itv_of_gives c m k xi xu Z : gives c m k xi xu -> returns c m Z -> kd Z = k /\ small_itv Z.
Proof.
  intros H HZ. destruct (gives_returns _ _ _ _ _ H) as (Z' & HZ' & ? & _ & _ & ? & _).
  assert (Z' = Z) by (unfold returns in *; congruence). subst; auto.
Qed.

Lemma good_of_wsound2 f X Y Z : good X -> good Y -> kd Z = Classical -> small_itv Z -> wsound2 f X Y Z -> good Z.
Proof.
  intros (_ & _ & HX) (_ & _ & HY) kZ sZ [W1 W2]. split; [assumption|split; [assumption|]].
  destruct HX as [HX|[x Hx]]; [left; auto|]. destruct HY as [HY|[y Hy]]; [left; auto|].
  destruct (W2 x y Hx Hy) as (r & _ & [Hr|Hr]); eauto.
Qed.
Lemma good_of_wsound1 f X Z : good X -> kd Z = Classical -> small_itv Z -> wsound1 f X Z -> good Z.
Proof.
  intros (_ & _ & HX) kZ sZ [W1 W2]. split; [assumption|split; [assumption|]].
  destruct HX as [HX|[x Hx]]; [left; auto|].
  destruct (W2 x Hx) as (r & _ & [Hr|Hr]); eauto.
Qed.

Lemma py_op_itv o X Y m Z : good X -> good Y -> returns (py_op o (OItv X) (OItv Y)) m Z ->
  kd Z = Classical /\ small_itv Z /\ wsound2 (real_op o) X Y Z.
Proof.
  intros GX GY HZ. assert (OY := good_ordered Y GY).
  destruct GX as (kX & sX & _), GY as (kY & sY & _).
  destruct o; cbv [py_op py_add py_sub py_mul py_div] in HZ.
  - assert (G := add_gives X Y m sX sY). rewrite kX, kY in G.
    destruct (itv_of_gives _ _ _ _ _ _ G HZ). split; [assumption|split; [assumption|]]. split.
    + intro N. destruct (add_nan X Y m sX sY N) as (Z' & HZ' & ?). now replace Z with Z' by (unfold returns in *; congruence).
    + intros x y Hx Hy. destruct (add_encl X Y m sX sY) as (Z' & HZ' & He).
      exists (x + y). split; [reflexivity|]. right. replace Z with Z' by (unfold returns in *; congruence). auto.
  - assert (G := sub_gives X Y m sX sY). rewrite kX, kY in G.
    destruct (itv_of_gives _ _ _ _ _ _ G HZ). split; [assumption|split; [assumption|]]. split.
    + intro N. destruct (sub_nan X Y m sX sY N) as (Z' & HZ' & ?). now replace Z with Z' by (unfold returns in *; congruence).
    + intros x y Hx Hy. destruct (sub_encl X Y m sX sY) as (Z' & HZ' & He).
      exists (x - y). split; [reflexivity|]. right. replace Z with Z' by (unfold returns in *; congruence). auto.
  - assert (G := mul_gives X Y m sX sY kX kY).
    destruct (itv_of_gives _ _ _ _ _ _ G HZ). split; [assumption|split; [assumption|]]. split.
    + intro N. destruct (mul_nan X Y m sX sY kX kY N) as (Z' & HZ' & ?). now replace Z with Z' by (unfold returns in *; congruence).
    + intros x y Hx Hy. destruct (mul_encl X Y m sX sY kX kY) as (Z' & HZ' & He).
      exists (x * y). split; [reflexivity|]. replace Z with Z' by (unfold returns in *; congruence). auto.
  - destruct (contains_num Y pn0) eqn:H0; [unfold returns, outcome in HZ; rewrite div_raises in HZ by assumption; discriminate|].
    assert (G := div_gives X Y m sX sY kX kY H0 OY).
    destruct (itv_of_gives _ _ _ _ _ _ G HZ). split; [assumption|split; [assumption|]]. split.
    + intro N. destruct (div_nan X Y m sX sY kX kY OY H0 N) as (Z' & HZ' & ?). now replace Z with Z' by (unfold returns, outcome in *; congruence).
    + intros x y Hx Hy. destruct (div_encl X Y m sX sY kX kY OY H0) as (Z' & HZ' & He).
      exists (x / y). split.
      * simpl. destruct (Req_EM_T y 0) as [E|]; [|reflexivity]. exfalso. revert E.
        assert (N := not_zero_end Y y H0 Hy). apply member_x in Hy. destruct Hy. eapply no_zero_nz; eauto.
      * replace Z with Z' by (unfold returns, outcome in *; congruence). auto.
Qed.

Lemma radd_nan X c m Z : small_itv X -> small_num c -> nan_itv X -> returns (radd X c) m Z -> nan_itv Z.
Proof.
  intros sX Hc N HZ. destruct (gives_returns _ _ _ _ _ (radd_gives X c m sX Hc)) as (Z' & HZ' & _ & Hl & Hh & _).
  replace Z with Z' by (unfold returns in *; congruence). rewrite nan_itv_x in *. destruct N as [N1 N2].
  rewrite Hl, Hh, N1, N2. auto.
Qed.
Lemma rsub_nan X c m Z : small_itv X -> small_num c -> nan_itv X -> returns (rsub X c) m Z -> nan_itv Z.
Proof.
  intros sX Hc N HZ. destruct (gives_returns _ _ _ _ _ (rsub_gives X c m sX Hc)) as (Z' & HZ' & _ & Hl & Hh & _).
  replace Z with Z' by (unfold returns in *; congruence). rewrite nan_itv_x in *. destruct N as [N1 N2].
  rewrite Hl, Hh, N1, N2. unfold xsub. simpl. rewrite !xadd_nan_r. auto.
Qed.
Lemma rmul_nan X c m Z : small_itv X -> small_num c -> kd X = Classical -> nan_itv X -> returns (rmul X c) m Z -> nan_itv Z.
Proof.
  intros sX Hc kX N HZ. destruct (gives_returns _ _ _ _ _ (rmul_gives X c m sX Hc kX)) as (Z' & HZ' & _ & Hl & Hh & _).
  replace Z with Z' by (unfold returns in *; congruence). rewrite nan_itv_x in *. destruct N as [N1 N2].
  rewrite Hl, Hh, N1, N2. rewrite !xmul_nan_r. auto.
Qed.
Lemma rtruediv_nan X c m Z : small_itv X -> small_num c -> kd X = Classical ->
  contains_num X pn0 = false -> nan_itv X -> returns (rtruediv X c) m Z -> nan_itv Z.
Proof.
  intros sX Hc kX H0 N HZ.
  destruct (gives_returns _ _ _ _ _ (rtruediv_gives X c m sX Hc kX H0 (or_introl N))) as (Z' & HZ' & _ & Hl & Hh & _).
  replace Z with Z' by (unfold returns in *; congruence). rewrite nan_itv_x in *. destruct N as [N1 N2].
  rewrite Hl, Hh, N1, N2. simpl. rewrite !xmul_nan_r. auto.
Qed.

Lemma num_val_neg c : num_val (num_neg c) = - num_val c.
Proof. destruct c; simpl; [apply opp_IZR | apply B2R_Bopp]. Qed.
Lemma finite_neg c : finite_num c -> finite_num (num_neg c).
Proof. destruct c; simpl; [trivial | now rewrite is_finite_Bopp]. Qed.

Lemma xval_num_val x r : xval x = XFin r -> finite_num x /\ num_val x = r.
Proof.
  intro E. assert (F : finite_num x).
  { destruct x as [z|f]; simpl in *; [exact I|]. destruct f as [|[]| |]; try discriminate; reflexivity. }
  split; [assumption|]. apply finite_num_x in F. congruence.
Qed.
Lemma recip_const c m : small_num c -> finite_num c -> exact_reciprocal c ->
  exists g, div_ pn1 c m = (Ok (PFlt g), m) /\ xflt g = XFin (1 / num_val c) /\ num_val c <> 0.
Proof.
  intros sc fc (f & Ff & Ef).
  assert (N : num_val c <> 0) by (intro E; rewrite E in Ef; lra).
  assert (Vc := fc). apply finite_num_x in Vc.
  assert (N0 : xval c <> XFin 0) by (rewrite Vc; intro E; inversion E; auto).
  destruct (num_div_x m pn1 c I sc N0) as (v & Hv & Ev & Vv). rewrite Vc, xval_pn1 in Vv. cbn [xdiv] in Vv.
  assert (E1 : 1 / num_val c = B2R f) by (field_simplify_eq; [lra|assumption]).
  assert (Vflt : exists g, v = PFlt g).
  { unfold num_div, arith2, rbind, rmap, pn1 in Hv. destruct c as [z|g].
    - destruct (to_double (PFlt f1)); [|discriminate]. destruct (to_double (PInt z)); [|discriminate].
      destruct (flt_eqb a0 PyNum.f0); inversion Hv. eauto.
    - simpl in Hv. destruct (flt_eqb g PyNum.f0); inversion Hv; eauto. }
  destruct Vflt as [g ->]. exists g. unfold div_, mprim. rewrite Hv. split; [reflexivity|]. split; [|assumption].
  cbn [xval] in Vv. rewrite Vv, E1. apply xround_dbl_id. exists f. now apply is_finite_x.
Qed.

Lemma py_op_num_r o X c m Z : (o = OpDiv -> exact_reciprocal c) -> good X -> small_num c -> finite_num c ->
  returns (py_op o (OItv X) (ONum c)) m Z ->
  kd Z = Classical /\ small_itv Z /\ wsound1 (fun x => real_op o x (num_val c)) X Z.
Proof.
  intros Ho (kX & sX & _) Hc Fc HZ. destruct o; cbv [py_op py_add py_sub py_mul py_div] in HZ.
  - change (returns (radd X c) m Z) in HZ. assert (G := radd_gives X c m sX Hc). rewrite kX in G.
    destruct (itv_of_gives _ _ _ _ _ _ G HZ). split; [assumption|split; [assumption|]]. split.
    + intro N. apply (radd_nan X c m Z); assumption.
    + intros x Hx. destruct (radd_encl X c m sX Hc Fc) as (Z' & HZ' & He).
      eexists. split; [reflexivity|]. right. replace Z with Z' by (unfold returns in *; congruence). auto.
  - change (returns (radd X (num_neg c)) m Z) in HZ. assert (Hc' := small_neg c Hc). assert (Fc' := finite_neg c Fc).
    assert (G := radd_gives X (num_neg c) m sX Hc'). rewrite kX in G.
    destruct (itv_of_gives _ _ _ _ _ _ G HZ). split; [assumption|split; [assumption|]]. split.
    + intro N. apply (radd_nan X (num_neg c) m Z); assumption.
    + intros x Hx. destruct (radd_encl X (num_neg c) m sX Hc' Fc') as (Z' & HZ' & He).
      eexists. split; [reflexivity|]. right. replace Z with Z' by (unfold returns in *; congruence).
      specialize (He x Hx). now rewrite num_val_neg in He.
  - change (returns (rmul X c) m Z) in HZ. assert (G := rmul_gives X c m sX Hc kX).
    destruct (itv_of_gives _ _ _ _ _ _ G HZ). split; [assumption|split; [assumption|]]. split.
    + intro N. apply (rmul_nan X c m Z); assumption.
    + intros x Hx. destruct (rmul_encl X c m sX Hc Fc kX) as (Z' & HZ' & He).
      eexists. split; [reflexivity|]. replace Z with Z' by (unfold returns in *; congruence).
      rewrite Rmult_comm. auto.
  - destruct (recip_const c m Hc Fc (Ho eq_refl)) as (g & Hg & Vg & N).
    assert (HZ2 : returns (rmul X (PFlt g)) m Z).
    { unfold returns, outcome in *. simpl itv_div in HZ. rewrite kX in HZ. now rewrite (bind_ok _ _ _ _ _ Hg) in HZ. }
    destruct (xval_num_val (PFlt g) _ Vg) as [Fg Eg].
    assert (G := rmul_gives X (PFlt g) m sX I kX).
    destruct (itv_of_gives _ _ _ _ _ _ G HZ2). split; [assumption|split; [assumption|]]. split.
    + intro Nn. apply (rmul_nan X (PFlt g) m Z); try assumption. exact I.
    + intros x Hx. destruct (rmul_encl X (PFlt g) m sX I Fg kX) as (Z' & HZ' & He).
      exists (x / num_val c). unfold real_op. destruct (Req_EM_T (num_val c) 0); [contradiction|]. split; [reflexivity|].
      replace Z with Z' by (unfold returns in *; congruence).
      specialize (He x Hx). rewrite Eg in He. now replace (x / num_val c) with (1 / num_val c * x) by (field; assumption).
Qed.
Lemma py_op_num_l o X c m Z : good X -> small_num c -> finite_num c ->
  returns (py_op o (ONum c) (OItv X)) m Z ->
  kd Z = Classical /\ small_itv Z /\ wsound1 (fun x => real_op o (num_val c) x) X Z.
Proof.
  intros GX Hc Fc HZ. assert (OX := good_ordered X GX). destruct GX as (kX & sX & _).
  destruct o; cbv [py_op py_add py_sub py_mul py_div] in HZ.
  - assert (G := radd_gives X c m sX Hc). rewrite kX in G.
    destruct (itv_of_gives _ _ _ _ _ _ G HZ). split; [assumption|split; [assumption|]]. split.
    + intro N. apply (radd_nan X c m Z); assumption.
    + intros x Hx. destruct (radd_encl X c m sX Hc Fc) as (Z' & HZ' & He).
      eexists. split; [reflexivity|]. right. replace Z with Z' by (unfold returns in *; congruence). rewrite Rplus_comm. auto.
  - assert (G := rsub_gives X c m sX Hc). rewrite kX in G.
    destruct (itv_of_gives _ _ _ _ _ _ G HZ). split; [assumption|split; [assumption|]]. split.
    + intro N. apply (rsub_nan X c m Z); assumption.
    + intros x Hx. destruct (rsub_encl X c m sX Hc Fc) as (Z' & HZ' & He).
      eexists. split; [reflexivity|]. right. replace Z with Z' by (unfold returns in *; congruence). auto.
  - assert (G := rmul_gives X c m sX Hc kX).
    destruct (itv_of_gives _ _ _ _ _ _ G HZ). split; [assumption|split; [assumption|]]. split.
    + intro N. apply (rmul_nan X c m Z); assumption.
    + intros x Hx. destruct (rmul_encl X c m sX Hc Fc kX) as (Z' & HZ' & He).
      eexists. split; [reflexivity|]. replace Z with Z' by (unfold returns in *; congruence). auto.
  - destruct (contains_num X pn0) eqn:H0.
    { unfold returns, outcome in HZ. simpl in HZ. rewrite rtruediv_raises in HZ by assumption. discriminate. }
    assert (G := rtruediv_gives X c m sX Hc kX H0 OX). cbv zeta in G.
    destruct (itv_of_gives _ _ _ _ _ _ G HZ). split; [assumption|split; [assumption|]]. split.
    + intro N. apply (rtruediv_nan X c m Z); assumption.
    + intros x Hx. destruct (rtruediv_encl X c m sX Hc Fc kX H0 OX) as (Z' & HZ' & He).
      exists (num_val c / x). split.
      * simpl. destruct (Req_EM_T x 0) as [E|]; [|reflexivity]. exfalso. revert E.
        assert (N := not_zero_end X x H0 Hx). apply member_x in Hx. destruct Hx. eapply no_zero_nz; eauto.
      * replace Z with Z' by (unfold returns in *; congruence). auto.
Qed.

(** ** neg, pro, abs *)
Lemma neg_sound X : wsound1 (fun x => Some (- x)) X (neg X).
Proof.
  split.
  - rewrite !nan_itv_x. intros [H1 H2]. simpl. rewrite !num_neg_x, H1, H2. auto.
  - intros x. rewrite member_x. intros []. eexists; split; [reflexivity|]. right. rewrite member_x. simpl.
    rewrite !num_neg_x. split; [now apply xopp_high | now apply xopp_low].
Qed.

Lemma fabs_run x r : small_num x -> dbl_run (fabs_ x) r (xabs (xval x)).
Proof.
  intro H. destruct (small_double x H) as (f & Hf & Hx). exists (fabs f). split.
  - unfold fabs_, mlift, mbind. now rewrite Hf.
  - now rewrite xflt_abs, Hx.
Qed.
Definition xmig (X : itv) : xreal :=
  if contains_num X (PInt 0) then XFin 0 else xmin2 (xabs (xval (lo X))) (xabs (xval (hi X))).
Definition xmag (X : itv) : xreal := xmax2 (xabs (xval (lo X))) (xabs (xval (hi X))).
Lemma mig_run X r : small_itv X -> dbl_run (mig X) r (xmig X).
Proof.
  intros [Hl Hh]. unfold mig, xmig. destruct contains_num.
  - exists f0. split; reflexivity.
  - destruct (fabs_run _ r Hl) as (f & Hf & <-), (fabs_run _ r Hh) as (g & Hg & <-).
    exists (flt_min2 f g). split; [|apply flt_min2_x].
    rewrite (bind_ok _ _ _ _ _ Hf), (bind_ok _ _ _ _ _ Hg). reflexivity.
Qed.
Lemma mag_run X r : small_itv X -> dbl_run (mag X) r (xmag X).
Proof.
  intros [Hl Hh]. unfold mag, xmag.
  destruct (fabs_run _ r Hl) as (f & Hf & <-), (fabs_run _ r Hh) as (g & Hg & <-).
  exists (flt_max2 f g). split; [|apply flt_max2_x].
  rewrite (bind_ok _ _ _ _ _ Hf), (bind_ok _ _ _ _ _ Hg). reflexivity.
Qed.
Lemma abs_gives X m : small_itv X -> gives (abs_itv X) m (kd X) (xmig X) (xmag X).
Proof.
  intro H. destruct (mig_run X m H) as (i & Hi & Hxi), (mag_run X m H) as (u & Hu & Hxu).
  exists i, u. split; [|auto]. unfold abs_itv. rewrite (bind_ok _ _ _ _ _ Hi), (bind_ok _ _ _ _ _ Hu). reflexivity.
Qed.

Lemma contains_int0 X : contains_num X (PInt 0) = xleb (xval (lo X)) (XFin 0) && xleb (XFin 0) (xval (hi X)).
Proof. unfold contains_num. now rewrite !num_le_x. Qed.

Lemma xmig_low X x : member X x -> xle_R (xmig X) (Rabs x).
Proof.
  rewrite member_x. unfold xmig. rewrite contains_int0. intros [Ha Hb].
  destruct (xleb (xval (lo X)) (XFin 0) && xleb (XFin 0) (xval (hi X))) eqn:E; [simpl; apply Rabs_pos|].
  destruct (xval (lo X)) as [| | |a], (xval (hi X)) as [| | |b]; simpl in Ha, Hb; try contradiction; unfold xleb in E; simpl in E; try discriminate.
  - (* -inf, b *)
    unfold xmin2, xltb. simpl. revert E. destruct (Rcompare_spec 0 b); intro; try discriminate. simpl.
    rewrite !Rabs_left by lra. lra.
  - revert E. destruct (Rcompare_spec a 0); intro; try discriminate.
    unfold xmin2, xltb. simpl. rewrite !Rabs_pos_eq by lra. assumption.
  - unfold xmin2, xltb. simpl. revert E.
    destruct (Rcompare_spec a 0); destruct (Rcompare_spec 0 b); simpl; intro; try discriminate; try (exfalso; lra).
    + rewrite !Rabs_left by lra. destruct (Rcompare_spec (-b) (-a)); simpl; lra.
    + rewrite !Rabs_pos_eq by lra. destruct (Rcompare_spec b a); simpl; lra.
Qed.
Lemma xmag_high X x : member X x -> R_xle (Rabs x) (xmag X).
Proof.
  rewrite member_x. unfold xmag. intros [Ha Hb].
  assert (Na : xabs (xval (lo X)) <> XNan) by (destruct (xval (lo X)); simpl in *; congruence || contradiction).
  assert (Nb : xabs (xval (hi X)) <> XNan) by (destruct (xval (hi X)); simpl in *; congruence || contradiction).
  destruct (Rle_or_lt 0 x).
  - apply R_xle_xleb with (xabs (xval (hi X))); [|now apply xmax2_ge_r].
    destruct (xval (hi X)); simpl in *; try contradiction; trivial. rewrite !Rabs_pos_eq by lra. lra.
  - apply R_xle_xleb with (xabs (xval (lo X))); [|now apply xmax2_ge_l].
    destruct (xval (lo X)); simpl in *; try contradiction; trivial. rewrite !Rabs_left by lra. lra.
Qed.

Lemma abs_sound X m Z : small_itv X -> returns (abs_itv X) m Z -> wsound1 (fun x => Some (Rabs x)) X Z.
Proof.
  intros sX HZ. destruct (gives_returns _ _ _ _ _ (abs_gives X m sX)) as (Z' & HZ' & _ & Hl & Hh & _).
  replace Z with Z' by (unfold returns in *; congruence). split.
  - rewrite !nan_itv_x, Hl, Hh. intros [N1 N2]. unfold xmig, xmag. rewrite contains_int0, N1, N2. split; reflexivity.
  - intros x Hx. eexists; split; [reflexivity|]. right. rewrite member_x, Hl, Hh.
    split; [now apply xmig_low | now apply xmag_high].
Qed.

Lemma ret_returns {A} (c : M A) m a k : c m = (Ok a, k) -> returns c m a.
Proof. unfold returns, outcome. now intros ->. Qed.

Lemma returns_bind {A B} (c : M A) (k : A -> M B) m z :
  keeps_mode c -> returns (mbind c k) m z -> exists a, returns c m a /\ returns (k a) m z.
Proof.
  intros K H. unfold returns, outcome, mbind in *. specialize (K m). destruct (c m) as [[a|e] m1]; simpl in *; subst; eauto.
  discriminate.
Qed.

(** ** The fundamental theorem of interval arithmetic *)
Theorem eval_sound env e m Z :
  (forall n, good (env n)) -> good_consts e -> returns (eval env e) m Z ->
  good Z /\ forall rho, (forall n, member_or_nan (env n) (rho n)) ->
     nan_itv Z \/ exists r, real_eval rho e = Some r /\ member Z r.
Proof.
  intros Henv. revert m Z. induction e as [n|o a IHa b IHb|o a IHa c|o c b IHb|a IHa|a IHa|a IHa]; intros m Z Hc HZ; simpl in HZ, Hc.
  - unfold returns, outcome, mret in HZ. simpl in HZ. inversion HZ; subst. split; [apply Henv|].
    intros rho Hrho. destruct (Hrho n); [now left | right; exists (rho n); split; [reflexivity|assumption]].
  - destruct Hc as [Hca Hcb].
    apply returns_bind in HZ; [|apply keeps_eval]. destruct HZ as (X & HX & HZ).
    apply returns_bind in HZ; [|apply keeps_eval]. destruct HZ as (Y & HY & HZ).
    destruct (IHa _ _ Hca HX) as [GX SX], (IHb _ _ Hcb HY) as [GY SY].
    destruct (py_op_itv o X Y m Z GX GY HZ) as (kZ & sZ & W).
    split; [now apply good_of_wsound2 with (real_op o) X Y|]. destruct W as [W1 W2]. intros rho Hrho.
    destruct (SX rho Hrho) as [NX|(x & Ex & Mx)]; [left; auto|].
    destruct (SY rho Hrho) as [NY|(y & Ey & My)]; [left; auto|].
    destruct (W2 x y Mx My) as (r & Er & [Hr|Hr]); [now left|]. right. exists r. simpl. rewrite Ex, Ey. simpl. auto.
  - destruct Hc as (Ho & Hs & Hf & Hca).
    apply returns_bind in HZ; [|apply keeps_eval]. destruct HZ as (X & HX & HZ).
    destruct (IHa _ _ Hca HX) as [GX SX].
    destruct (py_op_num_r o X c m Z Ho GX Hs Hf HZ) as (kZ & sZ & W).
    split; [now apply good_of_wsound1 with (fun x => real_op o x (num_val c)) X|]. destruct W as [W1 W2]. intros rho Hrho.
    destruct (SX rho Hrho) as [NX|(x & Ex & Mx)]; [left; auto|].
    destruct (W2 x Mx) as (r & Er & [Hr|Hr]); [now left|]. right. exists r. simpl. rewrite Ex. simpl. auto.
  - destruct Hc as (Hs & Hf & Hcb).
    apply returns_bind in HZ; [|apply keeps_eval]. destruct HZ as (X & HX & HZ).
    destruct (IHb _ _ Hcb HX) as [GX SX].
    destruct (py_op_num_l o X c m Z GX Hs Hf HZ) as (kZ & sZ & W).
    split; [now apply good_of_wsound1 with (fun x => real_op o (num_val c) x) X|]. destruct W as [W1 W2]. intros rho Hrho.
    destruct (SX rho Hrho) as [NX|(x & Ex & Mx)]; [left; auto|].
    destruct (W2 x Mx) as (r & Er & [Hr|Hr]); [now left|]. right. exists r. simpl. rewrite Ex. simpl. auto.
  - apply returns_bind in HZ; [|apply keeps_eval]. destruct HZ as (X & HX & HZ).
    destruct (IHa _ _ Hc HX) as [GX SX].
    unfold returns, outcome, mret in HZ. simpl in HZ. inversion HZ; subst.
    assert (W := neg_sound X). destruct GX as (kX & [sl sh] & GX).
    split.
    { apply good_of_wsound1 with (fun x => Some (- x)) X; auto.
      - split; [assumption|split; [split; assumption|assumption]].
      - split; simpl; now apply small_neg. }
    destruct W as [W1 W2]. intros rho Hrho.
    destruct (SX rho Hrho) as [NX|(x & Ex & Mx)]; [left; auto|].
    destruct (W2 x Mx) as (r & Er & [Hr|Hr]); [now left|]. right. exists r. simpl. rewrite Ex. simpl. auto.
  - apply returns_bind in HZ; [|apply keeps_eval]. destruct HZ as (X & HX & HZ).
    destruct (IHa _ _ Hc HX) as [GX SX].
    assert (G := abs_gives X m (proj1 (proj2 GX))). destruct (itv_of_gives _ _ _ _ _ _ G HZ) as [kZ sZ].
    rewrite (proj1 GX) in kZ.
    assert (W := abs_sound X m Z (proj1 (proj2 GX)) HZ).
    split; [now apply good_of_wsound1 with (fun x => Some (Rabs x)) X|].
    destruct W as [W1 W2]. intros rho Hrho.
    destruct (SX rho Hrho) as [NX|(x & Ex & Mx)]; [left; auto|].
    destruct (W2 x Mx) as (r & Er & [Hr|Hr]); [now left|]. right. exists r. simpl. rewrite Ex. simpl. auto.
  - apply returns_bind in HZ; [|apply keeps_eval]. destruct HZ as (X & HX & HZ).
    destruct (IHa _ _ Hc HX) as [GX SX].
    unfold returns, outcome, mret in HZ. simpl in HZ. inversion HZ; subst.
    assert (E : pro X = X).
    { unfold pro. rewrite (proj1 GX). destruct GX as (k & _). destruct X; simpl in *; now rewrite k. }
    rewrite E. auto.
Qed.
