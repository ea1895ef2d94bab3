(** Inclusion isotonicity of nested expressions. *)
From Coq Require Import ZArith Reals List Bool Lia Lra Psatz.
From Flocq Require Import Core IEEE754.BinarySingleNaN.
From Verif Require Import Base PyNum Kernel Spec Expr XReal XArith KernelProofs ExprProofs KernelAlg KernelMore Witness Arrays Construct ArrayProofs ConstructProofs SpecIso.
Import ListNotations.
Open Scope R_scope.

Definition nested (X X2 : itv) : Prop := plain X /\ plain X2 /\ inside X X2.
Lemma nested_x X X2 : nested X X2 -> exists a b a2 b2, xval (lo X) = XFin a /\ xval (hi X) = XFin b /\ xval (lo X2) = XFin a2 /\ xval (hi X2) = XFin b2 /\ a2 <= a /\ a <= b /\ b <= b2.
Proof.
  intros ((_ & _ & P) & (_ & _ & P2) & [I1 I2]).
  destruct (proper_fin_x X P) as (a & b & Ea & Eb & Hab & _). destruct (proper_fin_x X2 P2) as (a2 & b2 & Ea2 & Eb2 & Hab2 & _).
  rewrite num_le_x, Ea, Ea2, xleb_fin in I1. rewrite num_le_x, Eb, Eb2, xleb_fin in I2. exists a, b, a2, b2. auto 8.
Qed.
Lemma xleb_squeeze l2 l u2 : xleb l2 l = true -> xleb l u2 = true -> (exists a, l2 = XFin a) -> (exists b, u2 = XFin b) -> exists r, l = XFin r.
Proof. intros H1 H2 (a & ->) (b & ->). destruct l; simpl in *; try discriminate; eauto. Qed.
Lemma plain_of Z l u : kd Z = Classical -> small_itv Z -> xval (lo Z) = XFin l -> xval (hi Z) = XFin u -> l <= u -> plain Z.
Proof.
  intros K S El Eu H. apply xval_num_val in El, Eu. destruct El as [F1 V1], Eu as [F2 V2].
  split; [exact K|]. split; [exact S|]. split; [split; assumption|]. now rewrite V1, V2.
Qed.
Lemma fin_x x : finite_num x -> exists a, xval x = XFin a. Proof. intro H. apply finite_num_x in H. eauto. Qed.
Lemma nested_make Z Z2 : kd Z = Classical -> kd Z2 = Classical -> small_itv Z -> small_itv Z2 -> finite_itv Z2 ->
  xleb (xval (lo Z2)) (xval (lo Z)) = true -> xleb (xval (lo Z)) (xval (hi Z)) = true -> xleb (xval (hi Z)) (xval (hi Z2)) = true -> nested Z Z2.
Proof.
  intros K K2 S S2 [F1 F2] L M U. destruct (fin_x _ F1) as (a2 & E1). destruct (fin_x _ F2) as (b2 & E2).
  destruct (xleb_squeeze _ _ _ L (xleb_trans _ _ _ M U)) as (a & Ea); eauto.
  destruct (xleb_squeeze _ _ _ (xleb_trans _ _ _ L M) U) as (b & Eb); eauto.
  rewrite Ea, E1, xleb_fin in L. rewrite Ea, Eb, xleb_fin in M. rewrite Eb, E2, xleb_fin in U.
  split; [|split].
  - exact (plain_of Z a b K S Ea Eb M).
  - apply (plain_of Z2 a2 b2 K2 S2 E1 E2). lra.
  - split; rewrite num_le_x; [rewrite E1, Ea | rewrite E2, Eb]; now apply xleb_fin.
Qed.
(** Two runs with known ends. *)
Lemma step c c2 m l u l2 u2 Z2 : gives c m Classical l u -> gives c2 m Classical l2 u2 -> returns c2 m Z2 -> finite_itv Z2 ->
  (l2 <> XNan -> u2 <> XNan -> (exists a, l2 = XFin a) -> (exists b, u2 = XFin b) -> xleb l2 l = true /\ xleb l u = true /\ xleb u u2 = true) ->
  exists Z, returns c m Z /\ nested Z Z2.
Proof.
  intros G G2 H2 F H. destruct (gives_returns _ _ _ _ _ G) as (Z & HZ & K & El & Eu & S & _).
  destruct (gives_returns _ _ _ _ _ G2) as (Z2' & HZ2 & K2 & El2 & Eu2 & S2 & _). assert (Z2' = Z2) by (unfold returns in *; congruence). subst Z2'.
  exists Z. split; [exact HZ|]. destruct F as [F1 F2]. destruct (fin_x _ F1) as (a2 & E1). destruct (fin_x _ F2) as (b2 & E2).
  rewrite El2 in E1. rewrite Eu2 in E2. destruct H as (H1 & H3 & H4); [congruence | congruence | eauto | eauto|].
  apply nested_make; try assumption; [split; assumption| | |]; congruence.
Qed.
Lemma xround_le_mono m a b : a <= b -> xleb (xround m a) (xround m b) = true.
Proof. apply ConstructProofs.xround_mono. Qed.
Lemma xround_DU a b : a <= b -> xleb (xround mode_DN a) (xround mode_UP b) = true.
Proof. intro H. exact (xleb_trans _ _ _ (xround_DN_mono a b H) (xround_DN_UP b)). Qed.
Lemma xleb_antisym u v : xleb u v = true -> xleb v u = true -> u = v.
Proof.
  destruct u as [| | |a], v as [| | |b]; try discriminate; try reflexivity. rewrite !xleb_fin. intros. f_equal. lra.
Qed.
Lemma xltb_of_xleb u v : xleb v u = true -> xltb u v = false.
Proof.
  destruct (xltb u v) eqn:E; [|reflexivity]. intro H. destruct u as [| | |a], v as [| | |b]; try discriminate. apply xltb_fin in E. apply xleb_fin in H. lra.
Qed.
Lemma xmin2_round m p q : xmin2 (xround m p) (xround m q) = xround m (Rmin p q).
Proof.
  unfold xmin2. unfold Rmin. destruct (Rle_dec p q) as [L|L].
  - now rewrite (xltb_of_xleb _ _ (xround_le_mono m p q L)).
  - destruct (xltb (xround m q) (xround m p)) eqn:E; [reflexivity|]. apply xltb_false_xleb in E; try apply xround_not_nan.
    apply xleb_antisym; [exact E | apply xround_le_mono; lra].
Qed.
Lemma xmax2_round m p q : xmax2 (xround m p) (xround m q) = xround m (Rmax p q).
Proof.
  unfold xmax2. unfold Rmax. destruct (Rle_dec p q) as [L|L].
  - destruct (xltb (xround m p) (xround m q)) eqn:E; [reflexivity|]. apply xltb_false_xleb in E; try apply xround_not_nan.
    apply xleb_antisym; [apply xround_le_mono; exact L | exact E].
  - rewrite (xltb_of_xleb (xround m p) (xround m q)); [reflexivity | apply xround_le_mono; lra].
Qed.
Lemma scaled_nested c a b a2 b2 : a2 <= a -> a <= b -> b <= b2 ->
  Rmin (c * a2) (c * b2) <= Rmin (c * a) (c * b) /\ Rmin (c * a) (c * b) <= Rmax (c * a) (c * b) /\ Rmax (c * a) (c * b) <= Rmax (c * a2) (c * b2).
Proof.
  intros H1 H2 H3. unfold Rmin, Rmax. destruct (Rle_lt_dec 0 c) as [P|P].
  - assert (c * a2 <= c * a) by nra. assert (c * a <= c * b) by nra. assert (c * b <= c * b2) by nra. repeat destruct (Rle_dec _ _); lra.
  - assert (c * a <= c * a2) by nra. assert (c * b <= c * a) by nra. assert (c * b2 <= c * b) by nra. repeat destruct (Rle_dec _ _); lra.
Qed.

Lemma radd_nested X X2 c m Z2 : nested X X2 -> small_num c -> finite_num c -> returns (radd X2 c) m Z2 -> finite_itv Z2 -> exists Z, returns (radd X c) m Z /\ nested Z Z2.
Proof.
  intros N Sc Fc H F. destruct N as ((K & S & P) & (K2 & S2 & P2) & IN) eqn:EN. destruct (nested_x X X2 N) as (a & b & a2 & b2 & Ea & Eb & Ea2 & Eb2 & H1 & H2 & H3).
  apply finite_num_x in Fc. assert (G := radd_gives X c m S Sc). assert (G2 := radd_gives X2 c m S2 Sc). rewrite K in G. rewrite K2 in G2.
  refine (step _ _ m _ _ _ _ Z2 G G2 H F _). intros _ _ _ _. rewrite Ea, Eb, Ea2, Eb2, Fc. cbn [xadd].
  split; [apply xround_DN_mono; lra|]. split; [apply xround_DU; lra | apply xround_UP_mono; lra].
Qed.
Lemma rsub_nested X X2 c m Z2 : nested X X2 -> small_num c -> finite_num c -> returns (rsub X2 c) m Z2 -> finite_itv Z2 -> exists Z, returns (rsub X c) m Z /\ nested Z Z2.
Proof.
  intros N Sc Fc H F. destruct N as ((K & S & P) & (K2 & S2 & P2) & IN) eqn:EN. destruct (nested_x X X2 N) as (a & b & a2 & b2 & Ea & Eb & Ea2 & Eb2 & H1 & H2 & H3).
  apply finite_num_x in Fc. assert (G := rsub_gives X c m S Sc). assert (G2 := rsub_gives X2 c m S2 Sc). rewrite K in G. rewrite K2 in G2.
  refine (step _ _ m _ _ _ _ Z2 G G2 H F _). intros _ _ _ _. rewrite Ea, Eb, Ea2, Eb2, Fc. unfold xsub. cbn [xadd xopp].
  split; [apply xround_DN_mono; lra|]. split; [apply xround_DU; lra | apply xround_UP_mono; lra].
Qed.
(** Products with an infinite or NaN factor have an end that is not finite. *)
Lemma inf_scale v p q : v = XPInf \/ v = XNInf \/ v = XNan -> (exists l, xmin2 (xmul mode_DN v (XFin p)) (xmul mode_DN v (XFin q)) = XFin l) -> False.
Proof.
  intros [->|[->| ->]] (l & E); cbn [xmul xinf_times] in E.
  - destruct (Rcompare p 0), (Rcompare q 0); cbn in E; discriminate.
  - destruct (Rcompare p 0), (Rcompare q 0); cbn in E; discriminate.
  - cbn in E. discriminate.
Qed.
Lemma rmul_nested X X2 c m Z2 : nested X X2 -> small_num c -> returns (rmul X2 c) m Z2 -> finite_itv Z2 -> exists Z, returns (rmul X c) m Z /\ nested Z Z2.
Proof.
  intros N Sc H F. destruct N as ((K & S & P) & (K2 & S2 & P2) & IN) eqn:EN. destruct (nested_x X X2 N) as (a & b & a2 & b2 & Ea & Eb & Ea2 & Eb2 & H1 & H2 & H3).
  refine (step _ _ m _ _ _ _ Z2 (rmul_gives X c m S Sc K) (rmul_gives X2 c m S2 Sc K2) H F _).
  rewrite Ea, Eb, Ea2, Eb2. intros _ _ Fl _. destruct (xval c) as [| | |v]; try (exfalso; refine (inf_scale _ a2 b2 _ Fl); tauto).
  cbn [xmul]. rewrite !xmin2_round, !xmax2_round. destruct (scaled_nested v a b a2 b2 H1 H2 H3) as (A1 & A2 & A3).
  split; [now apply xround_DN_mono|]. split; [now apply xround_DU | now apply xround_UP_mono].
Qed.
Lemma num_div_flt m g y r : num_div m (PFlt g) y = Ok r -> exists h, r = PFlt h.
Proof.
  unfold num_div. destruct (to_double (PFlt g)) as [a|]; cbn [rbind]; [|discriminate]. destruct (to_double y) as [b|]; cbn [rbind]; [|discriminate].
  destruct (flt_eqb b f0); [discriminate|]. intro E. inversion E. eauto.
Qed.
Lemma div_num_nested X X2 c m Z2 : nested X X2 -> returns (itv_div X2 (ONum c)) m Z2 -> finite_itv Z2 -> exists Z, returns (itv_div X (ONum c)) m Z /\ nested Z Z2.
Proof.
  intros N H F. assert (K := proj1 (proj1 N)). assert (K2 := proj1 (proj1 (proj2 N))). unfold itv_div in *. rewrite K2 in H. rewrite K.
  apply keeps_returns in H; [|apply keeps_prim]. destruct H as (r & Hr & H).
  assert (Sr : small_num r). { destruct (num_div_flt _ _ _ _ Hr) as (h & ->). exact I. }
  destruct (rmul_nested X X2 r m Z2 N Sr H F) as (Z & HZ & NZ). exists Z. split; [|exact NZ].
  unfold returns, outcome in *. unfold mbind. unfold div_, mprim in *. cbn [fst] in Hr. rewrite Hr. exact HZ.
Qed.
Lemma two_finite c v w : c <> 0 -> v <> XNan -> w <> XNan ->
  (exists l, xmin2 (xmul mode_DN (XFin c) v) (xmul mode_DN (XFin c) w) = XFin l) -> (exists u, xmax2 (xmul mode_UP (XFin c) v) (xmul mode_UP (XFin c) w) = XFin u) ->
  (exists p, v = XFin p) /\ exists q, w = XFin q.
Proof.
  intros Nc V W (l & L) (u & U).
  destruct v as [| | |p], w as [| | |q]; try congruence; eauto; exfalso; cbn [xmul xinf_times] in L, U; (destruct (Rcompare_spec c 0); [ | lra | ]); try discriminate;
    try (assert (N1 := xround_not_nan mode_DN (c * p)); assert (N2 := xround_not_nan mode_UP (c * p)); destruct (xround mode_DN (c * p)), (xround mode_UP (c * p)); cbn in L, U; congruence);
    try (assert (N1 := xround_not_nan mode_DN (c * q)); assert (N2 := xround_not_nan mode_UP (c * q)); destruct (xround mode_DN (c * q)), (xround mode_UP (c * q)); cbn in L, U; congruence).
Qed.
Lemma recip_order a b a2 b2 : a2 <= a -> a <= b -> b <= b2 -> 0 < a2 \/ b2 < 0 -> 1 / b2 <= 1 / b /\ 1 / b <= 1 / a /\ 1 / a <= 1 / a2.
Proof.
  intros H1 H2 H3 [P|P].
  - assert (T : forall x y, 0 < x -> x <= y -> 1 / y <= 1 / x) by (intros; unfold Rdiv; rewrite !Rmult_1_l; apply Rinv_le; lra).
    repeat split; apply T; lra.
  - assert (T : forall x y, y < 0 -> x <= y -> 1 / y <= 1 / x).
    { intros x y Hy Hxy. unfold Rdiv. rewrite !Rmult_1_l. apply Ropp_le_cancel. rewrite <- !Rinv_opp. apply Rinv_le; lra. }
    repeat split; apply T; lra.
Qed.
Lemma plain_ordered X : plain X -> ordered_or_nan X.
Proof.
  intros (_ & _ & P). right. destruct (proper_fin_x X P) as (a & b & -> & -> & H & _). now apply xleb_fin.
Qed.
Lemma rtruediv_nested X X2 c m Z2 : nested X X2 -> small_num c -> finite_num c -> num_val c <> 0 -> returns (rtruediv X2 c) m Z2 -> finite_itv Z2 ->
  exists Z, returns (rtruediv X c) m Z /\ nested Z Z2.
Proof.
  intros N Sc Fc Nc H F. destruct N as (PX & PX2 & IN) eqn:EN. destruct (nested_x X X2 N) as (a & b & a2 & b2 & Ea & Eb & Ea2 & Eb2 & H1 & H2 & H3).
  destruct (contains_num X2 pn0) eqn:C2; [unfold returns, outcome in H; rewrite (rtruediv_raises X2 c m C2) in H; discriminate|].
  assert (C := contains0_mono X X2 IN C2). apply finite_num_x in Fc.
  refine (step _ _ m _ _ _ _ Z2 (rtruediv_gives X c m (proj1 (proj2 PX)) Sc (proj1 PX) C (plain_ordered X PX)) (rtruediv_gives X2 c m (proj1 (proj2 PX2)) Sc (proj1 PX2) C2 (plain_ordered X2 PX2)) H F _).
  rewrite Ea, Eb, Ea2, Eb2, Fc. cbn [xdiv]. intros _ _ Fl Fu.
  assert (Z0 : 0 < a2 \/ b2 < 0).
  { rewrite contains0_x, Ea2, Eb2 in C2. apply andb_false_iff in C2. destruct C2 as [C2|C2]; apply not_true_iff_false in C2; rewrite xleb_fin in C2; lra. }
  destruct (recip_order a b a2 b2 H1 H2 H3 Z0) as (O1 & O2 & O3).
  destruct (two_finite (num_val c) _ _ Nc (xround_not_nan _ _) (xround_not_nan _ _) Fl Fu) as ((p2 & Ep2) & (q2 & Eq2)).
  assert (L := xround_DN_mono _ _ O1). assert (Mi := xround_DU _ _ O2). assert (U := xround_UP_mono _ _ O3).
  destruct (xleb_squeeze _ _ _ L (xleb_trans _ _ _ Mi U) ltac:(eauto) ltac:(eauto)) as (p & Ep).
  destruct (xleb_squeeze _ _ _ (xleb_trans _ _ _ L Mi) U ltac:(eauto) ltac:(eauto)) as (q & Eq).
  rewrite Ep, Ep2, xleb_fin in L. rewrite Ep, Eq, xleb_fin in Mi. rewrite Eq, Eq2, xleb_fin in U.
  rewrite Ep, Eq, Ep2, Eq2. cbn [xmul]. rewrite !xmin2_round, !xmax2_round.
  destruct (scaled_nested (num_val c) p q p2 q2 L Mi U) as (A1 & A2 & A3).
  split; [now apply xround_DN_mono|]. split; [now apply xround_DU | now apply xround_UP_mono].
Qed.
Lemma neg_nested X X2 : nested X X2 -> nested (neg X) (neg X2).
Proof.
  intro N. destruct N as ((K & S & P) & (K2 & S2 & P2) & IN) eqn:EN. destruct (nested_x X X2 N) as (a & b & a2 & b2 & Ea & Eb & Ea2 & Eb2 & H1 & H2 & H3).
  assert (Sn : forall Y, small_itv Y -> small_itv (neg Y)) by (intros Y [A B]; split; simpl; now apply small_neg).
  split; [|split].
  - apply (plain_of (neg X) (- b) (- a)); [exact K | now apply Sn | simpl; now rewrite num_neg_x, Eb | simpl; now rewrite num_neg_x, Ea | lra].
  - apply (plain_of (neg X2) (- b2) (- a2)); [exact K2 | now apply Sn | simpl; now rewrite num_neg_x, Eb2 | simpl; now rewrite num_neg_x, Ea2 | lra].
  - split; rewrite num_le_x; simpl; rewrite !num_neg_x; [rewrite Eb, Eb2 | rewrite Ea, Ea2]; cbn [xopp]; apply xleb_fin; lra.
Qed.
Lemma abs_nested X X2 m : nested X X2 -> exists Z Z2, returns (abs_itv X) m Z /\ returns (abs_itv X2) m Z2 /\ nested Z Z2.
Proof.
  intro N. destruct N as ((K & S & P) & (K2 & S2 & P2) & IN) eqn:EN. destruct (nested_x X X2 N) as (a & b & a2 & b2 & Ea & Eb & Ea2 & Eb2 & H1 & H2 & H3).
  assert (G := abs_gives X m S). assert (G2 := abs_gives X2 m S2). rewrite K in G. rewrite K2 in G2.
  destruct (gives_returns _ _ _ _ _ G2) as (Z2 & HZ2 & _ & El2 & Eu2 & _ & _).
  assert (MI : forall p q, xmin2 (XFin p) (XFin q) = XFin (Rmin p q)).
  { intros p q. unfold xmin2, Rmin. destruct (Rle_dec p q) as [L|L].
    - rewrite xltb_of_xleb; [reflexivity | now apply xleb_fin].
    - assert (E : xltb (XFin q) (XFin p) = true) by (apply xltb_fin; lra). now rewrite E. }
  assert (MA : forall p q, xmax2 (XFin p) (XFin q) = XFin (Rmax p q)).
  { intros p q. unfold xmax2, Rmax. destruct (Rle_dec p q) as [L|L].
    - destruct (xltb (XFin p) (XFin q)) eqn:E; [reflexivity|]. f_equal. destruct (Rle_lt_or_eq_dec p q L) as [T| ->]; [apply xltb_fin in T; congruence | reflexivity].
    - rewrite xltb_of_xleb; [reflexivity | apply xleb_fin; lra]. }
  assert (MG : forall Y p q, xval (lo Y) = XFin p -> xval (hi Y) = XFin q -> p <= q -> xmig Y = XFin (if Rle_dec p 0 then if Rle_dec 0 q then 0 else - q else p)).
  { intros Y p q E1 E2 O. unfold xmig. rewrite contains_int0, E1, E2. cbn [xabs]. rewrite MI.
    destruct (Rle_dec p 0) as [A|A], (Rle_dec 0 q) as [B|B].
    - rewrite (proj2 (xleb_fin p 0) A), (proj2 (xleb_fin 0 q) B). reflexivity.
    - assert (E : xleb (XFin 0) (XFin q) = false) by (apply not_true_iff_false; rewrite xleb_fin; lra). rewrite E, andb_false_r. f_equal. rewrite !Rabs_left by lra. apply Rmin_right. lra.
    - assert (E : xleb (XFin p) (XFin 0) = false) by (apply not_true_iff_false; rewrite xleb_fin; lra). rewrite E. cbn [andb]. f_equal. rewrite !Rabs_pos_eq by lra. apply Rmin_left. lra.
    - lra. }
  assert (MM : forall Y p q, xval (lo Y) = XFin p -> xval (hi Y) = XFin q -> xmag Y = XFin (Rmax (Rabs p) (Rabs q))).
  { intros Y p q E1 E2. unfold xmag. rewrite E1, E2. cbn [xabs]. apply MA. }
  rewrite (MG X2 a2 b2 Ea2 Eb2 ltac:(lra)) in El2. rewrite (MM X2 a2 b2 Ea2 Eb2) in Eu2.
  assert (F : finite_itv Z2) by (apply xval_num_val in El2, Eu2; split; tauto).
  destruct (step _ _ m _ _ _ _ Z2 G G2 HZ2 F) as (Z & HZ & NZ); [|exists Z, Z2; auto].
  intros _ _ _ _. rewrite (MG X a b Ea Eb H2), (MG X2 a2 b2 Ea2 Eb2 ltac:(lra)), (MM X a b Ea Eb), (MM X2 a2 b2 Ea2 Eb2). rewrite !xleb_fin.
  unfold Rmax, Rabs. repeat destruct (Rle_dec _ _); repeat destruct (Rcase_abs _); lra.
Qed.
Lemma pro_nested X X2 : nested X X2 -> nested (pro X) (pro X2).
Proof. intros N. unfold pro. rewrite (proj1 (proj1 N)), (proj1 (proj1 (proj2 N))). destruct X, X2. destruct N as ((K & ?) & (K2 & ?) & ?). cbn in *. subst. split; [|split]; auto; split; auto. Qed.
Lemma op_nested o X X2 Y Y2 m Z2 : nested X X2 -> nested Y Y2 -> returns (py_op o (OItv X2) (OItv Y2)) m Z2 -> finite_itv Z2 ->
  exists Z, returns (py_op o (OItv X) (OItv Y)) m Z /\ nested Z Z2.
Proof.
  intros ((KX & SX & PX) & (KX2 & SX2 & PX2) & IX) ((KY & SY & PY) & (KY2 & SY2 & PY2) & IY) H2 F.
  assert (H0 : o = OpDiv -> contains_num Y2 pn0 = false).
  { intros ->. destruct (contains_num Y2 pn0) eqn:C; [|reflexivity]. cbv [py_op py_div] in H2. unfold returns, outcome, itv_div in H2. rewrite C in H2. discriminate. }
  destruct (op_isotonic o X X2 Y Y2 m KX KY KX2 KY2 SX SY SX2 SY2 PX PY PX2 PY2 IX IY H0) as (Z & Z2' & HZ & HZ2 & IZ).
  assert (Z2' = Z2) by (unfold returns in *; congruence). subst Z2'. exists Z. split; [exact HZ|].
  assert (HY0 : o = OpDiv -> contains_num Y pn0 = false) by (intro E; exact (contains0_mono Y Y2 IY (H0 E))).
  destruct (op_tight o X Y m KX KY SX SY PX PY HY0) as (Z' & HZ' & [[T1 _] [T2 _]] & _). assert (Z' = Z) by (unfold returns in *; congruence). subst Z'.
  destruct (image2_ex (opR o) X Y PX PY) as (r & Hr). specialize (T1 r Hr). specialize (T2 r Hr). rewrite num_le_R_x in T1. rewrite R_le_num_x in T2.
  assert (GX : forall W, kd W = Classical -> small_itv W -> proper_fin W -> good W).
  { intros W K S P. split; [exact K|]. split; [exact S|]. right. destruct (proper_fin_x W P) as (p & q & Ep & Eq & Hpq & _). exists p. exact (proj1 (proper_members W p q Ep Eq Hpq)). }
  destruct (py_op_itv o X Y m Z (GX X KX SX PX) (GX Y KY SY PY) HZ) as (KZ & SZ & _).
  destruct (py_op_itv o X2 Y2 m Z2 (GX X2 KX2 SX2 PX2) (GX Y2 KY2 SY2 PY2) H2) as (KZ2 & SZ2 & _).
  destruct IZ as [I1 I2]. rewrite num_le_x in I1, I2.
  apply nested_make; try assumption. exact (member_order _ _ _ T1 T2).
Qed.

Lemma finite_values_here env m e : finite_values env m e -> finite_value env m e. Proof. destruct e; intros [H _]; exact H. Qed.
Theorem eval_isotonic env env2 e m : (forall n, plain (env n)) -> (forall n, plain (env2 n)) -> (forall n, inside (env n) (env2 n)) ->
  plain_consts e -> finite_values env2 m e ->
  exists Z Z2, returns (eval env e) m Z /\ returns (eval env2 e) m Z2 /\ inside Z Z2.
Proof.
  intros PE PE2 IE PC FV.
  enough (E : forall Z2, returns (eval env2 e) m Z2 -> exists Z, returns (eval env e) m Z /\ nested Z Z2).
  { destruct (finite_values_here _ _ _ FV) as (Z2 & H2 & _). destruct (E Z2 H2) as (Z & HZ & _ & _ & IZ). exists Z, Z2. auto. }
  induction e as [n|o a IHa b IHb|o a IHa c|o c b IHb|a IHa|a IHa|a IHa]; intros Z2 H2; destruct FV as [(Z2' & H2' & F) FV];
    assert (Z2' = Z2) by (unfold returns in *; congruence); subst Z2'; clear H2'; cbn [eval plain_consts] in *.
  - apply returns_ret in H2. subst Z2. exists (env n). split; [reflexivity|]. split; [apply PE|]. split; [apply PE2 | apply IE].
  - destruct PC as [Ca Cb], FV as [Fa Fb]. apply keeps_returns in H2; [|apply keeps_eval]. destruct H2 as (x2 & Hx2 & H2).
    apply keeps_returns in H2; [|apply keeps_eval]. destruct H2 as (y2 & Hy2 & H2).
    destruct (IHa Ca Fa x2 Hx2) as (x & Hx & Nx). destruct (IHb Cb Fb y2 Hy2) as (y & Hy & Ny).
    destruct (op_nested o x x2 y y2 m Z2 Nx Ny H2 F) as (Z & HZ & NZ). exists Z. split; [|exact NZ].
    apply keeps_returns; [apply keeps_eval|]. exists x. split; [exact Hx|]. apply keeps_returns; [apply keeps_eval|]. exists y. split; assumption.
  - destruct PC as (Sc & Fc & Ca). apply keeps_returns in H2; [|apply keeps_eval]. destruct H2 as (x2 & Hx2 & H2). destruct (IHa Ca FV x2 Hx2) as (x & Hx & Nx).
    assert (E : exists Z, returns (py_op o (OItv x) (ONum c)) m Z /\ nested Z Z2).
    { destruct o; cbv [py_op py_add py_sub py_mul py_div itv_add itv_sub itv_mul] in *.
      - exact (radd_nested x x2 c m Z2 Nx Sc Fc H2 F).
      - refine (radd_nested x x2 (num_neg c) m Z2 Nx (small_neg c Sc) _ H2 F). destruct c; simpl in *; [exact I | now rewrite is_finite_Bopp].
      - exact (rmul_nested x x2 c m Z2 Nx Sc H2 F).
      - exact (div_num_nested x x2 c m Z2 Nx H2 F). }
    destruct E as (Z & HZ & NZ). exists Z. split; [|exact NZ]. apply keeps_returns; [apply keeps_eval|]. exists x. split; assumption.
  - destruct PC as (Sc & Fc & Nc & Cb). apply keeps_returns in H2; [|apply keeps_eval]. destruct H2 as (x2 & Hx2 & H2). destruct (IHb Cb FV x2 Hx2) as (x & Hx & Nx).
    assert (E : exists Z, returns (py_op o (ONum c) (OItv x)) m Z /\ nested Z Z2).
    { destruct o; cbv [py_op py_add py_sub py_mul py_div] in *.
      - exact (radd_nested x x2 c m Z2 Nx Sc Fc H2 F).
      - exact (rsub_nested x x2 c m Z2 Nx Sc Fc H2 F).
      - exact (rmul_nested x x2 c m Z2 Nx Sc H2 F).
      - exact (rtruediv_nested x x2 c m Z2 Nx Sc Fc (Nc eq_refl) H2 F). }
    destruct E as (Z & HZ & NZ). exists Z. split; [|exact NZ]. apply keeps_returns; [apply keeps_eval|]. exists x. split; assumption.
  - apply keeps_returns in H2; [|apply keeps_eval]. destruct H2 as (x2 & Hx2 & H2). destruct (IHa PC FV x2 Hx2) as (x & Hx & Nx). apply returns_ret in H2. subst Z2.
    exists (neg x). split; [|now apply neg_nested]. apply keeps_returns; [apply keeps_eval|]. exists x. split; [exact Hx | reflexivity].
  - apply keeps_returns in H2; [|apply keeps_eval]. destruct H2 as (x2 & Hx2 & H2). destruct (IHa PC FV x2 Hx2) as (x & Hx & Nx).
    destruct (abs_nested x x2 m Nx) as (Z & Z2' & HZ & HZ2 & NZ). assert (Z2' = Z2) by (unfold returns in *; congruence). subst Z2'.
    exists Z. split; [|exact NZ]. apply keeps_returns; [apply keeps_eval|]. exists x. split; assumption.
  - apply keeps_returns in H2; [|apply keeps_eval]. destruct H2 as (x2 & Hx2 & H2). destruct (IHa PC FV x2 Hx2) as (x & Hx & Nx). apply returns_ret in H2. subst Z2.
    exists (pro x). split; [|now apply pro_nested]. apply keeps_returns; [apply keeps_eval|]. exists x. split; [exact Hx | reflexivity].
Qed.

(** ** Cases *)
(** (x * y - 3) / (|y| + 2) on nested boxes. *)
Definition iso_expr : expr := EBin OpDiv (EBinR OpSub (EBin OpMul (EVar 0) (EVar 1)) (PInt 3)) (EBinR OpAdd (EAbs (EVar 1)) (PInt 2)).
Definition iso_small (n : nat) : itv := match n with O => mkitv Classical (PInt 1) (PInt 2) | _ => mkitv Classical (PInt (-1)) (PInt 0) end.
Definition iso_big (n : nat) : itv := match n with O => mkitv Classical (PInt 0) (PInt 2) | _ => mkitv Classical (PInt (-3)) (PInt 4) end.
Lemma iso_case : (forall n, plain (iso_small n)) /\ (forall n, plain (iso_big n)) /\ (forall n, inside (iso_small n) (iso_big n)) /\
  plain_consts iso_expr /\ finite_values iso_big mode_NE iso_expr.
Proof.
  assert (FV : forall e, match outcome (eval iso_big e) mode_NE with Ok Z => match lo Z, hi Z with PFlt f, PFlt g => is_finite f && is_finite g = true | PInt _, PInt _ => True | _, _ => False end | _ => False end -> finite_value iso_big mode_NE e).
  { intros e H. unfold finite_value, returns. destruct (outcome (eval iso_big e) mode_NE) as [Z|]; [|contradiction]. exists Z. split; [reflexivity|].
    unfold finite_itv. destruct (lo Z), (hi Z); try contradiction; [split; exact I|]. apply andb_true_iff in H. exact H. }
  split; [intros [|n]; (split; [reflexivity|split; [split; simpl; lia|split; [split; exact I | simpl; lra]]])|].
  split; [intros [|n]; (split; [reflexivity|split; [split; simpl; lia|split; [split; exact I | simpl; lra]]])|].
  split; [intros [|n]; split; vm_compute; reflexivity|].
  split; [simpl; repeat split; lia|].
  unfold iso_expr. cbn [finite_values]. repeat split; apply FV; vm_compute; try exact I; reflexivity.
Qed.
(** (x * 2^600) * y with a product that overflows. *)
Definition over_expr : expr := EBin OpMul (EBinR OpMul (EVar 0) (PFlt (fl 1 600))) (EVar 1).
Definition over_small (n : nat) : itv := match n with O => mkitv Classical (PInt (-1)) (PInt 0) | _ => mkitv Classical (PInt 0) (PInt 1) end.
Definition over_big (n : nat) : itv := match n with O => mkitv Classical (PFlt (fl (-1) 600)) (PInt 0) | _ => mkitv Classical (PInt 0) (PInt 1) end.
Theorem overflow_not_isotonic : exists env env2 e m Z Z2, (forall n, plain (env n)) /\ (forall n, plain (env2 n)) /\ (forall n, inside (env n) (env2 n)) /\ plain_consts e /\
  returns (eval env e) m Z /\ returns (eval env2 e) m Z2 /\ finite_itv Z /\ ~ inside Z Z2.
Proof.
  exists over_small, over_big, over_expr, mode_NE.
  assert (T : match outcome (eval over_small over_expr) mode_NE, outcome (eval over_big over_expr) mode_NE with
    | Ok Z, Ok Z2 => match lo Z, hi Z with PFlt f, PFlt g => is_finite f && is_finite g = true | _, _ => False end /\ num_le (lo Z2) (lo Z) = false | _, _ => False end) by (vm_compute; split; reflexivity).
  unfold returns. destruct (outcome (eval over_small over_expr) mode_NE) as [Z|]; [|contradiction]. destruct (outcome (eval over_big over_expr) mode_NE) as [Z2|]; [|contradiction].
  exists Z, Z2. destruct T as [T1 T2].
  split; [intros [|n]; (split; [reflexivity|split; [split; simpl; lia|split; [split; exact I | simpl; lra]]])|].
  split. { intros [|n]; (split; [reflexivity|split; [split; simpl; try exact I; lia|split; [split; simpl; try exact I; reflexivity|]]]); cbn [over_big lo hi num_val]; [|lra].
    rewrite (B2R_sf (fl (-1) 600) true 4503599627370496%positive 548%Z eq_refl). apply Rle_trans with 0; [|lra]. apply F2R_le_0. reflexivity || (simpl; lia). }
  split; [intros [|n]; split; vm_compute; reflexivity|].
  split; [simpl; repeat split; lia || reflexivity|]. split; [reflexivity|]. split; [reflexivity|]. split.
  - unfold finite_itv. destruct (lo Z), (hi Z); try contradiction. now apply andb_true_iff.
  - intros [I1 _]. congruence.
Qed.
