(** Properties of rounding and of the extended-real operations, and the
    semantics of Python-number arithmetic in that domain. *)
From Coq Require Import ZArith Reals List Bool Lia Lra Psatz.
From Coq Require Import Floats.SpecFloat.
From Flocq Require Import Core IEEE754.BinarySingleNaN.
From Verif Require Import Base PyNum Kernel Spec XReal.
Import ListNotations.
Open Scope R_scope.

Definition is_dbl (x : xreal) : Prop := exists f : flt, xflt f = x.

Lemma generic_dbl r : generic_format radix2 fexp r -> Rabs r < bpow radix2 1024 -> is_dbl (XFin r).
Proof.
  intros Hg Hl.
  set (fm := Ztrunc (scaled_mantissa radix2 fexp r)). set (e := cexp radix2 fexp r).
  assert (HF : r = F2R (Float radix2 fm e)) by exact Hg.
  exists (BinarySingleNaN.binary_normalize 53 1024 prec53 prec53_lt mode_NE fm e false).
  assert (H := binary_normalize_correct 53 1024 prec53 prec53_lt mode_NE fm e false).
  cbv zeta in H. rewrite <- HF in H.
  rewrite round_generic in H; auto with typeclass_instances.
  rewrite Rlt_bool_true in H by assumption.
  destruct H as (H1 & H2 & _). apply is_finite_x in H2. rewrite H2. now rewrite H1.
Qed.

Lemma gen_rnd m x : generic_format radix2 fexp (rnd m x).
Proof. apply generic_format_round; auto with typeclass_instances. Qed.

Lemma xround_dbl m x : is_dbl (xround m x).
Proof.
  unfold xround. destruct (Rlt_bool_spec (Rabs (rnd m x)) (bpow radix2 1024)).
  - apply generic_dbl; [apply gen_rnd | assumption].
  - destruct Rlt_bool; destruct overflow_to_inf.
    + now exists fninf.
    + exists (fneg fmaxfloat). rewrite xflt_neg. reflexivity.
    + now exists finf.
    + now exists fmaxfloat.
Qed.

Lemma xround_not_nan m x : xround m x <> XNan.
Proof.
  unfold xround. destruct Rlt_bool; [discriminate|].
  destruct Rlt_bool; destruct overflow_to_inf; discriminate.
Qed.

Lemma dbl_gen r : is_dbl (XFin r) -> generic_format radix2 fexp r /\ Rabs r <= fmaxR.
Proof.
  intros [f Hf].
  assert (Hfin : is_finite f = true) by (destruct f as [|[]| |]; simpl in *; congruence).
  apply is_finite_x in Hfin. rewrite Hfin in Hf. inversion Hf; subst.
  split; [apply gen_B2R | apply abs_flt_le_max].
Qed.

Lemma xround_gen m r : generic_format radix2 fexp r -> Rabs r < bpow radix2 1024 -> xround m r = XFin r.
Proof.
  intros Hg Hl. unfold xround. rewrite round_generic by auto with typeclass_instances.
  now rewrite Rlt_bool_true.
Qed.
Lemma xround_dbl_id m r : is_dbl (XFin r) -> xround m r = XFin r.
Proof.
  intro H. destruct (dbl_gen _ H) as [Hg Hl]. apply xround_gen; auto.
  apply Rle_lt_trans with (1 := Hl). apply fmaxR_lt.
Qed.

Lemma int_dbl z : (Z.abs z <= 2 ^ 53)%Z -> is_dbl (XFin (IZR z)).
Proof.
  intro H. destruct (xval_fl_small z H) as [Hf Hv]. exists (fl z 0).
  apply is_finite_x in Hf. rewrite Hf. now rewrite Hv.
Qed.
Lemma zero_dbl : is_dbl (XFin 0).
Proof. now exists f0. Qed.

(** *** Downward and upward rounding *)
Lemma rnd_DN x : rnd mode_DN x = round radix2 fexp Zfloor x.
Proof. reflexivity. Qed.
Lemma rnd_UP x : rnd mode_UP x = round radix2 fexp Zceil x.
Proof. reflexivity. Qed.

Lemma rnd_DN_le x : rnd mode_DN x <= x.
Proof. rewrite rnd_DN. apply round_DN_pt; auto with typeclass_instances. Qed.
Lemma rnd_UP_ge x : x <= rnd mode_UP x.
Proof. rewrite rnd_UP. apply round_UP_pt; auto with typeclass_instances. Qed.

Lemma gen_le_DN g x : generic_format radix2 fexp g -> g <= x -> g <= rnd mode_DN x.
Proof. intros. apply round_ge_generic; auto with typeclass_instances. Qed.
Lemma gen_UP_le g x : generic_format radix2 fexp g -> x <= g -> rnd mode_UP x <= g.
Proof. intros. apply round_le_generic; auto with typeclass_instances. Qed.

Lemma gen_max_opp : generic_format radix2 fexp (- fmaxR).
Proof. apply generic_format_opp, gen_max. Qed.

Lemma xround_DN_le x : xle_R (xround mode_DN x) x.
Proof.
  unfold xround. destruct (Rlt_bool_spec (Rabs (rnd mode_DN x)) (bpow radix2 1024)) as [H|H].
  - apply rnd_DN_le.
  - destruct (Rlt_bool_spec x 0) as [Hx|Hx]; simpl; [trivial|].
    (* x >= 0 and overflow: x >= 2^1024 *)
    assert (0 <= rnd mode_DN x) by (apply gen_le_DN; [apply generic_format_0|assumption]).
    rewrite Rabs_pos_eq in H by assumption.
    generalize (rnd_DN_le x) fmaxR_lt. lra.
Qed.
Lemma xround_UP_ge x : R_xle x (xround mode_UP x).
Proof.
  unfold xround. destruct (Rlt_bool_spec (Rabs (rnd mode_UP x)) (bpow radix2 1024)) as [H|H].
  - apply rnd_UP_ge.
  - destruct (Rlt_bool_spec x 0) as [Hx|Hx]; simpl; [|trivial].
    assert (rnd mode_UP x <= 0) by (apply gen_UP_le; [apply generic_format_0|lra]).
    rewrite Rabs_left1 in H by assumption.
    generalize (rnd_UP_ge x) fmaxR_lt. lra.
Qed.

(** *** Order facts *)
Lemma xleb_fin a b : xleb (XFin a) (XFin b) = true <-> a <= b.
Proof. unfold xleb; simpl. destruct (Rcompare_spec a b); split; intro; try reflexivity; try discriminate; lra. Qed.
Lemma xltb_fin a b : xltb (XFin a) (XFin b) = true <-> a < b.
Proof. unfold xltb; simpl. destruct (Rcompare_spec a b); split; intro; try reflexivity; try discriminate; lra. Qed.
Lemma xeqb_fin a b : xeqb (XFin a) (XFin b) = true <-> a = b.
Proof. unfold xeqb; simpl. destruct (Rcompare_spec a b); split; intro; try reflexivity; try discriminate; try lra. Qed.

Lemma xround_DN_greatest g x : is_dbl g -> xle_R g x -> xleb g (xround mode_DN x) = true.
Proof.
  intros Hg Hle. destruct g as [| | |r]; simpl in Hle; try contradiction.
  - unfold xround. destruct Rlt_bool; [reflexivity|]. destruct Rlt_bool; reflexivity.
  - destruct (dbl_gen _ Hg) as [Hgen Hmax].
    assert (Hd := gen_le_DN _ _ Hgen Hle).
    unfold xround. destruct (Rlt_bool_spec (Rabs (rnd mode_DN x)) (bpow radix2 1024)) as [H|H].
    + now apply xleb_fin.
    + destruct (Rlt_bool_spec x 0) as [Hx|Hx]; simpl.
      * exfalso. assert (rnd mode_DN x <= 0) by (generalize (rnd_DN_le x); lra).
        rewrite Rabs_left1 in H by assumption.
        generalize fmaxR_lt. generalize (Rabs_le_inv _ _ Hmax). lra.
      * unfold xleb; simpl. generalize (Rabs_le_inv _ _ Hmax). intro.
        destruct (Rcompare_spec r fmaxR); try reflexivity. lra.
Qed.
Lemma xround_UP_least g x : is_dbl g -> R_xle x g -> xleb (xround mode_UP x) g = true.
Proof.
  intros Hg Hle. destruct g as [| | |r]; simpl in Hle; try contradiction.
  - unfold xround. destruct Rlt_bool; [reflexivity|]. destruct Rlt_bool; reflexivity.
  - destruct (dbl_gen _ Hg) as [Hgen Hmax].
    assert (Hd := gen_UP_le _ _ Hgen Hle).
    unfold xround. destruct (Rlt_bool_spec (Rabs (rnd mode_UP x)) (bpow radix2 1024)) as [H|H].
    + now apply xleb_fin.
    + destruct (Rlt_bool_spec x 0) as [Hx|Hx]; simpl.
      * unfold xleb; simpl. generalize (Rabs_le_inv _ _ Hmax). intro.
        destruct (Rcompare_spec (- fmaxR) r); try reflexivity. lra.
      * exfalso. assert (0 <= rnd mode_UP x) by (generalize (rnd_UP_ge x); lra).
        rewrite Rabs_pos_eq in H by assumption.
        generalize fmaxR_lt. generalize (Rabs_le_inv _ _ Hmax). lra.
Qed.

Ltac xcase := repeat match goal with
  | H : context [Rcompare ?a ?b] |- _ => destruct (Rcompare_spec a b)
  | |- context [Rcompare ?a ?b] => destruct (Rcompare_spec a b)
  end.

Lemma xleb_trans a b c : xleb a b = true -> xleb b c = true -> xleb a c = true.
Proof.
  unfold xleb. destruct a, b, c; simpl; intros; try discriminate; try reflexivity;
    xcase; try discriminate; try reflexivity; lra.
Qed.
Lemma xleb_refl a : a <> XNan -> xleb a a = true.
Proof. unfold xleb. destruct a; simpl; intros; try congruence. now rewrite Rcompare_Eq. Qed.
Lemma xleb_antisym a b : xleb a b = true -> xleb b a = true -> a = b.
Proof.
  unfold xleb. destruct a, b; simpl; intros; try discriminate; try reflexivity;
    xcase; try discriminate; f_equal; lra.
Qed.
Lemma xleb_nnan_l a b : xleb a b = true -> a <> XNan.
Proof. unfold xleb. destruct a, b; simpl; congruence. Qed.
Lemma xleb_nnan_r a b : xleb a b = true -> b <> XNan.
Proof. unfold xleb. destruct a, b; simpl; congruence. Qed.
Lemma xleb_total a b : a <> XNan -> b <> XNan -> xleb a b = true \/ xleb b a = true.
Proof.
  unfold xleb. destruct a, b; simpl; intros; try congruence; auto; xcase; auto; lra.
Qed.
Lemma xltb_xleb a b : xltb a b = true -> xleb a b = true.
Proof. unfold xltb, xleb. destruct xcmp as [[]|]; congruence. Qed.
Lemma xltb_false_xleb a b : a <> XNan -> b <> XNan -> xltb a b = false -> xleb b a = true.
Proof.
  unfold xltb, xleb. destruct a, b; simpl; intros; try congruence; xcase; try congruence; lra.
Qed.

Lemma xleb_xle_R a b r : xleb a b = true -> xle_R b r -> xle_R a r.
Proof.
  unfold xleb. destruct a, b; simpl; intros; try discriminate; try contradiction; trivial.
  xcase; try discriminate; lra.
Qed.
Lemma R_xle_xleb a b r : R_xle r a -> xleb a b = true -> R_xle r b.
Proof.
  unfold xleb. destruct a, b; simpl; intros; try discriminate; try contradiction; trivial.
  xcase; try discriminate; lra.
Qed.
Lemma xle_R_trans a r s : xle_R a r -> r <= s -> xle_R a s.
Proof. destruct a; simpl; intros; trivial; lra. Qed.
Lemma R_xle_trans a r s : R_xle s a -> r <= s -> R_xle r a.
Proof. destruct a; simpl; intros; trivial; lra. Qed.
Lemma xle_R_nnan a r : xle_R a r -> a <> XNan.
Proof. destruct a; simpl; congruence || tauto. Qed.
Lemma R_xle_nnan a r : R_xle r a -> a <> XNan.
Proof. destruct a; simpl; congruence || tauto. Qed.
Lemma member_order a b r : xle_R a r -> R_xle r b -> xleb a b = true.
Proof.
  unfold xleb. destruct a, b; simpl; intros; try contradiction; try reflexivity.
  xcase; try reflexivity; lra.
Qed.

(** *** Monotonicity of directed rounding *)
Lemma xround_DN_mono a b : a <= b -> xleb (xround mode_DN a) (xround mode_DN b) = true.
Proof.
  intro H. apply xround_DN_greatest; [apply xround_dbl|].
  apply xle_R_trans with a; [apply xround_DN_le | assumption].
Qed.
Lemma xround_UP_mono a b : a <= b -> xleb (xround mode_UP a) (xround mode_UP b) = true.
Proof.
  intro H. apply xround_UP_least; [apply xround_dbl|].
  apply R_xle_trans with b; [apply xround_UP_ge | assumption].
Qed.
Lemma xround_DN_UP a : xleb (xround mode_DN a) (xround mode_UP a) = true.
Proof. eapply member_order; [apply xround_DN_le | apply xround_UP_ge]. Qed.

(** *** min and max *)
Lemma xmin2_nan_l y : xmin2 XNan y = XNan.
Proof. unfold xmin2, xltb. destruct y; reflexivity. Qed.
Lemma xmax2_nan_l y : xmax2 XNan y = XNan.
Proof. unfold xmax2, xltb. destruct y; reflexivity. Qed.
Lemma xmin2_nan_r x : xmin2 x XNan = x.
Proof. unfold xmin2, xltb. destruct x; reflexivity. Qed.
Lemma xmax2_nan_r x : xmax2 x XNan = x.
Proof. unfold xmax2, xltb. destruct x; reflexivity. Qed.
Lemma xmin2_le_l x y : x <> XNan -> xleb (xmin2 x y) x = true.
Proof. intro H. unfold xmin2. destruct (xltb y x) eqn:E; [now apply xltb_xleb | now apply xleb_refl]. Qed.
Lemma xmin2_le_r x y : x <> XNan -> y <> XNan -> xleb (xmin2 x y) y = true.
Proof. intros H H'. unfold xmin2. destruct (xltb y x) eqn:E; [now apply xleb_refl | now apply xltb_false_xleb]. Qed.
Lemma xmax2_ge_l x y : x <> XNan -> xleb x (xmax2 x y) = true.
Proof. intro H. unfold xmax2. destruct (xltb x y) eqn:E; [now apply xltb_xleb | now apply xleb_refl]. Qed.
Lemma xmax2_ge_r x y : x <> XNan -> y <> XNan -> xleb y (xmax2 x y) = true.
Proof. intros H H'. unfold xmax2. destruct (xltb x y) eqn:E; [now apply xleb_refl | now apply xltb_false_xleb]. Qed.
Lemma xmin2_nnan x y : x <> XNan -> xmin2 x y <> XNan.
Proof. intro H. eapply xleb_nnan_l. now apply xmin2_le_l. Qed.
Lemma xmax2_nnan x y : x <> XNan -> xmax2 x y <> XNan.
Proof. intro H. eapply xleb_nnan_r. now apply xmax2_ge_l. Qed.
Lemma xmin2_or x y : xmin2 x y = x \/ xmin2 x y = y.
Proof. unfold xmin2. destruct xltb; auto. Qed.
Lemma xmax2_or x y : xmax2 x y = x \/ xmax2 x y = y.
Proof. unfold xmax2. destruct xltb; auto. Qed.

Lemma xmin4_nan b c d : xmin4 XNan b c d = XNan.
Proof. unfold xmin4. now rewrite !xmin2_nan_l. Qed.
Lemma xmax4_nan b c d : xmax4 XNan b c d = XNan.
Proof. unfold xmax4. now rewrite !xmax2_nan_l. Qed.
Lemma xmin4_le a b c d p : a <> XNan -> p <> XNan -> In p [a; b; c; d] -> xleb (xmin4 a b c d) p = true.
Proof.
  intros Ha Hp Hin. unfold xmin4.
  assert (N1 : xmin2 a b <> XNan) by now apply xmin2_nnan.
  assert (N2 : xmin2 (xmin2 a b) c <> XNan) by now apply xmin2_nnan.
  destruct Hin as [<-|[<-|[<-|[<-|[]]]]].
  - eapply xleb_trans; [now apply xmin2_le_l|]. eapply xleb_trans; [now apply xmin2_le_l|]. now apply xmin2_le_l.
  - eapply xleb_trans; [now apply xmin2_le_l|]. eapply xleb_trans; [now apply xmin2_le_l|]. now apply xmin2_le_r.
  - eapply xleb_trans; [now apply xmin2_le_l|]. now apply xmin2_le_r.
  - now apply xmin2_le_r.
Qed.
Lemma xmax4_ge a b c d p : a <> XNan -> p <> XNan -> In p [a; b; c; d] -> xleb p (xmax4 a b c d) = true.
Proof.
  intros Ha Hp Hin. unfold xmax4.
  assert (N1 : xmax2 a b <> XNan) by now apply xmax2_nnan.
  assert (N2 : xmax2 (xmax2 a b) c <> XNan) by now apply xmax2_nnan.
  destruct Hin as [<-|[<-|[<-|[<-|[]]]]].
  - eapply xleb_trans; [|now apply xmax2_ge_l]. eapply xleb_trans; [|now apply xmax2_ge_l]. now apply xmax2_ge_l.
  - eapply xleb_trans; [|now apply xmax2_ge_l]. eapply xleb_trans; [|now apply xmax2_ge_l]. now apply xmax2_ge_r.
  - eapply xleb_trans; [|now apply xmax2_ge_l]. now apply xmax2_ge_r.
  - now apply xmax2_ge_r.
Qed.
Lemma xmin4_in a b c d : In (xmin4 a b c d) [a; b; c; d].
Proof.
  unfold xmin4. simpl.
  destruct (xmin2_or (xmin2 (xmin2 a b) c) d) as [->| ->]; [|tauto].
  destruct (xmin2_or (xmin2 a b) c) as [->| ->]; [|tauto].
  destruct (xmin2_or a b) as [->| ->]; tauto.
Qed.
Lemma xmax4_in a b c d : In (xmax4 a b c d) [a; b; c; d].
Proof.
  unfold xmax4. simpl.
  destruct (xmax2_or (xmax2 (xmax2 a b) c) d) as [->| ->]; [|tauto].
  destruct (xmax2_or (xmax2 a b) c) as [->| ->]; [|tauto].
  destruct (xmax2_or a b) as [->| ->]; tauto.
Qed.

(** *** Addition and subtraction bounds *)
Lemma xadd_low a b x y : xle_R a x -> xle_R b y -> xle_R (xadd mode_DN a b) (x + y).
Proof.
  destruct a, b; simpl; intros; try contradiction; trivial.
  eapply xle_R_trans; [apply xround_DN_le | lra].
Qed.
Lemma xadd_high a b x y : R_xle x a -> R_xle y b -> R_xle (x + y) (xadd mode_UP a b).
Proof.
  destruct a, b; simpl; intros; try contradiction; trivial.
  eapply R_xle_trans; [apply xround_UP_ge | lra].
Qed.
Lemma xopp_low a x : xle_R a x -> R_xle (- x) (xopp a).
Proof. destruct a; simpl; intros; trivial; lra. Qed.
Lemma xopp_high a x : R_xle x a -> xle_R (xopp a) (- x).
Proof. destruct a; simpl; intros; trivial; lra. Qed.
Lemma xsub_low a b x y : xle_R a x -> R_xle y b -> xle_R (xsub mode_DN a b) (x - y).
Proof. intros. unfold xsub, Rminus. apply xadd_low; [assumption | now apply xopp_high]. Qed.
Lemma xsub_high a b x y : R_xle x a -> xle_R b y -> R_xle (x - y) (xsub mode_UP a b).
Proof. intros. unfold xsub, Rminus. apply xadd_high; [assumption | now apply xopp_low]. Qed.
Lemma xadd_nan_l m y : xadd m XNan y = XNan.
Proof. reflexivity. Qed.
Lemma xadd_nan_r m x : xadd m x XNan = XNan.
Proof. destruct x; reflexivity. Qed.
Lemma xmul_nan_l m y : xmul m XNan y = XNan.
Proof. reflexivity. Qed.
Lemma xmul_nan_r m x : xmul m x XNan = XNan.
Proof. destruct x; reflexivity. Qed.
Lemma xdiv_nan_l m y : xdiv m XNan y = XNan.
Proof. reflexivity. Qed.
Lemma xdiv_nan_r m x : xdiv m x XNan = XNan.
Proof. destruct x; reflexivity. Qed.

(** *** Products *)
(** Exact extended product and quotient. *)
Definition xmulE (x y : xreal) : xreal :=
  match x, y with
  | XFin a, XFin b => XFin (a * b)
  | _, _ => xmul mode_DN x y
  end.
Definition xdivE (x y : xreal) : xreal :=
  match x, y with
  | XFin a, XFin b => XFin (a / b)
  | _, _ => xdiv mode_DN x y
  end.
Lemma xmul_E_low x y r : xle_R (xmulE x y) r -> xle_R (xmul mode_DN x y) r.
Proof.
  destruct x, y; simpl; trivial. intro. eapply xle_R_trans; [apply xround_DN_le | assumption].
Qed.
Lemma xmul_E_high x y r : R_xle r (xmulE x y) -> R_xle r (xmul mode_UP x y).
Proof.
  destruct x, y; simpl; trivial. intro. eapply R_xle_trans; [apply xround_UP_ge | assumption].
Qed.
Lemma xdiv_E_low x y r : xle_R (xdivE x y) r -> xle_R (xdiv mode_DN x y) r.
Proof.
  destruct x, y; simpl; trivial. intro. eapply xle_R_trans; [apply xround_DN_le | assumption].
Qed.
Lemma xdiv_E_high x y r : R_xle r (xdivE x y) -> R_xle r (xdiv mode_UP x y).
Proof.
  destruct x, y; simpl; trivial. intro. eapply R_xle_trans; [apply xround_UP_ge | assumption].
Qed.
Lemma xmul_nan_E m x y : xmul m x y = XNan <-> xmulE x y = XNan.
Proof.
  destruct x, y; simpl; try tauto. split; [|discriminate]. intro H. now apply xround_not_nan in H.
Qed.
Lemma xdiv_nan_E m x y : xdiv m x y = XNan <-> xdivE x y = XNan.
Proof.
  destruct x, y; simpl; try tauto. split; [|discriminate]. intro H. now apply xround_not_nan in H.
Qed.

Lemma inf_pos b : 0 < b -> xinf_times true (XFin b) = XPInf.
Proof. intro; simpl. now rewrite Rcompare_Gt. Qed.
Lemma inf_neg b : b < 0 -> xinf_times true (XFin b) = XNInf.
Proof. intro; simpl. now rewrite Rcompare_Lt. Qed.
Lemma ninf_pos b : 0 < b -> xinf_times false (XFin b) = XNInf.
Proof. intro; simpl. now rewrite Rcompare_Gt. Qed.
Lemma ninf_neg b : b < 0 -> xinf_times false (XFin b) = XPInf.
Proof. intro; simpl. now rewrite Rcompare_Lt. Qed.

Lemma mulE_comm x y : xmulE x y = xmulE y x.
Proof. destruct x, y; simpl; trivial. now rewrite Rmult_comm. Qed.
Lemma mulE_opp_l x y : xmulE (xopp x) y = xopp (xmulE x y).
Proof.
  destruct x, y; simpl; trivial; try (now destruct (Rcompare r 0)).
  - destruct (Rcompare_spec (-r) 0), (Rcompare_spec r 0); try reflexivity; lra.
  - destruct (Rcompare_spec (-r) 0), (Rcompare_spec r 0); try reflexivity; lra.
  - f_equal; ring.
Qed.
Lemma mulE_opp_r x y : xmulE x (xopp y) = xopp (xmulE x y).
Proof. now rewrite mulE_comm, mulE_opp_l, mulE_comm. Qed.

(** If not all four corner products are NaN, one of them is a lower bound. *)
Lemma mul_low a b c d x y :
  xle_R a x -> R_xle x b -> xle_R c y -> R_xle y d ->
  ~ (xmulE a c = XNan /\ xmulE a d = XNan /\ xmulE b c = XNan /\ xmulE b d = XNan) ->
  exists p, In p [xmulE a c; xmulE a d; xmulE b c; xmulE b d] /\ xle_R p (x * y).
Proof.
  intros Ha Hb Hc Hd Hn.
  cut (xle_R (xmulE a c) (x*y) \/ xle_R (xmulE a d) (x*y) \/ xle_R (xmulE b c) (x*y) \/ xle_R (xmulE b d) (x*y)).
  { simpl; intros [H|[H|[H|H]]]; eauto 8. }
  destruct (Rle_or_lt 0 y) as [Hy|Hy].
  - (* x*y >= a*y *)
    destruct a as [| | |a]; simpl in Ha; try contradiction.
    + (* a = -inf *)
      destruct d as [| | |d]; simpl in Hd; try contradiction; [simpl; tauto|].
      destruct (Req_dec d 0) as [->|Hd0].
      * assert (y = 0) by lra; subst y. rewrite Rmult_0_r.
        destruct b as [| | |b]; simpl in Hb; try contradiction.
        -- destruct c as [| | |c]; simpl in Hc; try contradiction; [simpl; tauto|].
           destruct (Req_dec c 0) as [->|]; [exfalso; apply Hn; simpl; now rewrite Rcompare_Eq|].
           right; right; left. simpl. rewrite Rcompare_Lt by lra. exact I.
        -- right; right; right. simpl. lra.
      * right; left. simpl. rewrite Rcompare_Gt by lra. exact I.
    + destruct (Rle_or_lt 0 a) as [Ha0|Ha0].
      * destruct c as [| | |c]; simpl in Hc; try contradiction.
        -- destruct (Req_dec a 0) as [->|]; [|left; simpl; rewrite Rcompare_Gt by lra; exact I].
           destruct d as [| | |d]; simpl in Hd; try contradiction.
           ++ destruct b as [| | |b]; simpl in Hb; try contradiction; [simpl; tauto|].
              destruct (Req_dec b 0) as [->|]; [exfalso; apply Hn; simpl; now rewrite Rcompare_Eq|].
              right; right; left. simpl. rewrite Rcompare_Gt by lra. exact I.
           ++ right; left. simpl. nra.
        -- left; simpl. nra.
      * right; left. destruct d as [| | |d]; simpl in Hd; try contradiction; simpl.
        -- rewrite Rcompare_Lt by lra. exact I.
        -- nra.
  - destruct b as [| | |b]; simpl in Hb; try contradiction.
    + right; right; left. destruct c as [| | |c]; simpl in Hc; try contradiction; simpl; [exact I|].
      rewrite Rcompare_Lt by lra. exact I.
    + destruct (Rle_or_lt 0 b) as [Hb0|Hb0].
      * destruct c as [| | |c]; simpl in Hc; try contradiction.
        -- destruct (Req_dec b 0) as [->|]; [|right; right; left; simpl; rewrite Rcompare_Gt by lra; exact I].
           destruct d as [| | |d]; simpl in Hd; try contradiction.
           ++ destruct a as [| | |a]; simpl in Ha; try contradiction; [simpl; tauto|].
              destruct (Req_dec a 0) as [->|]; [exfalso; apply Hn; simpl; now rewrite Rcompare_Eq|].
              right; left. simpl. rewrite Rcompare_Lt by lra. exact I.
           ++ right; right; right. simpl. nra.
        -- right; right; left. simpl. nra.
      * right; right; right. destruct d as [| | |d]; simpl in Hd; try contradiction; simpl.
        -- rewrite Rcompare_Lt by lra. exact I.
        -- nra.
Qed.

Lemma xopp_nan x : xopp x = XNan <-> x = XNan.
Proof. destruct x; simpl; split; congruence. Qed.
Lemma xopp_xle x r : xle_R (xopp x) (- r) <-> R_xle r x.
Proof. destruct x; simpl; split; trivial; lra. Qed.
Lemma xopp_R_xle x r : R_xle (- r) (xopp x) <-> xle_R x r.
Proof. destruct x; simpl; split; trivial; lra. Qed.

Lemma mul_high a b c d x y :
  xle_R a x -> R_xle x b -> xle_R c y -> R_xle y d ->
  ~ (xmulE a c = XNan /\ xmulE a d = XNan /\ xmulE b c = XNan /\ xmulE b d = XNan) ->
  exists p, In p [xmulE a c; xmulE a d; xmulE b c; xmulE b d] /\ R_xle (x * y) p.
Proof.
  intros Ha Hb Hc Hd Hn.
  destruct (mul_low (xopp b) (xopp a) c d (- x) y) as (p & Hin & Hp); auto.
  - now apply xopp_high.
  - now apply xopp_low.
  - rewrite !mulE_opp_l, !xopp_nan. tauto.
  - rewrite !mulE_opp_l in Hin. replace (- x * y) with (- (x * y)) in Hp by ring.
    simpl in Hin. destruct Hin as [<-|[<-|[<-|[<-|[]]]]]; rewrite xopp_xle in Hp; simpl; eauto 8.
Qed.

(** The product of two classical intervals, at the level of extended reals. *)
Definition mul_nan_all (a b c d : xreal) :=
  xmulE a c = XNan /\ xmulE a d = XNan /\ xmulE b c = XNan /\ xmulE b d = XNan.

Lemma xmul4_encl a b c d x y :
  xle_R a x -> R_xle x b -> xle_R c y -> R_xle y d ->
  let L := xmin4 (xmul mode_DN a c) (xmul mode_DN a d) (xmul mode_DN b c) (xmul mode_DN b d) in
  let U := xmax4 (xmul mode_UP a c) (xmul mode_UP a d) (xmul mode_UP b c) (xmul mode_UP b d) in
  (L = XNan /\ U = XNan) \/ (xle_R L (x * y) /\ R_xle (x * y) U).
Proof.
  intros Ha Hb Hc Hd L U.
  destruct (xmulE a c) eqn:E.
  1: { left. unfold L, U. rewrite (proj2 (xmul_nan_E mode_DN a c)), (proj2 (xmul_nan_E mode_UP a c)) by assumption.
       now rewrite xmin4_nan, xmax4_nan. }
  all: right; assert (Hn : ~ mul_nan_all a b c d) by (unfold mul_nan_all; rewrite E; intros [? _]; discriminate);
    assert (Hac : forall m, xmul m a c <> XNan) by (intro m; rewrite (xmul_nan_E m); rewrite E; discriminate);
    (split;
      [ destruct (mul_low a b c d x y Ha Hb Hc Hd Hn) as (p & Hin & Hp);
        assert (Hin' : exists q, In q [xmul mode_DN a c; xmul mode_DN a d; xmul mode_DN b c; xmul mode_DN b d] /\ xle_R q (x * y))
          by (simpl in Hin; destruct Hin as [<-|[<-|[<-|[<-|[]]]]]; apply xmul_E_low in Hp; simpl; eauto 8);
        destruct Hin' as (q & Hq & Hqr);
        apply xleb_xle_R with q; [apply xmin4_le; [apply Hac | now apply xle_R_nnan in Hqr | assumption] | assumption]
      | destruct (mul_high a b c d x y Ha Hb Hc Hd Hn) as (p & Hin & Hp);
        assert (Hin' : exists q, In q [xmul mode_UP a c; xmul mode_UP a d; xmul mode_UP b c; xmul mode_UP b d] /\ R_xle (x * y) q)
          by (simpl in Hin; destruct Hin as [<-|[<-|[<-|[<-|[]]]]]; apply xmul_E_high in Hp; simpl; eauto 8);
        destruct Hin' as (q & Hq & Hqr);
        apply R_xle_xleb with q; [assumption | apply xmax4_ge; [apply Hac | now apply R_xle_nnan in Hqr | assumption]] ]).
Qed.

(** *** Quotients *)
Lemma divE_opp_l x y : xdivE (xopp x) y = xopp (xdivE x y).
Proof.
  destruct x, y; simpl; trivial; try (now destruct (Rcompare r 0)); f_equal; try ring.
  unfold Rdiv; ring.
Qed.
Lemma divE_opp_r x y : y <> XFin 0 -> xdivE x (xopp y) = xopp (xdivE x y).
Proof.
  intro Hy. destruct x as [| | |x], y as [| | |r]; simpl; trivial; try (f_equal; ring);
  try (destruct (Rcompare_spec (-r) 0), (Rcompare_spec r 0); try reflexivity; lra).
  f_equal. field. intro; subst; now apply Hy.
Qed.

Lemma div_corner_low a c x y : 0 < c -> c <= y -> a <= x -> a <= 0 -> a / c <= x / y.
Proof.
  intros. assert (0 < / y) by (apply Rinv_0_lt_compat; lra).
  assert (/ y <= / c) by (apply Rinv_le; lra).
  unfold Rdiv. nra.
Qed.
Lemma div_corner_low2 a d x y : 0 < y -> y <= d -> a <= x -> 0 <= a -> a / d <= x / y.
Proof.
  intros. assert (0 < / d) by (apply Rinv_0_lt_compat; lra).
  assert (/ d <= / y) by (apply Rinv_le; lra).
  unfold Rdiv. nra.
Qed.

(** positive divisor *)
Lemma div_low_pos a c d x y :
  xle_R a x -> xltb (XFin 0) c = true -> xle_R c y -> R_xle y d ->
  xle_R (xdivE a c) (x / y) \/ xle_R (xdivE a d) (x / y).
Proof.
  intros Ha Hc0 Hc Hd. destruct c as [| | |c]; simpl in Hc; try contradiction; try discriminate.
  apply xltb_fin in Hc0.
  destruct a as [| | |a]; simpl in Ha; try contradiction.
  - left. simpl. rewrite Rcompare_Gt by assumption. exact I.
  - destruct (Rle_or_lt a 0).
    + left. simpl. now apply div_corner_low.
    + right. destruct d as [| | |d]; simpl in Hd; try contradiction; simpl.
      * unfold Rdiv. assert (0 < / y) by (apply Rinv_0_lt_compat; lra). nra.
      * apply div_corner_low2; lra.
Qed.
Lemma div_high_pos b c d x y :
  R_xle x b -> xltb (XFin 0) c = true -> xle_R c y -> R_xle y d ->
  R_xle (x / y) (xdivE b c) \/ R_xle (x / y) (xdivE b d).
Proof.
  intros Hb Hc0 Hc Hd.
  destruct (div_low_pos (xopp b) c d (- x) y) as [H|H]; auto.
  - now apply xopp_high.
  - left. rewrite divE_opp_l in H. replace (- x / y) with (- (x / y)) in H by (unfold Rdiv; ring).
    now apply xopp_xle in H.
  - right. rewrite divE_opp_l in H. replace (- x / y) with (- (x / y)) in H by (unfold Rdiv; ring).
    now apply xopp_xle in H.
Qed.
(** negative divisor *)
Lemma div_low_neg b c d x y :
  R_xle x b -> xltb d (XFin 0) = true -> xle_R c y -> R_xle y d ->
  xle_R (xdivE b c) (x / y) \/ xle_R (xdivE b d) (x / y).
Proof.
  intros Hb Hd0 Hc Hd.
  assert (Hy : y < 0).
  { destruct d; simpl in Hd; try contradiction; try discriminate. apply xltb_fin in Hd0. lra. }
  destruct (div_low_pos (xopp b) (xopp d) (xopp c) (- x) (- y)) as [H|H].
  - now apply xopp_high.
  - destruct d; simpl in Hd; try contradiction; try discriminate. apply xltb_fin in Hd0. apply xltb_fin. lra.
  - now apply xopp_high.
  - now apply xopp_low.
  - right. replace (- x / - y) with (x / y) in H by (field; lra).
    rewrite divE_opp_l, divE_opp_r in H.
    + destruct (xdivE b d); simpl in *; trivial; lra.
    + intros ->. apply xltb_fin in Hd0. lra.
  - left. replace (- x / - y) with (x / y) in H by (field; lra).
    rewrite divE_opp_l, divE_opp_r in H.
    + destruct (xdivE b c); simpl in *; trivial; lra.
    + intros ->. simpl in Hc. lra.
Qed.
Lemma div_high_neg a c d x y :
  xle_R a x -> xltb d (XFin 0) = true -> xle_R c y -> R_xle y d ->
  R_xle (x / y) (xdivE a c) \/ R_xle (x / y) (xdivE a d).
Proof.
  intros Ha Hd0 Hc Hd.
  destruct (div_low_neg (xopp a) c d (- x) y) as [H|H]; auto.
  - now apply xopp_low.
  - left. rewrite divE_opp_l in H. replace (- x / y) with (- (x / y)) in H by (unfold Rdiv; ring).
    now apply xopp_xle in H.
  - right. rewrite divE_opp_l in H. replace (- x / y) with (- (x / y)) in H by (unfold Rdiv; ring).
    now apply xopp_xle in H.
Qed.

Definition no_zero (c d : xreal) : Prop := xltb (XFin 0) c = true \/ xltb d (XFin 0) = true.

Lemma xdiv4_encl a b c d x y :
  xle_R a x -> R_xle x b -> xle_R c y -> R_xle y d -> no_zero c d ->
  let L := xmin4 (xdiv mode_DN a c) (xdiv mode_DN a d) (xdiv mode_DN b c) (xdiv mode_DN b d) in
  let U := xmax4 (xdiv mode_UP a c) (xdiv mode_UP a d) (xdiv mode_UP b c) (xdiv mode_UP b d) in
  (L = XNan /\ U = XNan) \/ (xle_R L (x / y) /\ R_xle (x / y) U).
Proof.
  intros Ha Hb Hc Hd H0 L U.
  assert (HL : exists p, In p [xdivE a c; xdivE a d; xdivE b c; xdivE b d] /\ xle_R p (x / y)).
  { destruct H0 as [H0|H0].
    - destruct (div_low_pos a c d x y) as [H|H]; simpl; eauto 8.
    - destruct (div_low_neg b c d x y) as [H|H]; simpl; eauto 8. }
  assert (HU : exists p, In p [xdivE a c; xdivE a d; xdivE b c; xdivE b d] /\ R_xle (x / y) p).
  { destruct H0 as [H0|H0].
    - destruct (div_high_pos b c d x y) as [H|H]; simpl; eauto 8.
    - destruct (div_high_neg a c d x y) as [H|H]; simpl; eauto 8. }
  destruct (xdivE a c) eqn:E.
  1: { left. unfold L, U. rewrite (proj2 (xdiv_nan_E mode_DN a c)), (proj2 (xdiv_nan_E mode_UP a c)) by assumption.
       now rewrite xmin4_nan, xmax4_nan. }
  all: right; rewrite <- E in HL, HU;
    assert (Hac : forall m, xdiv m a c <> XNan) by (intro m; rewrite (xdiv_nan_E m); rewrite E; discriminate);
    (split;
      [ destruct HL as (p & Hin & Hp);
        assert (Hin' : exists q, In q [xdiv mode_DN a c; xdiv mode_DN a d; xdiv mode_DN b c; xdiv mode_DN b d] /\ xle_R q (x / y))
          by (simpl in Hin; destruct Hin as [<-|[<-|[<-|[<-|[]]]]]; apply xdiv_E_low in Hp; simpl; eauto 8);
        destruct Hin' as (q & Hq & Hqr);
        apply xleb_xle_R with q; [apply xmin4_le; [apply Hac | now apply xle_R_nnan in Hqr | assumption] | assumption]
      | destruct HU as (p & Hin & Hp);
        assert (Hin' : exists q, In q [xdiv mode_UP a c; xdiv mode_UP a d; xdiv mode_UP b c; xdiv mode_UP b d] /\ R_xle (x / y) q)
          by (simpl in Hin; destruct Hin as [<-|[<-|[<-|[<-|[]]]]]; apply xdiv_E_high in Hp; simpl; eauto 8);
        destruct Hin' as (q & Hq & Hqr);
        apply R_xle_xleb with q; [assumption | apply xmax4_ge; [apply Hac | now apply R_xle_nnan in Hqr | assumption]] ]).
Qed.

(** ** Python-number arithmetic in the extended reals *)
Lemma xadd_round_int m a b : (Z.abs (a + b) <= 2 ^ 53)%Z -> xadd m (XFin (IZR a)) (XFin (IZR b)) = XFin (IZR (a + b)).
Proof. intro. simpl. rewrite <- plus_IZR. apply xround_dbl_id, int_dbl, H. Qed.

Lemma small_double x : small_num x -> exists f, to_double x = Ok f /\ xflt f = xval x.
Proof. intro. now apply to_double_exact, small_exact. Qed.

Lemma num_add_x m x y : small_num x -> small_num y ->
  exists v, num_add m x y = Ok v /\ exact_num v /\ xval v = xadd m (xval x) (xval y).
Proof.
  intros Hx Hy. destruct (small_double x Hx) as (f & Hf & Hfx), (small_double y Hy) as (g & Hg & Hgx).
  destruct x as [a|f0], y as [b|g0].
  - exists (PInt (a + b)). cbn [small_num] in Hx, Hy.
    assert ((Z.abs (a + b) <= 2 ^ 53)%Z) by (change (2^53)%Z with (2^26 * 2^27)%Z; lia).
    split; [reflexivity|split; [assumption|]]. symmetry. now apply xadd_round_int.
  - exists (PFlt (fadd m f g)). unfold num_add, arith2. rewrite Hf, Hg. split; [reflexivity|split; [exact I|]].
    simpl xval at 1. rewrite fadd_x. now rewrite Hfx, Hgx.
  - exists (PFlt (fadd m f g)). unfold num_add, arith2. rewrite Hf, Hg. split; [reflexivity|split; [exact I|]].
    simpl xval at 1. rewrite fadd_x. now rewrite Hfx, Hgx.
  - exists (PFlt (fadd m f g)). unfold num_add, arith2. rewrite Hf, Hg. split; [reflexivity|split; [exact I|]].
    simpl xval at 1. rewrite fadd_x. now rewrite Hfx, Hgx.
Qed.

Lemma num_sub_x m x y : small_num x -> small_num y ->
  exists v, num_sub m x y = Ok v /\ exact_num v /\ xval v = xsub m (xval x) (xval y).
Proof.
  intros Hx Hy. destruct (small_double x Hx) as (f & Hf & Hfx), (small_double y Hy) as (g & Hg & Hgx).
  destruct x as [a|f0], y as [b|g0].
  - exists (PInt (a - b)). cbn [small_num] in Hx, Hy.
    assert ((Z.abs (a - b) <= 2 ^ 53)%Z) by (change (2^53)%Z with (2^26 * 2^27)%Z; lia).
    split; [reflexivity|split; [assumption|]]. symmetry. unfold xsub. simpl xval. simpl xopp. rewrite <- opp_IZR.
    rewrite xadd_round_int; [reflexivity | assumption].
  - exists (PFlt (fsub m f g)). unfold num_sub, arith2. rewrite Hf, Hg. split; [reflexivity|split; [exact I|]].
    simpl xval at 1. rewrite fsub_x. now rewrite Hfx, Hgx.
  - exists (PFlt (fsub m f g)). unfold num_sub, arith2. rewrite Hf, Hg. split; [reflexivity|split; [exact I|]].
    simpl xval at 1. rewrite fsub_x. now rewrite Hfx, Hgx.
  - exists (PFlt (fsub m f g)). unfold num_sub, arith2. rewrite Hf, Hg. split; [reflexivity|split; [exact I|]].
    simpl xval at 1. rewrite fsub_x. now rewrite Hfx, Hgx.
Qed.

Lemma num_mul_x m x y : small_num x -> small_num y ->
  exists v, num_mul m x y = Ok v /\ exact_num v /\ xval v = xmul m (xval x) (xval y).
Proof.
  intros Hx Hy. destruct (small_double x Hx) as (f & Hf & Hfx), (small_double y Hy) as (g & Hg & Hgx).
  destruct x as [a|f0], y as [b|g0].
  - exists (PInt (a * b)). cbn [small_num] in Hx, Hy.
    assert ((Z.abs (a * b) <= 2 ^ 53)%Z).
    { rewrite Z.abs_mul. apply Z.le_trans with (2^26 * 2^26)%Z; [apply Z.mul_le_mono_nonneg; lia | discriminate]. }
    split; [reflexivity|split; [assumption|]]. symmetry. simpl. rewrite <- mult_IZR.
    now apply xround_dbl_id, int_dbl.
  - exists (PFlt (fmul m f g)). unfold num_mul, arith2. rewrite Hf, Hg. split; [reflexivity|split; [exact I|]].
    simpl xval at 1. rewrite fmul_x. now rewrite Hfx, Hgx.
  - exists (PFlt (fmul m f g)). unfold num_mul, arith2. rewrite Hf, Hg. split; [reflexivity|split; [exact I|]].
    simpl xval at 1. rewrite fmul_x. now rewrite Hfx, Hgx.
  - exists (PFlt (fmul m f g)). unfold num_mul, arith2. rewrite Hf, Hg. split; [reflexivity|split; [exact I|]].
    simpl xval at 1. rewrite fmul_x. now rewrite Hfx, Hgx.
Qed.

Lemma num_div_x m x y : small_num x -> small_num y -> xval y <> XFin 0 ->
  exists v, num_div m x y = Ok v /\ exact_num v /\ xval v = xdiv m (xval x) (xval y).
Proof.
  intros Hx Hy H0. destruct (small_double x Hx) as (f & Hf & Hfx), (small_double y Hy) as (g & Hg & Hgx).
  assert (Hg0 : xflt g <> XFin 0) by now rewrite Hgx.
  assert (Hgb : flt_eqb g PyNum.f0 = false).
  { rewrite flt_eqb_x. change (xflt PyNum.f0) with (XFin 0). unfold xeqb.
    destruct (xflt g); simpl; try reflexivity. destruct (Rcompare_spec r 0); try reflexivity. subst; now elim Hg0. }
  destruct x as [a|f0], y as [b|g0].
  - exists (PFlt (fdiv m (fl a 0) (fl b 0))). cbn [small_num] in Hx, Hy.
    assert (Hb0 : (b =? 0)%Z = false) by (apply Z.eqb_neq; intros ->; now apply H0).
    unfold num_div. rewrite Hb0.
    assert (E1 : (Z.abs a <? 2 ^ 53)%Z = true) by (apply Z.ltb_lt; change (2^53)%Z with (2^26 * 2^27)%Z; lia).
    assert (E2 : (Z.abs b <? 2 ^ 53)%Z = true) by (apply Z.ltb_lt; change (2^53)%Z with (2^26 * 2^27)%Z; lia).
    rewrite E1, E2. simpl andb. split; [reflexivity|split; [exact I|]].
    apply Z.ltb_lt in E1, E2.
    destruct (xval_fl_small a) as [Fa Va]; [lia|]. destruct (xval_fl_small b) as [Fb Vb]; [lia|].
    apply is_finite_x in Fa, Fb. rewrite Va in Fa. rewrite Vb in Fb.
    cbn [xval]. rewrite fdiv_x; rewrite Fb; [now rewrite Fa|]. intro E; now apply H0.
  - exists (PFlt (fdiv m f g)). unfold num_div. rewrite Hf, Hg. simpl rbind. rewrite Hgb. split; [reflexivity|split; [exact I|]].
    simpl xval at 1. rewrite fdiv_x by assumption. now rewrite Hfx, Hgx.
  - exists (PFlt (fdiv m f g)). unfold num_div. rewrite Hf, Hg. simpl rbind. rewrite Hgb. split; [reflexivity|split; [exact I|]].
    simpl xval at 1. rewrite fdiv_x by assumption. now rewrite Hfx, Hgx.
  - exists (PFlt (fdiv m f g)). unfold num_div. rewrite Hf, Hg. simpl rbind. rewrite Hgb. split; [reflexivity|split; [exact I|]].
    simpl xval at 1. rewrite fdiv_x by assumption. now rewrite Hfx, Hgx.
Qed.
