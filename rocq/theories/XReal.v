(** Extended reals with NaN, as the semantic domain of Python numbers, and the
    characterisation of every rounded operation in it. *)
From Coq Require Import ZArith Reals List Bool Lia Lra Psatz.
From Coq Require Import Floats.SpecFloat.
From Flocq Require Import Core IEEE754.BinarySingleNaN.
From Verif Require Import Base PyNum Kernel Spec.
Open Scope R_scope.

Notation fexp := (SpecFloat.fexp 53 1024).
Notation rnd m := (round radix2 fexp (round_mode m)).
Global Instance vexp : Valid_exp fexp := fexp_correct 53 1024 prec53.
Global Instance mexp : Monotone_exp fexp := fexp_monotone 53 1024.

Inductive xreal := XNan | XNInf | XPInf | XFin (r : R).

Definition xflt (f : flt) : xreal :=
  match f with
  | B754_nan => XNan
  | B754_infinity true => XNInf
  | B754_infinity false => XPInf
  | _ => XFin (B2R f)
  end.
Definition xval (x : pynum) : xreal :=
  match x with PInt z => XFin (IZR z) | PFlt f => xflt f end.

Definition xle_R (x : xreal) (r : R) : Prop :=
  match x with XNan => False | XNInf => True | XPInf => False | XFin a => a <= r end.
Definition R_xle (r : R) (x : xreal) : Prop :=
  match x with XNan => False | XNInf => False | XPInf => True | XFin a => r <= a end.

Definition xcmp (x y : xreal) : option comparison :=
  match x, y with
  | XNan, _ | _, XNan => None
  | XNInf, XNInf | XPInf, XPInf => Some Eq
  | XNInf, _ => Some Lt
  | _, XNInf => Some Gt
  | XPInf, _ => Some Gt
  | _, XPInf => Some Lt
  | XFin a, XFin b => Some (Rcompare a b)
  end.
Definition xltb x y := match xcmp x y with Some Lt => true | _ => false end.
Definition xleb x y := match xcmp x y with Some Lt | Some Eq => true | _ => false end.
Definition xeqb x y := match xcmp x y with Some Eq => true | _ => false end.

Definition fmaxR : R := B2R fmaxfloat.

(** Rounding of a real to an extended double. *)
Definition xround (m : rmode) (x : R) : xreal :=
  if Rlt_bool (Rabs (rnd m x)) (bpow radix2 1024) then XFin (rnd m x)
  else if Rlt_bool x 0
       then (if overflow_to_inf m true then XNInf else XFin (- fmaxR))
       else (if overflow_to_inf m false then XPInf else XFin fmaxR).

Definition xopp (x : xreal) : xreal :=
  match x with XNan => XNan | XNInf => XPInf | XPInf => XNInf | XFin a => XFin (- a) end.
Definition xabs (x : xreal) : xreal :=
  match x with XNan => XNan | XNInf => XPInf | XPInf => XPInf | XFin a => XFin (Rabs a) end.

Definition xadd (m : rmode) (x y : xreal) : xreal :=
  match x, y with
  | XNan, _ | _, XNan => XNan
  | XNInf, XPInf | XPInf, XNInf => XNan
  | XNInf, _ | _, XNInf => XNInf
  | XPInf, _ | _, XPInf => XPInf
  | XFin a, XFin b => xround m (a + b)
  end.
Definition xsub m x y := xadd m x (xopp y).

(** infinity times a value of given sign *)
Definition xinf_times (pos : bool) (b : xreal) : xreal :=
  match b with
  | XNan => XNan
  | XPInf => if pos then XPInf else XNInf
  | XNInf => if pos then XNInf else XPInf
  | XFin b =>
      match Rcompare b 0 with
      | Eq => XNan
      | Gt => if pos then XPInf else XNInf
      | Lt => if pos then XNInf else XPInf
      end
  end.
Definition xmul (m : rmode) (x y : xreal) : xreal :=
  match x, y with
  | XNan, _ | _, XNan => XNan
  | XPInf, _ => xinf_times true y
  | XNInf, _ => xinf_times false y
  | _, XPInf => xinf_times true x
  | _, XNInf => xinf_times false x
  | XFin a, XFin b => xround m (a * b)
  end.
(** division by a value known to be non-zero *)
Definition xdiv (m : rmode) (x y : xreal) : xreal :=
  match x, y with
  | XNan, _ | _, XNan => XNan
  | (XPInf | XNInf), (XPInf | XNInf) => XNan
  | XPInf, _ => xinf_times true y
  | XNInf, _ => xinf_times false y
  | XFin _, (XPInf | XNInf) => XFin 0
  | XFin a, XFin b => xround m (a / b)
  end.

(** ** Bridges from the specification predicates *)
Lemma flt_le_R_x f r : flt_le_R f r <-> xle_R (xflt f) r.
Proof. destruct f as [s|[|]| |s m e H]; simpl; intuition; discriminate. Qed.
Lemma R_le_flt_x f r : R_le_flt r f <-> R_xle r (xflt f).
Proof. destruct f as [s|[|]| |s m e H]; simpl; intuition; discriminate. Qed.
Lemma num_le_R_x x r : num_le_R x r <-> xle_R (xval x) r.
Proof. destruct x; simpl; [tauto | apply flt_le_R_x]. Qed.
Lemma R_le_num_x x r : R_le_num r x <-> R_xle r (xval x).
Proof. destruct x; simpl; [tauto | apply R_le_flt_x]. Qed.
Lemma member_x X r : member X r <-> xle_R (xval (lo X)) r /\ R_xle r (xval (hi X)).
Proof. unfold member. rewrite num_le_R_x, R_le_num_x. tauto. Qed.
Lemma is_nan_x f : is_nan f = true <-> xflt f = XNan.
Proof. destruct f as [s|[|]| |s m e H]; simpl; split; intro; congruence. Qed.
Lemma is_nan_num_x x : is_nan_num x = true <-> xval x = XNan.
Proof. destruct x; simpl; [split; discriminate | apply is_nan_x]. Qed.
Lemma is_finite_x f : is_finite f = true <-> xflt f = XFin (B2R f).
Proof. destruct f as [s|[|]| |s m e H]; simpl; split; intro; congruence. Qed.
Lemma finite_num_x x : finite_num x <-> xval x = XFin (num_val x).
Proof. destruct x; simpl; [tauto | apply is_finite_x]. Qed.

(** ** Comparison *)
Lemma Bcompare_x f g : Bcompare f g = xcmp (xflt f) (xflt g).
Proof.
  destruct (is_finite f) eqn:Hf; destruct (is_finite g) eqn:Hg.
  - rewrite Bcompare_correct by assumption.
    apply is_finite_x in Hf; apply is_finite_x in Hg. rewrite Hf, Hg. reflexivity.
  - destruct f as [s|[|]| |s m e H]; try discriminate;
    destruct g as [s'|[|]| |s' m' e' H']; try discriminate; try reflexivity; simpl;
    try (destruct s; reflexivity).
  - destruct g as [s|[|]| |s m e H]; try discriminate;
    destruct f as [s'|[|]| |s' m' e' H']; try discriminate; try reflexivity; simpl;
    try (destruct s; reflexivity).
  - destruct f as [s|[|]| |s m e H]; try discriminate;
    destruct g as [s'|[|]| |s' m' e' H']; try discriminate; reflexivity.
Qed.

Lemma cmp_int_fin_x z s m e : cmp_int_fin z s m e =
  Rcompare (IZR z) (F2R (Float radix2 (cond_Zopp s (Zpos m)) e)).
Proof.
  unfold cmp_int_fin. set (v := cond_Zopp s (Zpos m)).
  destruct (Zle_bool 0 e) eqn:He.
  - apply Zle_bool_imp_le in He. unfold F2R; simpl Fnum; simpl Fexp.
    rewrite <- (IZR_Zpower radix2) by assumption.
    rewrite <- mult_IZR. symmetry. apply Rcompare_IZR.
  - apply Z.leb_gt in He. unfold F2R; simpl Fnum; simpl Fexp.
    rewrite <- Rcompare_IZR. rewrite mult_IZR.
    change (2 ^ (- e))%Z with (radix2 ^ (- e))%Z.
    rewrite (IZR_Zpower radix2) by lia.
    rewrite <- (Rcompare_mult_r (bpow radix2 e) (IZR z * _)) by apply bpow_gt_0.
    rewrite Rmult_assoc, <- bpow_plus, Z.add_opp_diag_l. simpl. now rewrite Rmult_1_r.
Qed.

Lemma Rcompare_Zcompare_0r a : Z.compare a 0 = Rcompare (IZR a) 0.
Proof. symmetry; apply Rcompare_IZR. Qed.

Lemma num_cmp_x x y : num_cmp x y = xcmp (xval x) (xval y).
Proof.
  destruct x as [a|f], y as [b|g]; simpl.
  - now rewrite Rcompare_IZR.
  - destruct g as [s|[|]| |s m e H]; simpl; try reflexivity.
    + now rewrite Rcompare_Zcompare_0r.
    + now rewrite cmp_int_fin_x.
  - destruct f as [s|[|]| |s m e H]; simpl; try reflexivity.
    + f_equal. symmetry. apply (Rcompare_IZR 0 b).
    + now rewrite cmp_int_fin_x, <- Rcompare_sym.
  - apply Bcompare_x.
Qed.

Lemma num_lt_x x y : num_lt x y = xltb (xval x) (xval y).
Proof. unfold num_lt, xltb. now rewrite num_cmp_x. Qed.
Lemma num_le_x x y : num_le x y = xleb (xval x) (xval y).
Proof. unfold num_le, xleb. now rewrite num_cmp_x. Qed.
Lemma num_eq_x x y : num_eq x y = xeqb (xval x) (xval y).
Proof. unfold num_eq, xeqb. now rewrite num_cmp_x. Qed.
Lemma flt_ltb_x x y : flt_ltb x y = xltb (xflt x) (xflt y).
Proof. unfold flt_ltb, Bltb, SFltb, xltb. rewrite <- Bcompare_x. reflexivity. Qed.
Lemma flt_leb_x x y : flt_leb x y = xleb (xflt x) (xflt y).
Proof. unfold flt_leb, Bleb, SFleb, xleb. rewrite <- Bcompare_x. reflexivity. Qed.
Lemma flt_eqb_x x y : flt_eqb x y = xeqb (xflt x) (xflt y).
Proof. unfold flt_eqb, Beqb, SFeqb, xeqb. rewrite <- Bcompare_x. reflexivity. Qed.

(** min and max on extended reals, with the "keep the first" convention *)
Definition xmin2 x y := if xltb y x then y else x.
Definition xmax2 x y := if xltb x y then y else x.
Definition xmin4 a b c d := xmin2 (xmin2 (xmin2 a b) c) d.
Definition xmax4 a b c d := xmax2 (xmax2 (xmax2 a b) c) d.
Lemma num_min2_x x y : xval (num_min2 x y) = xmin2 (xval x) (xval y).
Proof. unfold num_min2, xmin2. rewrite num_lt_x. now destruct xltb. Qed.
Lemma num_max2_x x y : xval (num_max2 x y) = xmax2 (xval x) (xval y).
Proof. unfold num_max2, xmax2. rewrite num_lt_x. now destruct xltb. Qed.
Lemma num_min4_x a b c d : xval (num_min4 a b c d) = xmin4 (xval a) (xval b) (xval c) (xval d).
Proof. unfold num_min4, xmin4. now rewrite !num_min2_x. Qed.
Lemma num_max4_x a b c d : xval (num_max4 a b c d) = xmax4 (xval a) (xval b) (xval c) (xval d).
Proof. unfold num_max4, xmax4. now rewrite !num_max2_x. Qed.
Lemma flt_min2_x x y : xflt (flt_min2 x y) = xmin2 (xflt x) (xflt y).
Proof. unfold flt_min2, xmin2. rewrite flt_ltb_x. now destruct xltb. Qed.
Lemma flt_max2_x x y : xflt (flt_max2 x y) = xmax2 (xflt x) (xflt y).
Proof. unfold flt_max2, xmax2. rewrite flt_ltb_x. now destruct xltb. Qed.

(** ** Facts about the format *)
Lemma fmaxR_val : fmaxR = (bpow radix2 1024 - bpow radix2 971)%R.
Proof.
  unfold fmaxR, fmaxfloat. rewrite <- SF2R_B2SF. unfold Bmax_float.
  rewrite B2SF_SF2B. cbn [SF2R cond_Zopp]. unfold F2R, Defs.Fnum, Defs.Fexp.
  match goal with |- IZR ?a * bpow _ ?b = _ => change (IZR 9007199254740991 * bpow radix2 971 = bpow radix2 1024 - bpow radix2 971) end.
  replace (IZR 9007199254740991) with (bpow radix2 53 - 1)%R.
  - rewrite Rmult_minus_distr_r, <- bpow_plus. change (53 + 971)%Z with 1024%Z. now rewrite Rmult_1_l.
  - rewrite <- (IZR_Zpower radix2) by lia. rewrite <- minus_IZR. reflexivity.
Qed.
Lemma fmaxR_lt : fmaxR < bpow radix2 1024.
Proof. rewrite fmaxR_val. generalize (bpow_gt_0 radix2 971). lra. Qed.
Lemma fmaxR_pos : 0 < fmaxR.
Proof.
  rewrite fmaxR_val. assert (bpow radix2 971 < bpow radix2 1024) by (apply bpow_lt; lia). lra.
Qed.
Lemma abs_flt_le_max (f : flt) : Rabs (B2R f) <= fmaxR.
Proof. rewrite fmaxR_val. exact (abs_B2R_le_emax_minus_prec 53 1024 _ f). Qed.
Lemma fmax_finite : is_finite fmaxfloat = true.
Proof. reflexivity. Qed.
Lemma gen_B2R (f : flt) : generic_format radix2 fexp (B2R f).
Proof. exact (generic_format_B2R 53 1024 f). Qed.
Lemma gen_max : generic_format radix2 fexp fmaxR.
Proof. apply gen_B2R. Qed.

(** A generic real below 2^1024 in magnitude is at most fmaxR. *)
Lemma generic_lt_max r : generic_format radix2 fexp r -> Rabs r < bpow radix2 1024 -> Rabs r <= fmaxR.
Proof.
  intros Hg Hlt. rewrite fmaxR_val.
  assert (Hm : generic_format radix2 fexp (bpow radix2 1024)).
  { apply generic_format_bpow. unfold SpecFloat.fexp, SpecFloat.emin. lia. }
  apply (generic_format_abs radix2) in Hg.
  assert (Hp := pred_ge_gt radix2 fexp _ _ Hg Hm Hlt).
  rewrite pred_bpow in Hp. exact Hp.
Qed.

Lemma xval_fl_small z : (Z.abs z <= 2 ^ 53)%Z -> is_finite (fl z 0) = true /\ B2R (fl z 0) = IZR z.
Proof.
  intro Hz. unfold fl.
  assert (H := binary_normalize_correct 53 1024 prec53 prec53_lt mode_NE z 0 false).
  cbv zeta in H.
  assert (HF : F2R (Float radix2 z 0) = IZR z) by (unfold F2R; simpl; ring).
  rewrite HF in H.
  assert (Hgen : generic_format radix2 fexp (IZR z)).
  { destruct (Z.eq_dec (Z.abs z) (2 ^ 53)) as [He|Hne].
    - assert (Hz' : z = (2^53)%Z \/ z = (- 2^53)%Z) by lia.
      assert (Hb : generic_format radix2 fexp (IZR (2 ^ 53))).
      { change (2 ^ 53)%Z with (radix2 ^ 53)%Z. rewrite IZR_Zpower by lia.
        apply generic_format_bpow. unfold SpecFloat.fexp, SpecFloat.emin. lia. }
      destruct Hz' as [-> | ->]; [exact Hb|].
      rewrite opp_IZR. now apply generic_format_opp.
    - replace (IZR z) with (F2R (Float radix2 z 0)) by exact HF.
      apply generic_format_F2R. intro Hz0.
      unfold cexp, SpecFloat.fexp, SpecFloat.emin.
      assert (Raux.mag radix2 (F2R (Float radix2 z 0)) <= 53)%Z.
      { apply mag_le_bpow.
        - rewrite HF. now apply IZR_neq.
        - rewrite HF, <- abs_IZR. rewrite <- (IZR_Zpower radix2) by lia. apply IZR_lt.
          change (radix2 ^ 53)%Z with (2 ^ 53)%Z. lia. }
      lia. }
  rewrite round_generic in H; auto with typeclass_instances.
  rewrite Rlt_bool_true in H.
  - destruct H as (H1 & H2 & _). split; assumption.
  - rewrite <- abs_IZR. rewrite <- (IZR_Zpower radix2) by lia. apply IZR_lt.
    apply Z.le_lt_trans with (1 := Hz). reflexivity.
Qed.

Definition exact_num (x : pynum) : Prop :=
  match x with PInt z => (Z.abs z <= 2 ^ 53)%Z | PFlt _ => True end.

Lemma to_double_exact x : exact_num x -> exists f, to_double x = Ok f /\ xflt f = xval x.
Proof.
  destruct x as [z|f]; simpl; intro H.
  - destruct (xval_fl_small z H) as [Hf Hv]. exists (fl z 0).
    unfold int_to_double. rewrite Hf. split; [reflexivity|].
    apply is_finite_x in Hf. rewrite Hf. now rewrite Hv.
  - exists f; auto.
Qed.

Lemma small_exact x : small_num x -> exact_num x.
Proof. destruct x as [z|f]; simpl; [|trivial]. intro H. assert (2^26 <= 2^53)%Z by (apply Z.pow_le_mono_r; lia). lia. Qed.

(** ** Rounded operations on floats *)

Lemma overflow_val (z : flt) m s :
  B2SF z = binary_overflow 53 1024 m s ->
  xflt z = if overflow_to_inf m s then (if s then XNInf else XPInf) else XFin (if s then - fmaxR else fmaxR).
Proof.
  unfold binary_overflow. destruct (overflow_to_inf m s).
  - destruct z as [s0|[|]| |s0 m0 e0 H0]; simpl; intro E; inversion E; reflexivity.
  - intro E. destruct z as [s0|[|]| |s0 m0 e0 H0]; simpl in E; try discriminate.
    inversion E; subst. simpl. f_equal.
    unfold fmaxR, fmaxfloat. rewrite <- (SF2R_B2SF _ _ Bmax_float). unfold Bmax_float. rewrite B2SF_SF2B. cbn [SF2R cond_Zopp].
    destruct s; [rewrite <- F2R_Zopp|]; reflexivity.
Qed.

Lemma xround_of_correct (z : flt) m x s :
  (if Rlt_bool (Rabs (rnd m x)) (bpow radix2 1024) then B2R z = rnd m x /\ is_finite z = true
   else B2SF z = binary_overflow 53 1024 m s /\ s = Rlt_bool x 0) ->
  xflt z = xround m x.
Proof.
  unfold xround. destruct Rlt_bool.
  - intros [H1 H2]. apply is_finite_x in H2. rewrite H2. now rewrite H1.
  - intros [H1 ->]. rewrite (overflow_val _ _ _ H1).
    destruct (Rlt_bool x 0); reflexivity.
Qed.

Lemma Bsign_lt0 (f : flt) : is_finite f = true -> B2R f <> 0 -> Bsign f = Rlt_bool (B2R f) 0.
Proof.
  destruct f as [s|[|]| |s m e H]; simpl; try discriminate; intros _ Hn.
  - now elim Hn.
  - destruct s; symmetry.
    + apply Rlt_bool_true. now apply F2R_lt_0.
    + apply Rlt_bool_false. now apply F2R_ge_0.
Qed.

Lemma Bsign_true_le (f : flt) : Bsign f = true -> B2R f <= 0.
Proof.
  destruct f as [s|[|]| |s m e H]; simpl; try (intros; lra). intros ->. now apply F2R_le_0.
Qed.
Lemma Bsign_false_ge (f : flt) : Bsign f = false -> 0 <= B2R f.
Proof.
  destruct f as [s|[|]| |s m e H]; simpl; try (intros; lra). intros ->. now apply F2R_ge_0.
Qed.

Lemma overflow_ne0 m x : Rlt_bool (Rabs (rnd m x)) (bpow radix2 1024) = false -> x <> 0.
Proof.
  intros H ->. rewrite round_0 in H by auto with typeclass_instances.
  rewrite Rabs_R0, Rlt_bool_true in H; [discriminate|apply bpow_gt_0].
Qed.

Lemma fadd_x m f g : xflt (fadd m f g) = xadd m (xflt f) (xflt g).
Proof.
  destruct (is_finite f) eqn:Hf; destruct (is_finite g) eqn:Hg.
  - generalize (proj1 (is_finite_x f) Hf) (proj1 (is_finite_x g) Hg). intros -> ->. simpl.
    apply xround_of_correct with (s := Bsign f).
    assert (H := Bplus_correct 53 1024 _ _ m f g Hf Hg).
    destruct (Rlt_bool (Rabs (rnd m (B2R f + B2R g))) (bpow radix2 1024)) eqn:Ho.
    + destruct H as (H1 & H2 & _). auto.
    + destruct H as [H1 H2]. split; [exact H1|].
      apply overflow_ne0 in Ho.
      destruct (Bsign f) eqn:Hs; symmetry in H2; symmetry.
      * apply Bsign_true_le in Hs. apply Bsign_true_le in H2. apply Rlt_bool_true. lra.
      * apply Bsign_false_ge in Hs. apply Bsign_false_ge in H2. apply Rlt_bool_false. lra.
  - destruct f as [s|[|]| |s m0 e H]; try discriminate;
    destruct g as [s'|[|]| |s' m' e' H']; try discriminate; try reflexivity.
  - destruct f as [s|[|]| |s m0 e H]; try discriminate;
    destruct g as [s'|[|]| |s' m' e' H']; try discriminate; try reflexivity.
  - destruct f as [s|[|]| |s m0 e H]; try discriminate;
    destruct g as [s'|[|]| |s' m' e' H']; try discriminate; try reflexivity.
Qed.

Lemma xflt_neg f : xflt (fneg f) = xopp (xflt f).
Proof.
  unfold fneg. destruct f as [s|[|]| |s m e H]; simpl; try reflexivity.
  - f_equal; ring.
  - f_equal. destruct s; simpl; unfold F2R; simpl; rewrite ?Ropp_mult_distr_l, <- ?opp_IZR; simpl; try reflexivity.
Qed.
Lemma xflt_abs f : xflt (fabs f) = xabs (xflt f).
Proof.
  unfold fabs. destruct f as [s|[|]| |s m e H]; simpl; try reflexivity.
  - now rewrite Rabs_R0.
  - f_equal. rewrite <- F2R_Zabs. destruct s; reflexivity.
Qed.
Lemma num_neg_x x : xval (num_neg x) = xopp (xval x).
Proof. destruct x; simpl; [now rewrite opp_IZR | apply xflt_neg]. Qed.

Lemma fsub_x m f g : xflt (fsub m f g) = xsub m (xflt f) (xflt g).
Proof.
  unfold xsub. rewrite <- xflt_neg, <- fadd_x. unfold fsub, fadd, fneg.
  destruct f as [s|[|]| |s m0 e H], g as [s'|[|]| |s' m' e' H']; reflexivity.
Qed.

Lemma xinf_times_fin s b : is_finite b = true -> B2R b <> 0 ->
  xflt (B754_infinity (xorb s (Bsign b))) = xinf_times (negb s) (xflt b).
Proof.
  intros Hf Hn. rewrite (proj1 (is_finite_x b) Hf). simpl xinf_times. rewrite (Bsign_lt0 _ Hf Hn).
  destruct (Rcompare_spec (B2R b) 0) as [Hl|He|Hg].
  - rewrite Rlt_bool_true by assumption. destruct s; reflexivity.
  - contradiction.
  - rewrite Rlt_bool_false by lra. destruct s; reflexivity.
Qed.

Lemma fmul_x m f g : xflt (fmul m f g) = xmul m (xflt f) (xflt g).
Proof.
  destruct (is_finite f) eqn:Hf; destruct (is_finite g) eqn:Hg.
  - generalize (proj1 (is_finite_x f) Hf) (proj1 (is_finite_x g) Hg). intros -> ->. simpl.
    apply xround_of_correct with (s := xorb (Bsign f) (Bsign g)).
    assert (H := Bmult_correct 53 1024 _ _ m f g). rewrite Hf, Hg in H. simpl andb in H.
    destruct (Rlt_bool (Rabs (rnd m (B2R f * B2R g))) (bpow radix2 1024)) eqn:Ho.
    + destruct H as (H1 & H2 & _). auto.
    + split; [exact H|].
      apply overflow_ne0 in Ho.
      assert (B2R f <> 0) by (intro E; rewrite E in Ho; lra).
      assert (B2R g <> 0) by (intro E; rewrite E in Ho; lra).
      rewrite !Bsign_lt0 by assumption.
      destruct (Rlt_bool_spec (B2R f) 0), (Rlt_bool_spec (B2R g) 0); symmetry; simpl;
        [apply Rlt_bool_false | apply Rlt_bool_true | apply Rlt_bool_true | apply Rlt_bool_false]; nra.
  - destruct f as [s|[|]| |s m0 e H]; try discriminate;
    destruct g as [s'|[|]| |s' m' e' H']; try discriminate; try reflexivity;
      simpl; try (rewrite Rcompare_Eq by reflexivity; reflexivity);
      destruct s; simpl;
        (rewrite Rcompare_Lt by (now apply F2R_lt_0)) || (rewrite Rcompare_Gt by (now apply F2R_gt_0)); reflexivity.
  - destruct f as [s|[|]| |s m0 e H]; try discriminate;
    destruct g as [s'|[|]| |s' m' e' H']; try discriminate; try reflexivity;
      simpl; try (rewrite Rcompare_Eq by reflexivity; reflexivity);
      destruct s'; simpl;
        (rewrite Rcompare_Lt by (now apply F2R_lt_0)) || (rewrite Rcompare_Gt by (now apply F2R_gt_0)); reflexivity.
  - destruct f as [s|[|]| |s m0 e H]; try discriminate;
    destruct g as [s'|[|]| |s' m' e' H']; try discriminate; try reflexivity.
Qed.

Lemma fdiv_x m f g : xflt g <> XFin 0 -> xflt (fdiv m f g) = xdiv m (xflt f) (xflt g).
Proof.
  intro Hg0.
  destruct (is_finite f) eqn:Hf; destruct (is_finite g) eqn:Hg.
  - assert (Hgn : B2R g <> 0).
    { intro E. apply Hg0. apply is_finite_x in Hg. now rewrite Hg, E. }
    generalize (proj1 (is_finite_x f) Hf) (proj1 (is_finite_x g) Hg). intros -> ->. simpl.
    apply xround_of_correct with (s := xorb (Bsign f) (Bsign g)).
    assert (H := Bdiv_correct 53 1024 _ _ m f g Hgn). rewrite Hf in H.
    destruct (Rlt_bool (Rabs (rnd m (B2R f / B2R g))) (bpow radix2 1024)) eqn:Ho.
    + destruct H as (H1 & H2 & _). auto.
    + split; [exact H|].
      apply overflow_ne0 in Ho.
      assert (B2R f <> 0) by (intro E; rewrite E in Ho; unfold Rdiv in Ho; rewrite Rmult_0_l in Ho; lra).
      rewrite !Bsign_lt0 by assumption. unfold Rdiv.
      destruct (Rlt_bool_spec (B2R f) 0), (Rlt_bool_spec (B2R g) 0); symmetry; simpl;
        [apply Rlt_bool_false | apply Rlt_bool_true | apply Rlt_bool_true | apply Rlt_bool_false];
        try (assert (/ B2R g < 0) by (apply Rinv_lt_0_compat; lra));
        try (assert (0 < / B2R g) by (apply Rinv_0_lt_compat; lra)); nra.
  - destruct f as [s|[|]| |s m0 e H]; try discriminate;
    destruct g as [s'|[|]| |s' m' e' H']; try discriminate; reflexivity.
  - destruct f as [s|[|]| |s m0 e H]; try discriminate;
    destruct g as [s'|[|]| |s' m' e' H']; try discriminate; try (now elim Hg0); try reflexivity;
      simpl; destruct s'; simpl;
        (rewrite Rcompare_Lt by (now apply F2R_lt_0)) || (rewrite Rcompare_Gt by (now apply F2R_gt_0)); reflexivity.
  - destruct f as [s|[|]| |s m0 e H]; try discriminate;
    destruct g as [s'|[|]| |s' m' e' H']; try discriminate; try reflexivity.
Qed.
