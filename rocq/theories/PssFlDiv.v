(** Proofs about PSS on doubles: the divisions. *)
From Coq Require Import ZArith Reals List Bool Arith Lia Lra Psatz.
From Flocq Require Import Core IEEE754.BinarySingleNaN.
From Verif Require Import Base PyNum Kernel Spec Expr XReal XArith KernelProofs ExprProofs KernelAlg KernelMore Witness Arrays Construct SpecArray ArrayProofs ArrayMore ArrayMat
  ConstructProofs ConstructMore SpecIso IsoProofs SpecSolvers NewtonProofs NewtonVerify GSProofs ArrIso PssFl SpecPssFl PssFlProofs.
Import ListNotations.
Open Scope R_scope.

Lemma xflt_fin f r : xflt f = XFin r -> is_finite f = true /\ B2R f = r.
Proof. intro E. assert (F : is_finite f = true) by (destruct f as [|[]| |]; cbn in E; try discriminate; reflexivity). split; [exact F|]. apply is_finite_x in F. congruence. Qed.
(** A member stays a member when it is rounded to a double. *)
Lemma dbl_x v : is_double v -> xval v = XNan \/ xval v = XNInf \/ xval v = XPInf \/ (exists r, xval v = XFin r /\ generic_format radix2 fexp r).
Proof.
  intros (f & ->). cbn [xval]. destruct (xflt f) as [| | |r] eqn:E; auto. right. right. right. exists r. split; [reflexivity|].
  apply (xflt_fin f) in E. destruct E as [F <-]. apply generic_format_B2R.
Qed.
Lemma member_rnd X r md : dbl X -> member X r -> member X (rnd md r).
Proof.
  intros [D1 D2]. rewrite !member_x. intros [L U]. split.
  - destruct (dbl_x _ D1) as [E|[E|[E|(a & E & G)]]]; rewrite E in *; try exact L. cbn in *. apply round_ge_generic; auto with typeclass_instances.
  - destruct (dbl_x _ D2) as [E|[E|[E|(a & E & G)]]]; rewrite E in *; try exact U. cbn in *. apply round_le_generic; auto with typeclass_instances.
Qed.
Lemma okm_rnd X r md : okm X r -> okm X (rnd md r).
Proof. intros (K & D & M). split; [exact K|]. split; [exact D|]. now apply member_rnd. Qed.
(** A real in a finite interval with doubles as ends is rounded without overflow. *)
Lemma rnd_in_finite X r md : dbl X -> finite_itv X -> member X r -> xround md r = XFin (rnd md r).
Proof.
  intros D [F1 F2] M. apply (member_rnd X r md D) in M. apply member_x in M. destruct (finite_x _ F1) as (a & Ea & _), (finite_x _ F2) as (c & Ec & _). rewrite Ea, Ec in M. cbn in M.
  unfold xround. rewrite Rlt_bool_true; [reflexivity|]. destruct D as [(f & Ef) (g & Eg)]. rewrite Ef in Ea. rewrite Eg in Ec. cbn [xval] in Ea, Ec. apply xflt_fin in Ea, Ec.
  destruct Ea as [_ <-], Ec as [_ <-]. assert (A := abs_B2R_lt_emax 53 1024 f). assert (B := abs_B2R_lt_emax 53 1024 g). apply Rabs_def2 in A, B. apply Rabs_def1; lra.
Qed.

(** ** kdiv *)
Lemma num_div_double md p q v : num_div md p q = Ok v -> is_double v.
Proof.
  unfold num_div. destruct p as [z1|f1], q as [z2|f2].
  - destruct (z2 =? 0)%Z; [discriminate|]. destruct (_ && _)%bool. { intro H. injection H as <-. eexists; reflexivity. }
    cbv zeta. destruct (is_finite (int_div_even z1 z2)); [|discriminate]. intro H. injection H as <-. eexists; reflexivity.
  - destruct (to_double (PInt z1)) as [u|]; [|discriminate]. cbn [rbind to_double]. destruct (flt_eqb f2 _); [discriminate|]. intro H. injection H as <-. eexists; reflexivity.
  - cbn [rbind]. destruct (to_double (PInt z2)) as [u|]; [|discriminate]. cbn [rbind to_double]. destruct (flt_eqb _ _); [discriminate|]. intro H. injection H as <-. eexists; reflexivity.
  - cbn [rbind to_double]. destruct (flt_eqb _ _); [discriminate|]. intro H. injection H as <-. eexists; reflexivity.
Qed.
Lemma div_fin md p q a c v : small_num p -> small_num q -> xval p = XFin a -> xval q = XFin c -> c <> 0 -> returns (div_ p q) md v -> is_double v /\ xval v = xround md (a / c).
Proof.
  intros sp sq Ep Eq Nc H. destruct (XArith.num_div_x md p q sp sq) as (v' & Hv & _ & Xv). { rewrite Eq. congruence. }
  unfold returns, outcome, div_, mprim in H. cbn [fst] in H. assert (v' = v) by congruence. subst v'. split.
  - exact (num_div_double md p q v H).
  - rewrite Xv, Ep, Eq. reflexivity.
Qed.
Lemma num_eq_0 v r : xval v = XFin r -> num_eq v pn0 = true <-> r = 0.
Proof.
  intro E. rewrite num_eq_x, E. change (xval pn0) with (XFin 0). unfold xeqb. cbn [xcmp]. destruct (Rcompare_spec r 0); split; intro; try reflexivity; try discriminate; lra.
Qed.
Lemma num_eq_0f v r : xval v = XFin r -> num_eq v pn0 = false -> r <> 0.
Proof. intros E H Z. apply (num_eq_0 v r E) in Z. congruence. Qed.
Lemma dbl_pinf : is_double pinf. Proof. eexists; reflexivity. Qed.
Lemma dbl_pninf : is_double pninf. Proof. eexists; reflexivity. Qed.
Ltac kr H := rewrite keeps_returns in H by (first [apply keeps_prim | apply keeps_single | apply keeps_ret]).
Lemma piece_below u m Z t a : is_double u -> xval u = xround m a -> xleb (XFin t) (xround m a) = true -> returns (single_interval pninf u false false) m Z -> okm Z t.
Proof.
  intros Du Eu L H. apply (single_okm pninf u m Z t dbl_pninf Du); [exact I | rewrite Eu | exact H]. destruct (xround m a) as [| | |r]; cbn in L |- *; try exact I; try discriminate. now apply xleb_fin in L.
Qed.
Lemma piece_above u m Z t a : is_double u -> xval u = xround m a -> xleb (xround m a) (XFin t) = true -> returns (single_interval u pinf false false) m Z -> okm Z t.
Proof.
  intros Du Eu L H. apply (single_okm u pinf m Z t Du dbl_pinf); [rewrite Eu | exact I | exact H]. destruct (xround m a) as [| | |r]; cbn in L |- *; try exact I; try discriminate. now apply xleb_fin in L.
Qed.
Lemma keeps_kdiv a d : keeps_mode (kdiv_fl a d).
Proof.
  unfold kdiv_fl, div_. repeat match goal with |- keeps_mode (if ?c then _ else _) => destruct c end;
    repeat (apply keeps_bind; [first [apply keeps_single | apply keeps_prim] | intro]); first [apply keeps_ret | apply keeps_raise].
Qed.
Lemma kdiv_holds a d md q v e x t : small_itv a -> small_itv d -> finite_itv d -> member a v -> member d e -> v = e * x -> xround md x = XFin t ->
  returns (kdiv_fl a d) md q -> holds_q q x t.
Proof.
  intros [sl sh] [tl th] [F1 F2] Ma Md -> Et H. destruct (finite_x _ F1) as (d1 & E1 & _), (finite_x _ F2) as (d2 & E2 & _).
  apply member_x in Ma, Md. rewrite E1, E2 in Md. cbn in Md. destruct Md as [L1 L2], Ma as [Ma1 Ma2]. unfold kdiv_fl in H.
  destruct (contains_num a pn0).
  { kr H. destruct H as (X & HX & H). apply returns_ret in H. subst q. exact (single_okm pninf pinf md X t dbl_pninf dbl_pinf I I HX). }
  assert (Mono : forall p q, p <= q -> xleb (xround md p) (xround md q) = true) by (intros; now apply xround_mono).
  destruct (num_lt (hi a) pn0) eqn:N.
  - rewrite num_lt_x in N. change (xval pn0) with (XFin 0) in N. destruct (xval (hi a)) as [| | |h] eqn:Eh; try (cbn in N; discriminate); try contradiction. apply xltb_fin in N. cbn in Ma2. clear Ma1 Mono.
    assert (Case1 : 0 < e -> x < 0 /\ 0 < d2 /\ xleb (XFin t) (xround md (h / d2)) = true).
    { intro Pe. assert (x < 0) by nra. split; [assumption|]. split; [lra|]. rewrite <- Et. apply xround_mono.
      apply (Rmult_le_reg_r d2); [lra|]. unfold Rdiv. rewrite Rmult_assoc, Rinv_l, Rmult_1_r by lra. nra. }
    assert (Case2 : e < 0 -> 0 < x /\ d1 < 0 /\ xleb (xround md (h / d1)) (XFin t) = true).
    { intro Ne. assert (0 < x) by nra. split; [assumption|]. split; [lra|]. rewrite <- Et. apply xround_mono.
      assert (d1 * x <= h) by nra. apply Ropp_le_cancel. apply (Rmult_le_reg_r (- d1)); [lra|]. replace (- (h / d1) * - d1) with h by (field; lra). nra. }
    assert (e <> 0) by nra.
    destruct (num_eq (lo d) pn0) eqn:Z1; [|destruct (num_eq (hi d) pn0) eqn:Z2].
    + apply (num_eq_0 _ _ E1) in Z1. subst d1. destruct Case1 as (_ & P & L); [lra|]. kr H. destruct H as (u & Hu & H). kr H. destruct H as (X & HX & H). apply returns_ret in H. subst q.
      destruct (div_fin md _ _ h d2 u sh th Eh E2 ltac:(lra) Hu) as [Du Eu]. exact (piece_below u md X t _ Du Eu L HX).
    + apply (num_eq_0 _ _ E2) in Z2. subst d2. destruct Case2 as (_ & P & L); [lra|]. kr H. destruct H as (u & Hu & H). kr H. destruct H as (X & HX & H). apply returns_ret in H. subst q.
      destruct (div_fin md _ _ h d1 u sh tl Eh E1 ltac:(lra) Hu) as [Du Eu]. exact (piece_above u md X t _ Du Eu L HX).
    + apply (num_eq_0f _ _ E1) in Z1. apply (num_eq_0f _ _ E2) in Z2. kr H. destruct H as (u1 & Hu1 & H). kr H. destruct H as (u2 & Hu2 & H). kr H. destruct H as (X1 & HX1 & H). kr H. destruct H as (X2 & HX2 & H).
      apply returns_ret in H. subst q. destruct (div_fin md _ _ h d1 u1 sh tl Eh E1 Z1 Hu1) as [D1 U1]. destruct (div_fin md _ _ h d2 u2 sh th Eh E2 Z2 Hu2) as [D2 U2].
      split; [exact (single_dbl _ _ _ _ dbl_pninf D2 HX1)|]. split; [exact (single_dbl _ _ _ _ D1 dbl_pinf HX2)|].
      destruct (Rlt_le_dec 0 e) as [Pe|Ne]; [left | right].
      * destruct (Case1 Pe) as (A & _ & L). split; [exact A | exact (piece_below u2 md X1 t _ D2 U2 L HX1)].
      * destruct (Case2 ltac:(lra)) as (A & _ & L). split; [exact A | exact (piece_above u1 md X2 t _ D1 U1 L HX2)].
  - destruct (num_lt pn0 (lo a)) eqn:N2; [clear N | discriminate].
    rewrite num_lt_x in N2. change (xval pn0) with (XFin 0) in N2. destruct (xval (lo a)) as [| | |h] eqn:Eh; try (cbn in N2; discriminate); try contradiction. apply xltb_fin in N2. cbn in Ma1. clear Ma2 Mono.
    assert (Case1 : e < 0 -> x < 0 /\ d1 < 0 /\ xleb (XFin t) (xround md (h / d1)) = true).
    { intro Ne. assert (x < 0) by nra. split; [assumption|]. split; [lra|]. rewrite <- Et. apply xround_mono.
      assert (h <= d1 * x) by nra. apply Ropp_le_cancel. apply (Rmult_le_reg_r (- d1)); [lra|]. replace (- (h / d1) * - d1) with h by (field; lra). nra. }
    assert (Case2 : 0 < e -> 0 < x /\ 0 < d2 /\ xleb (xround md (h / d2)) (XFin t) = true).
    { intro Pe. assert (0 < x) by nra. split; [assumption|]. split; [lra|]. rewrite <- Et. apply xround_mono.
      apply (Rmult_le_reg_r d2); [lra|]. unfold Rdiv. rewrite Rmult_assoc, Rinv_l, Rmult_1_r by lra. nra. }
    assert (e <> 0) by nra.
    destruct (num_eq (lo d) pn0) eqn:Z1; [|destruct (num_eq (hi d) pn0) eqn:Z2].
    + apply (num_eq_0 _ _ E1) in Z1. subst d1. destruct Case2 as (_ & P & L); [lra|]. kr H. destruct H as (u & Hu & H). kr H. destruct H as (X & HX & H). apply returns_ret in H. subst q.
      destruct (div_fin md _ _ h d2 u sl th Eh E2 ltac:(lra) Hu) as [Du Eu]. exact (piece_above u md X t _ Du Eu L HX).
    + apply (num_eq_0 _ _ E2) in Z2. subst d2. destruct Case1 as (_ & P & L); [lra|]. kr H. destruct H as (u & Hu & H). kr H. destruct H as (X & HX & H). apply returns_ret in H. subst q.
      destruct (div_fin md _ _ h d1 u sl tl Eh E1 ltac:(lra) Hu) as [Du Eu]. exact (piece_below u md X t _ Du Eu L HX).
    + apply (num_eq_0f _ _ E1) in Z1. apply (num_eq_0f _ _ E2) in Z2. kr H. destruct H as (u1 & Hu1 & H). kr H. destruct H as (u2 & Hu2 & H). kr H. destruct H as (X1 & HX1 & H). kr H. destruct H as (X2 & HX2 & H).
      apply returns_ret in H. subst q. destruct (div_fin md _ _ h d2 u1 sl th Eh E2 Z2 Hu1) as [D1 U1]. destruct (div_fin md _ _ h d1 u2 sl tl Eh E1 Z1 Hu2) as [D2 U2].
      split; [exact (single_dbl _ _ _ _ dbl_pninf D2 HX1)|]. split; [exact (single_dbl _ _ _ _ D1 dbl_pinf HX2)|].
      destruct (Rlt_le_dec 0 e) as [Pe|Ne]; [right | left].
      * destruct (Case2 Pe) as (A & _ & L). split; [exact A | exact (piece_above u1 md X2 t _ D1 U1 L HX2)].
      * destruct (Case1 ltac:(lra)) as (A & _ & L). split; [exact A | exact (piece_below u2 md X1 t _ D2 U2 L HX1)].
Qed.

(** ** The classical division *)
Lemma member_contains0 d : member d 0 -> contains_num d pn0 = true.
Proof.
  rewrite contains0_x, member_x. intros [A B]. apply andb_true_intro. split.
  - destruct (xval (lo d)); cbn [xle_R] in A; try contradiction; try reflexivity. now apply xleb_fin.
  - destruct (xval (hi d)); cbn [R_xle] in B; try contradiction; try reflexivity. now apply xleb_fin.
Qed.
Lemma div_ends a d md Z : returns (div_classical a d) md Z -> kd Z = Classical /\ dbl Z.
Proof.
  unfold div_classical, returns, outcome, mbind. intro H.
  destruct (with_rounding FE_DOWNWARD _ md) as [[i|?] m1]; [|discriminate]. destruct (with_rounding FE_UPWARD _ m1) as [[u|?] m2]; [|discriminate].
  cbn in H. injection H as <-. split; [reflexivity|]. split; eexists; reflexivity.
Qed.
Lemma div_okm a d md Z v e x : small_itv a -> kd a = Classical -> plain d -> member a v -> member d e -> v = e * x ->
  returns (py_op OpDiv (OItv a) (OItv d)) md Z -> okm Z x.
Proof.
  intros sa ka (kD & sd & F & O) Ma Md -> H. change (returns (itv_div a (OItv d)) md Z) in H.
  destruct (contains_num d pn0) eqn:C. { unfold returns, outcome in H. rewrite (div_raises a d md C) in H. discriminate. }
  assert (OO : ordered_or_nan d) by (right; exact (member_order _ _ _ (proj1 (proj1 (member_x _ _) Md)) (proj2 (proj1 (member_x _ _) Md)))).
  destruct (zero_ends d C OO) as [N1 N2]. destruct (finite_x _ (proj1 F)) as (d1 & E1 & _).
  assert (Ne : e <> 0).
  { intros ->. apply member_contains0 in Md. congruence. }
  assert (D : kd Z = Classical /\ dbl Z).
  { apply (div_ends a d md). unfold itv_div in H. rewrite C, ka, kD in H. exact H. }
  split; [exact (proj1 D)|]. split; [exact (proj2 D)|].
  destruct (div_encl a d md sa sd ka kD OO C) as (Z' & HZ & S). assert (Z' = Z) by exact (same_result _ _ _ _ HZ H). subst Z'.
  specialize (S (e * x) e Ma Md). replace (e * x / e) with x in S by (field; exact Ne). destruct S as [N|M]; [|exact M]. exfalso. revert N. apply nan_lo.
  destruct (gives_ends _ _ _ _ _ Z (div_gives a d md sa sd ka kD C OO) H) as [-> _]. unfold xdiv_lo. apply xmin4_nnan. rewrite E1. apply xdiv_nnan; [|rewrite E1 in N1; congruence].
  apply member_x in Ma. destruct Ma as [A _]. intro E. rewrite E in A. exact A.
Qed.
