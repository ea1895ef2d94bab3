(** Rounding in the values of ISPAE. *)
From Coq Require Import ZArith Reals List Bool Arith Lia Lra Psatz.
From Flocq Require Import Core IEEE754.BinarySingleNaN.
From Flocq.Prop Require Import Plus_error Relative.
From Verif Require Models.
From Verif Require Import Base PyNum Kernel Spec Construct XReal XArith KernelProofs KernelMore KernelAlg ExprProofs RecogFlProofs Solvers SolversProofs SpecModels IspaeProofs NeumFlProofs NeumFlCase IspaeFl SpecIspaeFl.
Import ListNotations.
Open Scope R_scope.

Lemma fmul_err (a c : flt) : is_finite a = true -> is_finite c = true -> Rabs (B2R a * B2R c) <= bpow radix2 1010 ->
  is_finite (fmul mode_NE a c) = true /\ Rabs (B2R (fmul mode_NE a c) - B2R a * B2R c) <= bpow radix2 (-53) * Rabs (B2R a * B2R c) + bpow radix2 (-1075).
Proof.
  intros Fa Fc H. set (z := B2R a * B2R c) in *.
  destruct (error_N_FLT radix2 (-1074) 53 ltac:(lia) (fun z => negb (Z.even z)) z) as (e & h & He & Hh & _ & Hz).
  assert (Hz' : rnd mode_NE z = z * (1 + e) + h) by exact Hz.
  change (/ 2) with (bpow radix2 (-1)) in He, Hh. rewrite <- bpow_plus in He, Hh.
  assert (U : Rabs e <= bpow radix2 (-53)) by (eapply Rle_trans; [exact He|]; apply bpow_le; lia).
  assert (V : Rabs h <= bpow radix2 (-1075)) by (eapply Rle_trans; [exact Hh|]; apply bpow_le; lia).
  assert (E1 : Rabs e <= 1) by (eapply Rle_trans; [exact U|]; change 1 with (bpow radix2 0); apply bpow_le; lia).
  assert (XF : xflt (fmul mode_NE a c) = XFin (z * (1 + e) + h)).
  { rewrite fmul_x, (proj1 (is_finite_x a) Fa), (proj1 (is_finite_x c) Fc). cbn [xmul]. fold z. unfold xround. rewrite Hz', Rlt_bool_true; [reflexivity|].
    eapply Rle_lt_trans; [apply Rabs_triang|]. apply Rle_lt_trans with (bpow radix2 1011 + bpow radix2 1011).
    - apply Rplus_le_compat.
      + rewrite Rabs_mult. change 1011%Z with (1010 + 1)%Z. rewrite bpow_plus. apply Rmult_le_compat; [apply Rabs_pos | apply Rabs_pos | exact H|].
        eapply Rle_trans; [apply Rabs_triang|]. rewrite Rabs_R1. change (bpow radix2 1) with 2. lra.
      + eapply Rle_trans; [exact V|]. apply bpow_le. lia.
    - replace (bpow radix2 1011 + bpow radix2 1011) with (bpow radix2 1012) by (change 1012%Z with (1011 + 1)%Z; rewrite bpow_plus; change (bpow radix2 1) with 2; ring).
      apply bpow_lt. lia. }
  assert (FF : is_finite (fmul mode_NE a c) = true) by (destruct (fmul mode_NE a c) as [|[|]| |]; try reflexivity; discriminate XF).
  split; [exact FF|]. rewrite (proj1 (is_finite_x _) FF) in XF. injection XF as XF. rewrite XF. replace (z * (1 + e) + h - z) with (e * z + h) by ring.
  eapply Rle_trans; [apply Rabs_triang|]. apply Rplus_le_compat; [|exact V]. rewrite Rabs_mult. apply Rmult_le_compat_r; [apply Rabs_pos | exact U].
Qed.

Fixpoint peval (c : list R) (x : R) : R := match c with [] => 0 | a :: c' => a + peval c' x * x end.
Lemma peval_combination c x : forall d, combination (fun d x => x ^ d) d c x = x ^ d * peval c x.
Proof. induction c as [|a c IH]; intro d; cbn [combination peval]; [ring|]. rewrite IH. cbn [pow]. ring. Qed.
Lemma polynomial_peval beta x : polynomial beta x = peval (reals (f0 :: beta)) x.
Proof. unfold polynomial. rewrite peval_combination. cbn [reals map peval pow]. change (B2R f0) with 0. unfold reals. ring. Qed.
Lemma bulk_pos M c : 0 <= M -> 0 <= bulk M c.
Proof.
  intro H. induction c as [|a c IH]; cbn [bulk]; [lra|]. assert (P := Rabs_pos a). assert (Q := bpow_gt_0 radix2 (-1000)). assert (0 <= M * bulk M c) by (apply Rmult_le_pos; assumption). lra.
Qed.
Lemma peval_bulk M c x : Rabs x <= M -> Rabs (peval c x) <= bulk M c.
Proof.
  intro H. assert (M0 : 0 <= M) by (eapply Rle_trans; [apply Rabs_pos | exact H]).
  induction c as [|a c IH]; cbn [bulk peval]; [rewrite Rabs_R0; lra|]. eapply Rle_trans; [apply Rabs_triang|]. rewrite Rabs_mult.
  assert (Rabs (peval c x) * Rabs x <= bulk M c * M) by (apply Rmult_le_compat; try apply Rabs_pos; assumption). assert (Q := bpow_gt_0 radix2 (-1000)). lra.
Qed.
(** One step: [u] the unit roundoff, [q] = 8 [u]. *)
Lemma step_bound (u w a A S M x h p P F k : R) : 0 < u -> u <= / 1024 -> 0 <= S -> 1 <= M -> Rabs a <= A -> 0 <= A -> Rabs x <= M -> w <= u * A -> 0 <= k ->
  k * (8 * u) <= 1 -> Rabs p <= S -> Rabs (h - p) <= k * (8 * u) * S -> Rabs (P - h * x) <= u * Rabs (h * x) + w -> Rabs (F - (a + P)) <= u * Rabs (a + P) ->
  Rabs (F - (a + p * x)) <= (k + 1) * (8 * u) * (A + M * S).
Proof.
  intros U0 U1 S0 M1 Ha A0 Hx Hw K0 K1 Hp Hh HP HF.
  assert (Hh2 : Rabs h <= 2 * S).
  { replace h with (h - p + p) by ring. eapply Rle_trans; [apply Rabs_triang|]. assert (k * (8 * u) * S <= 1 * S) by (apply Rmult_le_compat_r; assumption). lra. }
  assert (Z : Rabs (h * x) <= 2 * (M * S)).
  { rewrite Rabs_mult. assert (Rabs h * Rabs x <= (2 * S) * M) by (apply Rmult_le_compat; try apply Rabs_pos; assumption). lra. }
  set (T := M * S) in *. assert (T0 : 0 <= T) by (apply Rmult_le_pos; lra).
  assert (HP2 : Rabs (P - h * x) <= u * (2 * T) + u * A).
  { eapply Rle_trans; [exact HP|]. assert (u * Rabs (h * x) <= u * (2 * T)) by (apply Rmult_le_compat_l; lra). lra. }
  assert (UT : u * T <= T) by (rewrite <- (Rmult_1_l T) at 2; apply Rmult_le_compat_r; lra). assert (UA : u * A <= A) by (rewrite <- (Rmult_1_l A) at 2; apply Rmult_le_compat_r; lra).
  assert (HS : Rabs (a + P) <= 2 * A + 4 * T).
  { replace (a + P) with (a + ((P - h * x) + h * x)) by ring. eapply Rle_trans; [apply Rabs_triang|]. assert (G := Rabs_triang (P - h * x) (h * x)). lra. }
  assert (HF2 : Rabs (F - (a + P)) <= u * (2 * A + 4 * T)) by (eapply Rle_trans; [exact HF|]; apply Rmult_le_compat_l; lra).
  assert (HX : Rabs ((h - p) * x) <= k * (8 * u) * T).
  { rewrite Rabs_mult. apply Rle_trans with ((k * (8 * u) * S) * M); [apply Rmult_le_compat; try apply Rabs_pos; assumption|]. unfold T. right. ring. }
  replace (F - (a + p * x)) with ((F - (a + P)) + ((P - h * x) + (h - p) * x)) by ring.
  eapply Rle_trans; [apply Rabs_triang|]. assert (G := Rabs_triang (P - h * x) ((h - p) * x)).
  assert (KA : 0 <= k * (8 * u) * A) by (apply Rmult_le_pos; [apply Rmult_le_pos|]; lra).
  replace ((k + 1) * (8 * u) * (A + T)) with (k * (8 * u) * T + k * (8 * u) * A + 8 * (u * A) + 8 * (u * T)) by ring.
  assert (0 <= u * A) by (apply Rmult_le_pos; lra). assert (0 <= u * T) by (apply Rmult_le_pos; lra). lra.
Qed.

Lemma horner_err M (x : flt) : is_finite x = true -> 1 <= M -> Rabs (B2R x) <= M -> forall c, c <> [] -> Forall (fun f => is_finite f = true) c ->
  bulk M (reals c) <= bpow radix2 1000 -> INR (length c) <= bpow radix2 40 ->
  is_finite (horner c x) = true /\ Rabs (B2R (horner c x) - peval (reals c) (B2R x)) <= INR (length c) * bpow radix2 (-50) * bulk M (reals c).
Proof.
  intros Fx M1 Hx. assert (E8 : bpow radix2 (-50) = 8 * bpow radix2 (-53)) by (change (-50)%Z with (3 + -53)%Z; rewrite bpow_plus; change (bpow radix2 3) with 8; reflexivity).
  assert (U0 := bpow_gt_0 radix2 (-53)). assert (U1 : bpow radix2 (-53) <= / 1024) by (change (/ 1024) with (bpow radix2 (-10)); apply bpow_le; lia).
  assert (B1 : bpow radix2 1000 <= bpow radix2 1002) by (apply bpow_le; lia). assert (B2 : bpow radix2 1002 + bpow radix2 1002 = bpow radix2 1003) by (change 1003%Z with (1 + 1002)%Z; rewrite bpow_plus; change (bpow radix2 1) with 2; ring).
  assert (B3 : bpow radix2 1003 <= bpow radix2 1010) by (apply bpow_le; lia). assert (B4 : 4 * bpow radix2 1000 <= bpow radix2 1002) by (change 4 with (bpow radix2 2) at 1; rewrite <- bpow_plus; apply bpow_le; lia).
  assert (B5 : 1 <= bpow radix2 1000) by (change 1 with (bpow radix2 0); apply bpow_le; lia).
  assert (W1 : bpow radix2 (-1075) <= bpow radix2 (-53) * bpow radix2 (-1000)) by (rewrite <- bpow_plus; apply bpow_le; lia).
  assert (W0 : bpow radix2 (-1075) <= 1) by (change 1 with (bpow radix2 0); apply bpow_le; lia).
  assert (Q0 := bpow_gt_0 radix2 (-1000)).
  assert (One : forall (a y : flt) (h p k S : R), is_finite a = true -> is_finite y = true ->
    forall z : flt, is_finite z = true -> Rabs (B2R a) + bpow radix2 (-1000) + M * S <= bpow radix2 1000 -> 0 <= S -> 0 <= k -> k * (8 * bpow radix2 (-53)) <= 1 ->
    B2R y * B2R z = h * B2R x -> Rabs p <= S -> Rabs (h - p) <= k * (8 * bpow radix2 (-53)) * S ->
    is_finite (fadd mode_NE a (fmul mode_NE y z)) = true /\
    Rabs (B2R (fadd mode_NE a (fmul mode_NE y z)) - (B2R a + p * B2R x)) <= (k + 1) * (8 * bpow radix2 (-53)) * (Rabs (B2R a) + bpow radix2 (-1000) + M * S)).
  { intros a y h p k S Fa Fy z Fz HB S0 K0 K1 Eh Hp Hh. assert (A0 := Rabs_pos (B2R a)). assert (T0 : 0 <= M * S) by (apply Rmult_le_pos; lra).
    assert (Hh2 : Rabs h <= 2 * S).
    { replace h with (h - p + p) by ring. eapply Rle_trans; [apply Rabs_triang|]. assert (k * (8 * bpow radix2 (-53)) * S <= 1 * S) by (apply Rmult_le_compat_r; assumption). lra. }
    assert (HZ : Rabs (B2R y * B2R z) <= 2 * (M * S)).
    { rewrite Eh, Rabs_mult. assert (Rabs h * Rabs (B2R x) <= (2 * S) * M) by (apply Rmult_le_compat; try apply Rabs_pos; assumption). lra. }
    destruct (fmul_err y z Fy Fz) as [FP HP]; [lra|].
    assert (UZ : bpow radix2 (-53) * Rabs (B2R y * B2R z) <= 1 * (2 * (M * S))) by (apply Rmult_le_compat; try apply Rabs_pos; lra).
    assert (HP3 : Rabs (B2R (fmul mode_NE y z)) <= bpow radix2 1002 + bpow radix2 1002).
    { replace (B2R (fmul mode_NE y z)) with ((B2R (fmul mode_NE y z) - B2R y * B2R z) + B2R y * B2R z) by ring. eapply Rle_trans; [apply Rabs_triang|]. lra. }
    destruct (fadd_err a (fmul mode_NE y z) Fa FP) as [FF HF].
    { eapply Rle_trans; [apply Rabs_triang|]. apply Rle_trans with (bpow radix2 1003 + bpow radix2 1003); [lra|]. replace (bpow radix2 1003 + bpow radix2 1003) with (bpow radix2 1004) by (change 1004%Z with (1 + 1003)%Z; rewrite bpow_plus; change (bpow radix2 1) with 2; ring). apply bpow_le. lia. }
    split; [exact FF|]. rewrite Eh in HP.
    apply (step_bound (bpow radix2 (-53)) (bpow radix2 (-1075)) (B2R a) (Rabs (B2R a) + bpow radix2 (-1000)) S M (B2R x) h p (B2R (fmul mode_NE y z))); try assumption; try lra.
    assert (0 <= bpow radix2 (-53) * Rabs (B2R a)) by (apply Rmult_le_pos; lra). lra. }
  induction c as [|a c IH]; [congruence|]. intros _ Fc HB HL. inversion Fc as [|? ? Fa Fc']; subst.
  cbn [reals map bulk peval] in *. fold (reals c) in *. cbn [length] in *. rewrite S_INR in *.
  destruct c as [|a' c'].
  - cbn [horner reals map bulk peval length INR] in *.
    destruct (One a x 0 0 0 0 Fa Fx f0 eq_refl) as [H1 H2]; try lra; try (rewrite ?Rabs_R0, ?Rminus_0_r, ?Rabs_R0; lra).
    + change (B2R f0) with 0. ring.
    + split; [exact H1|]. rewrite E8. rewrite Rplus_0_l in *. replace (0 * B2R x) with 0 in * by ring. exact H2.
  - set (c := a' :: c') in *. assert (S0 := bulk_pos M (reals c) ltac:(lra)). assert (P0 := pos_INR (length c)).
    assert (HB' : bulk M (reals c) <= bpow radix2 1000).
    { assert (bulk M (reals c) <= M * bulk M (reals c)) by (rewrite <- (Rmult_1_l (bulk M (reals c))) at 1; apply Rmult_le_compat_r; assumption). assert (A0 := Rabs_pos (B2R a)). lra. }
    destruct (IH ltac:(discriminate) Fc' HB' ltac:(lra)) as [I1 I2]. rewrite E8 in *.
    assert (EH : horner (a :: c) x = fadd mode_NE a (fmul mode_NE (horner c x) x)) by reflexivity. rewrite EH.
    apply (One a (horner c x) (B2R (horner c x)) (peval (reals c) (B2R x)) (INR (length c)) (bulk M (reals c)) Fa I1 x Fx HB S0 P0); [| reflexivity | now apply peval_bulk | exact I2].
    apply Rle_trans with (bpow radix2 40 * bpow radix2 (-50)); [rewrite E8; apply Rmult_le_compat_r; lra|]. rewrite <- bpow_plus. change 1 with (bpow radix2 0). apply bpow_le. lia.
Qed.
Lemma arg_value (x : flt) : is_finite x = true -> is_finite (fadd mode_NE f0 (fmul mode_NE f1 x)) = true /\ B2R (fadd mode_NE f0 (fmul mode_NE f1 x)) = B2R x.
Proof.
  intro Fx. rewrite fmul_one. assert (X := fadd_x mode_NE f0 x). rewrite (proj1 (is_finite_x f0) eq_refl), (proj1 (is_finite_x x) Fx) in X. unfold xadd in X. change (B2R f0) with 0 in X. rewrite Rplus_0_l in X.
  assert (DX : is_dbl (XFin (B2R x))) by (rewrite <- (proj1 (is_finite_x x) Fx); apply flt_dbl). rewrite (xround_dbl_id mode_NE _ DX) in X.
  assert (FF : is_finite (fadd mode_NE f0 x) = true) by (destruct (fadd mode_NE f0 x) as [|[|]| |]; try reflexivity; discriminate X).
  split; [exact FF|]. rewrite (proj1 (is_finite_x _) FF) in X. injection X as X. exact X.
Qed.
Lemma poly_err M beta l u (x : flt) : tame M beta l u -> is_finite x = true -> B2R l <= B2R x <= B2R u ->
  is_finite (poly_fl beta x) = true /\ Rabs (B2R (poly_fl beta x) - polynomial beta (B2R x)) <= rounding M beta.
Proof.
  intros (Fb & _ & _ & _ & M1 & Hl & Hu & HB & HL) Fx Hx. destruct (arg_value x Fx) as [G1 G2].
  assert (HX : Rabs (B2R x) <= M).
  { assert (C1 := Rle_abs (B2R u)). assert (C2 := Rle_abs (- B2R l)). rewrite Rabs_Ropp in C2. apply Rabs_le. lra. }
  destruct (horner_err M _ G1 M1 ltac:(rewrite G2; exact HX) (f0 :: beta) ltac:(discriminate) ltac:(constructor; [reflexivity | exact Fb])) as [H1 H2]; [eapply Rle_trans; [exact HB|]; apply bpow_le; lia | exact HL|].
  split; [exact H1|]. rewrite polynomial_peval. rewrite G2 in H2. exact H2.
Qed.
