(** How accurate the smoothed weights of WILS are. *)
From Coq Require Import ZArith Reals List Bool Arith Lia Lra.
From Flocq Require Import Core IEEE754.BinarySingleNaN.
From Verif Require Import Base PyNum XReal XArith ConstructProofs RecogFlCor RecogOptAccuracy WilsFl SpecWilsFl WilsFlMain WilsFlFit.
Import ListNotations.
Open Scope R_scope.

Notation u2 := (bpow radix2 (-52)).
(** A product of at least 2^-1000 has a relative error of at most 2^-52. *)
Lemma rel_rnd z : bpow radix2 (-1000) <= z -> z * (1 - u2) <= rnd mode_NE z <= z * (1 + u2).
Proof.
  intro H. assert (E := nearest_err z). assert (P := bpow_gt_0 radix2 (-1000)). rewrite (Rabs_pos_eq z) in E by lra.
  assert (T : bpow radix2 (-1075) <= bpow radix2 (-53) * z).
  { apply Rle_trans with (bpow radix2 (-53) * bpow radix2 (-1000)); [rewrite <- bpow_plus; apply bpow_le; lia|]. apply Rmult_le_compat_l; [apply bpow_ge_0 | exact H]. }
  assert (U : u2 = 2 * bpow radix2 (-53)) by (change (-52)%Z with (1 + -53)%Z; rewrite bpow_plus; reflexivity). apply Rabs_le_inv in E. rewrite U. lra.
Qed.
Lemma is_rnd (f : flt) z : is_finite f = true -> xflt f = xround mode_NE z -> B2R f = rnd mode_NE z.
Proof. intros F E. rewrite (fin_x _ F) in E. now apply fin_eq in E. Qed.
Lemma mul_val f p : is_finite f = true -> is_finite p = true -> is_finite (fmul mode_NE f p) = true -> B2R (fmul mode_NE f p) = rnd mode_NE (B2R f * B2R p).
Proof. intros Ff Fp F. apply is_rnd; [exact F|]. rewrite fmul_x, (fin_x f Ff), (fin_x p Fp). reflexivity. Qed.
Lemma add_val f p : is_finite f = true -> is_finite p = true -> is_finite (fadd mode_NE f p) = true -> B2R (fadd mode_NE f p) = rnd mode_NE (B2R f + B2R p).
Proof. intros Ff Fp F. apply is_rnd; [exact F|]. rewrite fadd_x, (fin_x f Ff), (fin_x p Fp). reflexivity. Qed.
Lemma finite_mul f p : is_finite f = true -> is_finite p = true -> 0 <= B2R f * B2R p <= bpow radix2 301 -> is_finite (fmul mode_NE f p) = true.
Proof. intros Ff Fp H. exact (proj1 (mul_in f p 0 (bpow radix2 301) Ff Fp zero_dbl (pow_dbl 301 ltac:(lia)) H)). Qed.
Lemma u2_small : 0 < u2 <= / 1000000.
Proof. split; [apply bpow_gt_0|]. apply Rle_trans with (bpow radix2 (-20)); [apply bpow_le; lia|]. cbn. lra. Qed.
(** Error factors one after the other. *)
Lemma chain (k : R) z v r : 0 <= k <= 4 -> 0 <= z -> z * (1 - k * u2) <= v <= z * (1 + k * u2) -> v * (1 - u2) <= r <= v * (1 + u2) ->
  z * (1 - (k + 5 / 4) * u2) <= r <= z * (1 + (k + 5 / 4) * u2).
Proof.
  intros K Z [V1 V2] [R1 R2]. destruct u2_small as [U0 U1]. set (t := u2) in *. clearbody t. assert (S : k * t * t <= t / 4) by nra. assert (S0 : 0 <= k * t * t) by (apply Rmult_le_pos; nra). split.
  - apply Rle_trans with (2 := R1). apply Rle_trans with (z * (1 - k * t) * (1 - t)); [|apply Rmult_le_compat_r; lra].
    replace (z * (1 - k * t) * (1 - t)) with (z * (1 - k * t - t + k * t * t)) by ring. apply Rmult_le_compat_l; lra.
  - apply Rle_trans with (1 := R2). apply Rle_trans with (z * (1 + k * t) * (1 + t)); [apply Rmult_le_compat_r; lra|].
    replace (z * (1 + k * t) * (1 + t)) with (z * (1 + k * t + t + k * t * t)) by ring. apply Rmult_le_compat_l; lra.
Qed.
Lemma times k z v c : 0 <= c -> z * (1 - k * u2) <= v <= z * (1 + k * u2) -> c * z * (1 - k * u2) <= c * v <= c * z * (1 + k * u2).
Proof. intros C [H1 H2]. rewrite !Rmult_assoc. split; apply Rmult_le_compat_l; auto. Qed.
Lemma near_of z b k : 0 <= k <= 8 -> 0 <= z -> is_finite b = true -> z * (1 - k * u2) <= B2R b <= z * (1 + k * u2) -> nearly z b.
Proof.
  intros K Z F [H1 H2]. split; [exact F|]. assert (E : bpow radix2 (-49) = 8 * u2) by (change (-49)%Z with (3 + -52)%Z; rewrite bpow_plus; reflexivity). rewrite E. destruct u2_small as [U0 _].
  assert (z * (k * u2) <= 8 * u2 * z) by (rewrite (Rmult_comm z); apply Rmult_le_compat_r; [exact Z | nra]). apply Rabs_le. split; nra.
Qed.
Section Acc.
Variables (alpha beta : flt).
Hypothesis Fa : is_finite alpha = true.
Hypothesis Ra : 0 <= B2R alpha < 1.
Hypothesis Fb : is_finite beta = true.
Hypothesis Rb : bpow radix2 (-100) <= B2R beta <= 1.
Notation c := (fsub mode_NE f1 alpha).
Notation C := (1 - B2R alpha).
Lemma comp_near : C * (1 - 1 * u2) <= B2R c <= C * (1 + 1 * u2).
Proof.
  destruct (complement alpha Fa Ra) as (F & _ & _). assert (L := below_one alpha Fa (proj2 Ra)).
  assert (X : xflt c = xround mode_NE C). { rewrite fsub_x, (fin_x alpha Fa), (fin_x f1 eq_refl), one_val. reflexivity. }
  rewrite (is_rnd _ _ F X), !Rmult_1_l. apply rel_rnd. assert (bpow radix2 (-1000) <= bpow radix2 (-53)) by (apply bpow_le; lia). lra.
Qed.
Lemma first_near a : is_finite a = true -> bpow radix2 (-300) <= B2R a <= bpow radix2 300 -> nearly (B2R beta * B2R a * C) (fmul mode_NE (fmul mode_NE beta a) c).
Proof.
  intros F B. destruct (complement alpha Fa Ra) as (Fc & Bc & _). assert (L := below_one alpha Fa (proj2 Ra)). assert (N := comp_near).
  assert (P1 := bpow_gt_0 radix2 (-100)). assert (P2 := bpow_gt_0 radix2 (-300)). assert (P3 := bpow_gt_0 radix2 300). assert (P4 := bpow_gt_0 radix2 (-53)). destruct u2_small as [U0 U1].
  assert (BIG : bpow radix2 301 = 2 * bpow radix2 300) by (change 301%Z with (1 + 300)%Z; rewrite bpow_plus; reflexivity).
  assert (LOW : bpow radix2 (-400) <= B2R beta * B2R a) by (change (-400)%Z with (-100 + -300)%Z; rewrite bpow_plus; apply Rmult_le_compat; lra).
  assert (P5 := bpow_gt_0 radix2 (-400)).
  assert (UP : B2R beta * B2R a <= bpow radix2 300) by nra. assert (F1 : is_finite (fmul mode_NE beta a) = true) by (apply finite_mul; auto; lra).
  assert (V1 := mul_val beta a Fb F F1). assert (R1 := rel_rnd (B2R beta * B2R a) ltac:(assert (bpow radix2 (-1000) <= bpow radix2 (-400)) by (apply bpow_le; lia); lra)). rewrite <- V1 in R1.
  set (s := B2R (fmul mode_NE beta a)) in *. set (z := B2R beta * B2R a) in *.
  assert (S1 : bpow radix2 (-401) <= s). { assert (bpow radix2 (-400) = 2 * bpow radix2 (-401)) by (change (-400)%Z with (1 + -401)%Z; rewrite bpow_plus; reflexivity). nra. }
  assert (P6 := bpow_gt_0 radix2 (-401)). assert (S2 : s <= bpow radix2 301) by nra.
  assert (LOW2 : bpow radix2 (-1000) <= s * B2R c). { apply Rle_trans with (bpow radix2 (-401) * bpow radix2 (-53)); [rewrite <- bpow_plus; apply bpow_le; lia | apply Rmult_le_compat; lra]. }
  assert (F2 : is_finite (fmul mode_NE (fmul mode_NE beta a) c) = true). { apply finite_mul; auto. fold s. split; [apply Rmult_le_pos; lra | nra]. }
  assert (V2 := mul_val _ _ F1 Fc F2). fold s in V2. assert (R2 := rel_rnd _ LOW2). rewrite <- V2 in R2.
  apply (near_of _ _ (1 + 5 / 4 + 5 / 4)); [lra | apply Rmult_le_pos; lra | exact F2|].
  assert (Q : z * C * (1 - (1 + 5 / 4) * u2) <= s * B2R c <= z * C * (1 + (1 + 5 / 4) * u2)).
  { apply (chain 1 (z * C) (z * B2R c)); [lra | apply Rmult_le_pos; lra | apply (times 1 C); [lra | exact N]|].
    destruct R1 as [A1 A2]. split; [replace (z * B2R c * (1 - u2)) with (z * (1 - u2) * B2R c) by ring | replace (z * B2R c * (1 + u2)) with (z * (1 + u2) * B2R c) by ring]; apply Rmult_le_compat_r; lra. }
  apply (chain (1 + 5 / 4) (z * C) (s * B2R c)); [lra | apply Rmult_le_pos; lra | exact Q | exact R2].
Qed.
Lemma step_near p a : is_finite p = true -> bpow radix2 (-453) <= B2R p <= bpow radix2 300 -> is_finite a = true -> bpow radix2 (-300) <= B2R a <= bpow radix2 300 ->
  nearly (B2R beta * (B2R a * C + B2R alpha * B2R p)) (smooth_step alpha beta p a).
Proof.
  intros Fp Bp F B. destruct (complement alpha Fa Ra) as (Fc & Bc & _). assert (L := below_one alpha Fa (proj2 Ra)). assert (N := comp_near).
  destruct (step_in alpha beta Fa Ra Fb Rb p a Fp Bp F B) as [FO _]. unfold smooth_step in *.
  assert (P1 := bpow_gt_0 radix2 (-100)). assert (P2 := bpow_gt_0 radix2 (-300)). assert (P3 := bpow_gt_0 radix2 300). assert (P4 := bpow_gt_0 radix2 (-53)). assert (P5 := bpow_gt_0 radix2 (-453)). destruct u2_small as [U0 U1].
  assert (BIG : bpow radix2 301 = 2 * bpow radix2 300) by (change 301%Z with (1 + 300)%Z; rewrite bpow_plus; reflexivity).
  assert (LW : bpow radix2 (-353) <= B2R a * B2R c) by (change (-353)%Z with (-300 + -53)%Z; rewrite bpow_plus; apply Rmult_le_compat; lra). assert (P6 := bpow_gt_0 radix2 (-353)).
  assert (F1 : is_finite (fmul mode_NE a c) = true) by (apply finite_mul; auto; nra). assert (V1 := mul_val a c F Fc F1).
  assert (K1 : bpow radix2 (-1000) <= bpow radix2 (-353)) by (apply bpow_le; lia). assert (R1 := rel_rnd _ (Rle_trans _ _ _ K1 LW)). rewrite <- V1 in R1. set (s := B2R (fmul mode_NE a c)) in *.
  assert (Q1 : B2R a * C * (1 - (1 + 5 / 4) * u2) <= s <= B2R a * C * (1 + (1 + 5 / 4) * u2)).
  { apply (chain 1 (B2R a * C) (B2R a * B2R c)); [lra | apply Rmult_le_pos; lra | apply (times 1 C); [lra | exact N] | exact R1]. }
  assert (F2 : is_finite (fmul mode_NE alpha p) = true) by (apply finite_mul; auto; split; [apply Rmult_le_pos; lra | nra]). assert (V2 := mul_val alpha p Fa Fp F2).
  assert (E2 := nearest_err (B2R alpha * B2R p)). rewrite <- V2 in E2. assert (AP : 0 <= B2R alpha * B2R p) by (apply Rmult_le_pos; lra). rewrite (Rabs_pos_eq _ AP) in E2. set (q := B2R (fmul mode_NE alpha p)) in *. set (ap := B2R alpha * B2R p) in *.
  assert (Z1 : bpow radix2 (-353) <= B2R a * C) by (change (-353)%Z with (-300 + -53)%Z; rewrite bpow_plus; apply Rmult_le_compat; lra).
  assert (T : bpow radix2 (-1075) <= u2 / 4 * (B2R a * C)).
  { apply Rle_trans with (bpow radix2 (-54) * bpow radix2 (-353)); [rewrite <- bpow_plus; apply bpow_le; lia|].
    assert (u2 = 4 * bpow radix2 (-54)) by (change (-52)%Z with (2 + -54)%Z; rewrite bpow_plus; reflexivity). assert (0 < bpow radix2 (-54)) by apply bpow_gt_0. apply Rmult_le_compat; lra. }
  assert (U53 : u2 = 2 * bpow radix2 (-53)) by (change (-52)%Z with (1 + -53)%Z; rewrite bpow_plus; reflexivity). apply Rabs_le_inv in E2.
  set (za := B2R a * C) in *.
  assert (Q2 : (za + ap) * (1 - 5 / 2 * u2) <= s + q <= (za + ap) * (1 + 5 / 2 * u2)).
  { assert (0 <= ap * u2) by (apply Rmult_le_pos; lra). assert (0 <= za * u2) by (apply Rmult_le_pos; lra). rewrite U53 in *. split; lra. }
  assert (LS : bpow radix2 (-354) <= s + q).
  { assert (bpow radix2 (-353) = 2 * bpow radix2 (-354)) by (change (-353)%Z with (1 + -354)%Z; rewrite bpow_plus; reflexivity). assert (za * (1 / 2) <= (za + ap) * (1 - 5 / 2 * u2)) by nra. lra. }
  assert (P7 := bpow_gt_0 radix2 (-354)).
  assert (F3 : is_finite (fadd mode_NE (fmul mode_NE a c) (fmul mode_NE alpha p)) = true).
  { destruct (is_finite (fadd mode_NE (fmul mode_NE a c) (fmul mode_NE alpha p))) eqn:Q; [reflexivity|]. exfalso.
    destruct (fadd mode_NE (fmul mode_NE a c) (fmul mode_NE alpha p)) as [sg|sg| |sg m e Hb]; try discriminate Q; destruct beta as [sb|sb| |sb mb eb Hb']; discriminate FO. }
  assert (V3 := add_val _ _ F1 F2 F3). fold s q in V3. assert (K2 : bpow radix2 (-1000) <= bpow radix2 (-354)) by (apply bpow_le; lia). assert (R3 := rel_rnd _ (Rle_trans _ _ _ K2 LS)). rewrite <- V3 in R3.
  set (t := B2R (fadd mode_NE (fmul mode_NE a c) (fmul mode_NE alpha p))) in *.
  assert (Q3 : (za + ap) * (1 - (5 / 2 + 5 / 4) * u2) <= t <= (za + ap) * (1 + (5 / 2 + 5 / 4) * u2)) by (apply (chain (5 / 2) (za + ap) (s + q)); [lra | lra | exact Q2 | exact R3]).
  assert (LT : bpow radix2 (-355) <= t).
  { assert (bpow radix2 (-354) = 2 * bpow radix2 (-355)) by (change (-354)%Z with (1 + -355)%Z; rewrite bpow_plus; reflexivity). nra. }
  assert (P8 := bpow_gt_0 radix2 (-355)).
  assert (LO : bpow radix2 (-1000) <= B2R beta * t) by (apply Rle_trans with (bpow radix2 (-100) * bpow radix2 (-355)); [rewrite <- bpow_plus; apply bpow_le; lia | apply Rmult_le_compat; lra]).
  assert (V4 := mul_val beta _ Fb F3 FO). fold t in V4. assert (R4 := rel_rnd _ LO). rewrite <- V4 in R4.
  apply (near_of _ _ (5 / 2 + 5 / 4 + 5 / 4)); [lra | apply Rmult_le_pos; lra | exact FO|].
  apply (chain (5 / 2 + 5 / 4) _ (B2R beta * t)); [lra | apply Rmult_le_pos; lra | apply times; [lra | exact Q3] | exact R4].
Qed.
Lemma rest_near l : forall prev, is_finite prev = true -> bpow radix2 (-453) <= B2R prev <= bpow radix2 300 -> between (bpow radix2 (-300)) (bpow radix2 300) l ->
  forall k a p b, nth_error l k = Some a -> nth_error (prev :: smooth_rest alpha beta prev l) k = Some p -> nth_error (smooth_rest alpha beta prev l) k = Some b ->
  nearly (B2R beta * (B2R a * C + B2R alpha * B2R p)) b.
Proof.
  induction l as [|w l IH]; intros prev Fp Hp B k a p b Ha Hpk Hb; [destruct k; discriminate|]. inversion B as [|? ? [Fw Hw] B']; subst. cbn [smooth_rest] in *.
  destruct (step_in alpha beta Fa Ra Fb Rb prev w Fp Hp Fw Hw) as [F1 B1]. destruct k as [|k].
  - cbn in Ha, Hpk, Hb. injection Ha as <-. injection Hpk as <-. injection Hb as <-. now apply step_near.
  - exact (IH _ F1 B1 B' k a p b Ha Hpk Hb).
Qed.
Theorem smooth_near weight w : between (bpow radix2 (-300)) (bpow radix2 300) weight -> smooth_fl alpha beta weight = Ok w -> smoothed (B2R alpha) (B2R beta) weight w.
Proof.
  intros B E. destruct weight as [|a0 l]; [discriminate|]. destruct (smooth_in alpha beta Fa Ra Fb Rb (a0 :: l) ltac:(discriminate) B) as (w' & E' & Lw & Bw). assert (w' = w) by congruence. subst w'. clear E'.
  inversion B as [|? ? [Fw Hw] B']; subst. cbn [smooth_fl] in E. injection E as <-. inversion Bw as [|? ? [F1 H1] _]; subst. split; [exact Lw|]. split.
  - intros a b Ha Hb. cbn in Ha, Hb. injection Ha as <-. injection Hb as <-. now apply first_near.
  - intros k a p b Ha Hp Hb. exact (rest_near l _ F1 H1 B' k a p b Ha Hp Hb).
Qed.
Theorem fit_smoothed fdot cdot csum o nm constraint W P X y weight x0 x v w : between (bpow radix2 (-300)) (bpow radix2 300) weight ->
  wils_fit_fl fdot cdot csum alpha beta o nm constraint W P X y weight x0 = Ok (x, v, w) -> smoothed (B2R alpha) (B2R beta) weight w.
Proof. intros B E. destruct (fit_inv _ _ _ _ _ _ _ _ _ _ _ _ _ _ _ _ _ E) as (S & _). now apply smooth_near. Qed.
End Acc.
