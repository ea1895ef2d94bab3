(** Proofs about integer powers of classical intervals. *)
From Coq Require Import ZArith Reals List Bool Lia Lra Psatz.
From Coq Require Import Floats.SpecFloat.
From Flocq Require Import Core IEEE754.BinarySingleNaN.
From Verif Require Import Base PyNum Kernel Spec SpecElem XReal XArith KernelProofs ExprProofs KernelAlg KernelMore Witness ElemProofs.
Import ListNotations.
Open Scope R_scope.

Definition xpowE (n : nat) (x : xreal) : xreal :=
  match n, x with
  | O, _ => XFin 1
  | _, XNan => XNan
  | _, XPInf => XPInf
  | _, XNInf => if Z.odd (Z.of_nat n) then XNInf else XPInf
  | _, XFin a => XFin (a ^ n)
  end.
Lemma xpowE_fin n a : xpowE n (XFin a) = XFin (a ^ n).
Proof. destruct n; reflexivity. Qed.

Lemma even_of_nat n : Z.even (Z.of_nat n) = Nat.even n.
Proof.
  destruct (Nat.even n) eqn:E.
  - apply Z.even_spec. apply Nat.even_spec in E. destruct E as [k ->]. exists (Z.of_nat k). lia.
  - apply not_true_is_false. intro C. apply Z.even_spec in C. destruct C as [k C].
    assert (Nat.even n = true); [|congruence]. apply Nat.even_spec. exists (Z.to_nat k). lia.
Qed.
Lemma pow_abs_even n a : Nat.even n = true -> Rabs a ^ n = a ^ n.
Proof.
  intro E. apply Nat.even_spec in E. destruct E as [k ->]. rewrite !pow_mult. f_equal. simpl. rewrite !Rmult_1_r.
  unfold Rabs. destruct Rcase_abs; ring.
Qed.
Lemma pow_odd_opp n a : Nat.even n = false -> (- a) ^ n = - a ^ n.
Proof.
  intro E. assert (O : Nat.Odd n). { apply Nat.odd_spec. unfold Nat.odd. now rewrite E. }
  destruct O as [k ->]. rewrite !pow_add, !pow_mult. simpl. rewrite !Rmult_1_r.
  replace (- a * - a) with (a * a) by ring. ring.
Qed.
Lemma pow_odd_mono n a b : Nat.even n = false -> a <= b -> a ^ n <= b ^ n.
Proof.
  intros E H. destruct (Rle_lt_dec 0 a).
  - apply pow_incr; lra.
  - destruct (Rle_lt_dec 0 b).
    + apply Rle_trans with 0; [|now apply pow_le]. replace a with (- - a) by ring. rewrite pow_odd_opp by assumption.
      assert (0 <= (- a) ^ n) by (apply pow_le; lra). lra.
    + replace a with (- - a) by ring. replace b with (- - b) by ring. rewrite !(pow_odd_opp n (- _)) by assumption.
      apply Ropp_le_contravar. apply pow_incr. lra.
Qed.
Lemma pow_even_mono n a b : Nat.even n = true -> Rabs a <= Rabs b -> a ^ n <= b ^ n.
Proof.
  intros E H. rewrite <- (pow_abs_even n a), <- (pow_abs_even n b) by assumption. apply pow_incr.
  split; [apply Rabs_pos | assumption].
Qed.
Lemma pow_even_pos n a : Nat.even n = true -> 0 <= a ^ n.
Proof. intro E. rewrite <- pow_abs_even by assumption. apply pow_le, Rabs_pos. Qed.
Lemma odd_even_z n : Z.odd (Z.of_nat n) = negb (Nat.even n).
Proof. now rewrite <- Z.negb_even, even_of_nat. Qed.

(** One of the endpoint powers bounds x^n from below (or n is even, and 0 does
    and 0 is a member). *)
Lemma pow_low n a b x : xle_R a x -> R_xle x b ->
  (Nat.even n = true /\ xle_R a 0 /\ R_xle 0 b) \/
  xle_R (xpowE n a) (x ^ n) \/ xle_R (xpowE n b) (x ^ n).
Proof.
  intros Ha Hb. destruct n as [|k]; [right; left; simpl; lra|]. set (n := S k) in *.
  destruct (Nat.even n) eqn:E.
  - destruct (Rle_lt_dec 0 x) as [Hx|Hx].
    + destruct a as [| | |a]; simpl in Ha; try contradiction.
      * left. split; [reflexivity|]. split; [exact I|]. eapply R_xle_trans; [exact Hb|assumption].
      * destruct (Rle_lt_dec a 0).
        { left. split; [reflexivity|]. split; [assumption|]. eapply R_xle_trans; [exact Hb|assumption]. }
        right; left. rewrite xpowE_fin. cbn [xle_R R_xle]. apply pow_even_mono; [assumption|]. rewrite !Rabs_pos_eq; lra.
    + destruct b as [| | |b]; simpl in Hb; try contradiction.
      * left. split; [reflexivity|]. split; [eapply xle_R_trans; [exact Ha|lra] | exact I].
      * destruct (Rle_lt_dec 0 b).
        { left. split; [reflexivity|]. split; [eapply xle_R_trans; [exact Ha|lra] | assumption]. }
        right; right. rewrite xpowE_fin. cbn [xle_R R_xle]. apply pow_even_mono; [assumption|]. rewrite !Rabs_left by lra. lra.
  - right; left. destruct a as [| | |a]; simpl in Ha; try contradiction.
    + unfold xpowE. cbn [n]. fold n. rewrite odd_even_z, E. exact I.
    + rewrite xpowE_fin. cbn [xle_R R_xle]. now apply pow_odd_mono.
Qed.
Lemma pow_high n a b x : xle_R a x -> R_xle x b ->
  R_xle (x ^ n) (xpowE n a) \/ R_xle (x ^ n) (xpowE n b).
Proof.
  intros Ha Hb. destruct n as [|k]; [left; simpl; lra|]. set (n := S k) in *.
  destruct (Nat.even n) eqn:E.
  - destruct (Rle_lt_dec 0 x) as [Hx|Hx].
    + right. destruct b as [| | |b]; simpl in Hb; try contradiction; [exact I|].
      rewrite xpowE_fin. cbn [xle_R R_xle]. apply pow_even_mono; [assumption|]. rewrite !Rabs_pos_eq; lra.
    + left. destruct a as [| | |a]; simpl in Ha; try contradiction.
      * unfold xpowE. cbn [n]. fold n. rewrite odd_even_z, E. exact I.
      * rewrite xpowE_fin. cbn [xle_R R_xle]. apply pow_even_mono; [assumption|]. rewrite !Rabs_left by lra. lra.
  - right. destruct b as [| | |b]; simpl in Hb; try contradiction; [exact I|].
    rewrite xpowE_fin. cbn [xle_R R_xle]. now apply pow_odd_mono.
Qed.

(** ** Powers of numbers *)
Lemma pow_flt L n (f : flt) m v : pow_directed L n -> (Nat.even n = true \/ 0 <= B2R f) -> f <> fninf \/ Nat.even n = true ->
  is_nan f = false ->
  float_pow L m f (Z.of_nat n) = Ok v ->
  (m = FE_DOWNWARD -> xflt v <> XNan /\ forall r, xle_R (xpowE n (xflt f)) r -> xle_R (xflt v) r) /\
  (m = FE_UPWARD -> xflt v <> XNan /\ forall r, R_xle r (xpowE n (xflt f)) -> R_xle r (xflt v)).
Proof.
  intros HL Hs Hinf Hnan. unfold float_pow. unfold rbind.
  destruct (int_to_double (Z.of_nat n)) as [w|] eqn:Ew; [|discriminate].
  destruct (Z.eqb_spec (Z.of_nat n) 0) as [E0|E0].
  { assert (n = O) by lia. subst n. intro H; apply Ok_inj in H; subst v.
    assert (X1 : xflt f1 = XFin 1) by exact xval_pn1.
    rewrite X1. split; intros _; (split; [discriminate|]); intros r; simpl; trivial. }
  destruct n as [|k]; [lia|]. set (n := S k) in *.
  destruct f as [s|s| |s mm e B]; [..|].
  - intro H. apply Ok_inj in H. subst v. assert (X0 : xflt (if Z.odd (Z.of_nat n) then B754_zero s else f0) = XFin 0) by (destruct Z.odd; reflexivity).
    rewrite X0. cbn [xflt B2R]. rewrite xpowE_fin. rewrite pow_i by (unfold n; lia).
    split; intros _; (split; [discriminate|]); auto.
  - intro H. apply Ok_inj in H. subst v. rewrite odd_even_z.
    destruct s.
    + assert (E : Nat.even n = true) by (destruct Hinf as [C|C]; [now elim C | exact C]).
      rewrite E. cbn [negb xflt finf]. unfold xpowE. cbn [n]. fold n. rewrite odd_even_z, E. cbn [negb].
      split; intros _; (split; [discriminate|]); auto.
    + assert (X0 : xflt (if negb (Nat.even n) then B754_infinity false else finf) = XPInf) by (destruct (Nat.even n); reflexivity).
      rewrite X0. split; intros _; (split; [discriminate|]); auto.
  - discriminate.
  - set (f := B754_finite s mm e B) in *. assert (Ff : is_finite f = true) by reflexivity.
    assert (Xf : xflt f = XFin (B2R f)) by reflexivity. rewrite Xf, xpowE_fin.
    assert (Fa : is_finite (fabs f) = true) by reflexivity.
    assert (Va : B2R (fabs f) = Rabs (B2R f)) by apply B2R_Babs.
    assert (Nz : B2R f <> 0). { unfold f. simpl. intro C. apply eq_0_F2R in C. destruct s; discriminate. }
    assert (Pa : 0 < B2R (fabs f)) by (rewrite Va; now apply Rabs_pos_lt).
    assert (PV : B2R (fabs f) ^ n = B2R f ^ n).
    { rewrite Va. destruct Hs as [E|E]; [now apply pow_abs_even | now rewrite Rabs_pos_eq]. }
    assert (Sg : s && Z.odd (Z.of_nat n) = false).
    { rewrite odd_even_z. destruct Hs as [E|E]; [rewrite E; apply andb_false_r|].
      destruct s; [|reflexivity]. exfalso. assert (B2R f <= 0) by (apply Bsign_true_le; reflexivity). lra. }
    destruct (HL w (fabs f) Ew Fa Pa) as [H1 H2].
    destruct (c_pow L m (fabs f) w) as [r|] eqn:Er; [|discriminate].
    rewrite Sg. intro H; apply Ok_inj in H; subst v. rewrite PV in H1, H2.
    split; intros ->.
    + specialize (H1 r Er). apply flt_le_R_x in H1. split; [eapply xle_R_nnan; exact H1|].
      intros q Hq. eapply xle_R_trans; [exact H1|exact Hq].
    + specialize (H2 r Er). apply R_le_flt_x in H2. split; [eapply R_xle_nnan; exact H2|].
      intros q Hq. eapply R_xle_trans; [exact H2|exact Hq].
Qed.

Lemma num_pow_bound L n x m v : pow_directed L n \/ (exists z, x = PInt z) ->
  (Nat.even n = true \/ xleb (XFin 0) (xval x) = true \/ (exists z, x = PInt z)) ->
  xval x <> XNan ->
  num_pow L m x (Z.of_nat n) = Ok v ->
  (m = FE_DOWNWARD -> xval v <> XNan /\ forall r, xle_R (xpowE n (xval x)) r -> xle_R (xval v) r) /\
  (m = FE_UPWARD -> xval v <> XNan /\ forall r, R_xle r (xpowE n (xval x)) -> R_xle r (xval v)).
Proof.
  intros HL Hs HN. destruct x as [z|f]; cbn [num_pow].
  - intro H; apply Ok_inj in H; subst v. cbn [xval]. rewrite xpowE_fin, <- pow_IZR.
    split; intros _; (split; [discriminate|]); auto.
  - unfold rbind. destruct (float_pow L m f (Z.of_nat n)) as [r|] eqn:E; [|discriminate].
    intro H; apply Ok_inj in H; subst v. cbn [xval].
    destruct HL as [HL|[z C]]; [|discriminate].
    apply (pow_flt L n f m r HL).
    + destruct Hs as [H|[H|[z H]]]; [now left| |discriminate]. cbn [xval] in H.
      right. destruct f as [s|[|]| |s mm e B]; simpl in *; try lra; try discriminate.
      now apply xleb_fin in H.
    + destruct Hs as [H|[H|[z H]]]; [now right| |discriminate]. left. intro C. subst f. discriminate.
    + destruct (is_nan f) eqn:En; [|reflexivity]. apply is_nan_x in En. cbn [xval] in HN. congruence.
    + exact E.
Qed.

Lemma contains0_int X : contains_num X (PInt 0) = true <-> member X 0.
Proof. rewrite contains_num_spec; [|exact I]. change (num_val (PInt 0)) with 0. tauto. Qed.

(** The shape of the run of [X ** n]. *)
Lemma pow2_run L x y n (f : pynum -> pynum -> pynum) m :
  (p <- pow_ L x n ;; q <- pow_ L y n ;; mret (f p q)) m =
  (match num_pow L m x n with Err e => Err e | Ok p => match num_pow L m y n with Err e => Err e | Ok q => Ok (f p q) end end, m).
Proof. unfold mbind, pow_, mprim, mret. destruct (num_pow L m x n); [|reflexivity]. now destruct (num_pow L m y n). Qed.
Lemma pow_shape L X n m Z : kd X = Classical -> returns (itv_pow L X (PInt (Z.of_nat n))) m Z ->
  exists p q p' q', num_pow L FE_DOWNWARD (lo X) (Z.of_nat n) = Ok p /\ num_pow L FE_DOWNWARD (hi X) (Z.of_nat n) = Ok q /\
    num_pow L FE_UPWARD (lo X) (Z.of_nat n) = Ok p' /\ num_pow L FE_UPWARD (hi X) (Z.of_nat n) = Ok q' /\
    Z = (if Nat.even n && contains_num X (PInt 0) then mkitv Classical pn0 (num_max2 p' q')
         else mkitv Classical (num_min2 p q) (num_max2 p' q')).
Proof.
  intros kX. unfold returns, outcome, itv_pow. rewrite kX. unfold classical_pow.
  assert (Le : (0 <=? Z.of_nat n)%Z = true) by (apply Z.leb_le; lia). rewrite Le, even_of_nat.
  set (c1 := mbind (pow_ L (lo X) (Z.of_nat n)) (fun p => mbind (pow_ L (hi X) (Z.of_nat n)) (fun q => mret (num_min2 p q)))).
  set (c2 := mbind (pow_ L (lo X) (Z.of_nat n)) (fun p => mbind (pow_ L (hi X) (Z.of_nat n)) (fun q => mret (num_max2 p q)))).
  assert (E1 := pow2_run L (lo X) (hi X) (Z.of_nat n) num_min2 FE_DOWNWARD). fold c1 in E1.
  assert (E2 := pow2_run L (lo X) (hi X) (Z.of_nat n) num_max2 FE_UPWARD). fold c2 in E2.
  unfold mbind. rewrite with_rounding_run, E1.
  destruct (num_pow L FE_DOWNWARD (lo X) (Z.of_nat n)) as [p|]; [|discriminate].
  destruct (num_pow L FE_DOWNWARD (hi X) (Z.of_nat n)) as [q|]; [|discriminate].
  cbn [fst]. rewrite with_rounding_run, E2.
  destruct (num_pow L FE_UPWARD (lo X) (Z.of_nat n)) as [p'|]; [|discriminate].
  destruct (num_pow L FE_UPWARD (hi X) (Z.of_nat n)) as [q'|]; [|discriminate].
  cbn [fst]. intro H. exists p, q, p', q'. do 4 (split; [reflexivity|]).
  destruct (Nat.even n && contains_num X (PInt 0)); cbn [mret fst] in H; now apply Ok_inj in H.
Qed.

Lemma pow_encl_gen L n X m Z : kd X = Classical ->
  (pow_directed L n \/ int_ends X) ->
  (Nat.even n = true \/ nonneg_itv X \/ int_ends X) ->
  returns (itv_pow L X (PInt (Z.of_nat n))) m Z ->
  forall x, member X x -> member Z (x ^ n).
Proof.
  intros kX HL Hs HR x M. destruct (pow_shape L X n m Z kX HR) as (p & q & p' & q' & Hp & Hq & Hp' & Hq' & ->).
  assert (M' := M). apply member_x in M'. destruct M' as [M1 M2].
  assert (N1 := xle_R_nnan _ _ M1). assert (N2 := R_xle_nnan _ _ M2).
  assert (LL : pow_directed L n \/ (exists z, lo X = PInt z)) by (destruct HL as [H|(a & b & H & _)]; [now left | right; now exists a]).
  assert (LH : pow_directed L n \/ (exists z, hi X = PInt z)) by (destruct HL as [H|(a & b & _ & H)]; [now left | right; now exists b]).
  assert (SL : Nat.even n = true \/ xleb (XFin 0) (xval (lo X)) = true \/ (exists z, lo X = PInt z)).
  { destruct Hs as [H|[H|(a & b & H & _)]]; [now left| |right; right; now exists a].
    right; left. destruct (xval (lo X)) as [| | |a] eqn:E; simpl in M1; try contradiction.
    - exfalso. assert (C : member X (Rmin x (-1))).
      { apply member_x. rewrite E. split; [exact I|]. eapply R_xle_trans; [exact M2 | apply Rmin_l]. }
      apply H in C. generalize (Rmin_r x (-1)). lra.
    - apply xleb_fin. apply H. apply member_x. rewrite E. split; [simpl; lra|]. eapply R_xle_trans; [exact M2 | exact M1]. }
  assert (SH : Nat.even n = true \/ xleb (XFin 0) (xval (hi X)) = true \/ (exists z, hi X = PInt z)).
  { destruct Hs as [H|[H|(a & b & _ & H)]]; [now left| |right; right; now exists b].
    right; left. eapply member_order; [|exact M2]. simpl. now apply H. }
  destruct (num_pow_bound L n _ _ _ LL SL N1 Hp) as [P _]. destruct (P eq_refl) as [Pn P1].
  destruct (num_pow_bound L n _ _ _ LH SH N2 Hq) as [Q _]. destruct (Q eq_refl) as [Qn Q1].
  destruct (num_pow_bound L n _ _ _ LL SL N1 Hp') as [_ P']. destruct (P' eq_refl) as [Pn' P1'].
  destruct (num_pow_bound L n _ _ _ LH SH N2 Hq') as [_ Q']. destruct (Q' eq_refl) as [Qn' Q1'].
  assert (Up : R_xle (x ^ n) (xval (num_max2 p' q'))).
  { rewrite num_max2_x. destruct (pow_high n _ _ x M1 M2) as [C|C].
    - eapply R_xle_xleb; [exact (P1' _ C) | now apply xmax2_ge_l].
    - eapply R_xle_xleb; [exact (Q1' _ C) | now apply xmax2_ge_r]. }
  destruct (Nat.even n && contains_num X (PInt 0)) eqn:E.
  - apply andb_true_iff in E. apply member_x. split; [|exact Up]. cbn. apply pow_even_pos. tauto.
  - apply member_x. split; [|exact Up]. cbn [lo]. rewrite num_min2_x.
    destruct (pow_low n _ _ x M1 M2) as [(E1 & C1 & C2)|[C|C]].
    + exfalso. rewrite E1 in E. cbn [andb] in E. assert (member X 0) by (apply member_x; auto).
      apply contains0_int in H. congruence.
    + eapply xleb_xle_R; [apply xmin2_le_l; assumption | exact (P1 _ C)].
    + eapply xleb_xle_R; [apply xmin2_le_r; assumption | exact (Q1 _ C)].
Qed.

(** Integer endpoints: never an exception, exact range. *)
Lemma int_num_pow L m z n : num_pow L m (PInt z) n = Ok (PInt (z ^ n)).
Proof. reflexivity. Qed.
Lemma pow_int_returns L n X m : kd X = Classical -> int_ends X ->
  exists Z, returns (itv_pow L X (PInt (Z.of_nat n))) m Z.
Proof.
  intros kX (a & b & Ha & Hb). unfold returns, outcome, itv_pow. rewrite kX. unfold classical_pow.
  assert (Le : (0 <=? Z.of_nat n)%Z = true) by (apply Z.leb_le; lia). rewrite Le, Ha, Hb.
  unfold mbind, pow_, mprim, num_pow. rewrite !with_rounding_run. cbn [fst].
  destruct (Z.even (Z.of_nat n) && contains_num X (PInt 0)); eexists; reflexivity.
Qed.
Lemma pow_int_exact L n X m Z : kd X = Classical -> int_ends X -> (0 < n)%nat -> (exists x, member X x) ->
  returns (itv_pow L X (PInt (Z.of_nat n))) m Z ->
  finite_itv Z /\ (exists x, member X x /\ num_val (lo Z) = x ^ n) /\ (exists x, member X x /\ num_val (hi Z) = x ^ n).
Proof.
  intros kX HI Hn [x0 M0] HR. destruct (pow_shape L X n m Z kX HR) as (p & q & p' & q' & Hp & Hq & Hp' & Hq' & HZ).
  destruct HI as (a & b & Ha & Hb). rewrite Ha, int_num_pow in Hp, Hp'. rewrite Hb, int_num_pow in Hq, Hq'.
  inversion Hp; inversion Hq; inversion Hp'; inversion Hq'. subst p q p' q'. clear Hp Hq Hp' Hq'.
  assert (Ma : member X (IZR a)).
  { unfold member in *. rewrite Ha, Hb in *. simpl in *. lra. }
  assert (Mb : member X (IZR b)).
  { unfold member in *. rewrite Ha, Hb in *. simpl in *. lra. }
  assert (HU : exists x, member X x /\ num_val (num_max2 (PInt (a ^ Z.of_nat n)) (PInt (b ^ Z.of_nat n))) = x ^ n).
  { unfold num_max2. destruct num_lt; [exists (IZR b) | exists (IZR a)]; split; trivial; cbn [num_val]; symmetry; apply pow_IZR. }
  assert (HLo : exists x, member X x /\ num_val (num_min2 (PInt (a ^ Z.of_nat n)) (PInt (b ^ Z.of_nat n))) = x ^ n).
  { unfold num_min2. destruct num_lt; [exists (IZR b) | exists (IZR a)]; split; trivial; cbn [num_val]; symmetry; apply pow_IZR. }
  assert (FU : finite_num (num_max2 (PInt (a ^ Z.of_nat n)) (PInt (b ^ Z.of_nat n)))) by (unfold num_max2; destruct num_lt; exact I).
  assert (FL : finite_num (num_min2 (PInt (a ^ Z.of_nat n)) (PInt (b ^ Z.of_nat n)))) by (unfold num_min2; destruct num_lt; exact I).
  subst Z. destruct (Nat.even n && contains_num X (PInt 0)) eqn:E.
  - apply andb_true_iff in E. destruct E as [_ E]. apply contains0_int in E.
    split; [split; [reflexivity|exact FU]|]. split; [|exact HU]. exists 0. split; [exact E|]. rewrite pow_i by assumption. reflexivity.
  - split; [split; assumption|]. split; assumption.
Qed.

(** ** Refutation for negative doubles and odd exponents *)
Definition e52 : flt := fl (- (2 ^ 52 + 1)) (-52).
Definition b52 : R := 1 + 1 / 4503599627370496.
Lemma e52_val : is_finite e52 = true /\ B2R e52 = - b52.
Proof.
  split; [vm_compute; reflexivity|]. rewrite (B2R_sf _ true 4503599627370497 (-52)) by (vm_compute; reflexivity).
  feval. unfold b52. lra.
Qed.
Definition g3 : flt := fl (2 ^ 52 + 3) (-52).
Definition g4 : flt := fl (2 ^ 52 + 4) (-52).
Lemma g3_val : is_finite g3 = true /\ B2R g3 = 1 + 3 / 4503599627370496.
Proof.
  split; [vm_compute; reflexivity|]. rewrite (B2R_sf _ false 4503599627370499 (-52)) by (vm_compute; reflexivity). feval. lra.
Qed.
(** no double strictly between 1+3/2^52 and 1+4/2^52 *)
Lemma g3_succ (r : flt) : is_finite r = true -> B2R g3 < B2R r -> 1 + 4 / 4503599627370496 <= B2R r.
Proof.
  intros Fr Hr.
  assert (S : succ radix2 fexp (B2R g3) <= B2R r).
  { apply succ_le_lt; auto with typeclass_instances; apply gen_B2R. }
  destruct g3_val as [Fg Vg].
  rewrite succ_eq_pos in S by (rewrite Vg; lra).
  rewrite ulp_neq_0 in S by (rewrite Vg; lra).
  assert (Mg : Raux.mag radix2 (B2R g3) = 1%Z :> Z).
  { apply mag_unique. rewrite Vg. rewrite Rabs_pos_eq by lra. simpl. lra. }
  unfold cexp in S. rewrite Mg in S.
  replace (bpow radix2 (SpecFloat.fexp 53 1024 1)) with (/ 4503599627370496) in S.
  - rewrite Vg in S. lra.
  - change (SpecFloat.fexp 53 1024 1) with (-52)%Z. simpl. lra.
Qed.

Lemma float_pow_neg L m (f : flt) n w r mm e : B2SF f = S754_finite true mm e -> int_to_double n = Ok w ->
  (n =? 0)%Z = false -> Z.odd n = true -> c_pow L m (fabs f) w = Ok r -> float_pow L m f n = Ok (fneg r).
Proof.
  intros Hf Hw Hn Ho Hr. unfold float_pow, rbind. rewrite Hw, Hn.
  destruct f as [s|s| |s m' e' B]; try discriminate. inversion Hf; subst s. rewrite Hr, Ho. reflexivity.
Qed.
Lemma pow_odd_refuted L : pow_directed L 3 ->
  (exists r, c_pow L FE_DOWNWARD (fabs e52) (fl 3 0) = Ok r /\ is_finite r = true) ->
  forall m Z, returns (itv_pow L (mkitv Classical (PFlt e52) (PFlt e52)) (PInt 3)) m Z ->
    member (mkitv Classical (PFlt e52) (PFlt e52)) (- b52) /\ ~ member Z ((- b52) ^ 3).
Proof.
  intros HL (r & Hr & Fr) m Z HR. destruct e52_val as [Fe Ve]. split.
  { apply member_x. cbn [lo hi xval]. rewrite (proj1 (is_finite_x _) Fe), Ve. simpl. lra. }
  destruct (pow_shape L (mkitv Classical (PFlt e52) (PFlt e52)) 3 m Z eq_refl HR) as (p & q & p' & q' & Hp & Hq & _ & _ & ->).
  cbn [lo hi] in Hp, Hq. rewrite Hp in Hq. inversion Hq; subst q; clear Hq.
  change (Z.of_nat 3) with 3%Z in Hp. cbn [num_pow] in Hp.
  assert (E3 : int_to_double 3 = Ok (fl 3 0)) by reflexivity.
  assert (FP : float_pow L FE_DOWNWARD e52 3 = Ok (fneg r)).
  { apply (float_pow_neg L FE_DOWNWARD e52 3 (fl 3 0) r 4503599627370497 (-52)); try assumption; vm_compute; reflexivity. }
  unfold rbind in Hp. rewrite FP in Hp. inversion Hp; subst p; clear Hp.
  cbn [Nat.even andb]. intro M. apply member_x in M. destruct M as [M _]. cbn [lo] in M.
  assert (XM : xval (num_min2 (PFlt (fneg r)) (PFlt (fneg r))) = XFin (- B2R r)).
  { unfold num_min2. destruct num_lt; cbn [xval]; rewrite xflt_neg, (proj1 (is_finite_x _) Fr); reflexivity. }
  rewrite XM in M. cbn [xle_R] in M.
  assert (Va : B2R (fabs e52) = b52). { unfold fabs. rewrite B2R_Babs, Ve, Rabs_Ropp, Rabs_pos_eq; unfold b52; lra. }
  assert (Fa : is_finite (fabs e52) = true) by (unfold fabs; rewrite is_finite_Babs; exact Fe).
  destruct (HL (fl 3 0) (fabs e52) E3 Fa) as [H1 _]; [rewrite Va; unfold b52; lra|].
  specialize (H1 r Hr). apply flt_le_R_x in H1. rewrite (proj1 (is_finite_x _) Fr), Va in H1. cbn [xle_R] in H1.
  assert (G := g3_succ r Fr). destruct g3_val as [_ Vg]. rewrite Vg in G.
  assert (C1 : b52 ^ 3 <= B2R r). { replace ((- b52) ^ 3) with (- b52 ^ 3) in M by ring. lra. }
  assert (K : 1 + 3 / 4503599627370496 < b52 ^ 3 < 1 + 4 / 4503599627370496).
  { unfold b52. split; simpl; lra. }
  lra.
Qed.
