(** Integer powers of intervals of the Kaucher class. *)
From Coq Require Import ZArith Reals List Bool Lia Lra Psatz.
From Coq Require Import Floats.SpecFloat.
From Flocq Require Import Core IEEE754.BinarySingleNaN.
From Verif Require Import Base PyNum Kernel Spec XReal XArith KernelProofs Expr ExprProofs KaucherProofs Witness SpecElem ElemProofs PowProofs TrigProofs SpecKaucher KaucherRound KaucherElem KaucherTrig.
Import ListNotations.
Open Scope R_scope.

Lemma kpow_run L X n m p q i u : kd X = Kaucher ->
  num_pow L FE_DOWNWARD (lo X) (Z.of_nat n) = Ok p -> num_pow L FE_UPWARD (hi X) (Z.of_nat n) = Ok q ->
  to_double p = Ok i -> to_double q = Ok u ->
  returns (itv_pow L X (PInt (Z.of_nat n))) m
    (if Nat.even n && contains_num X (PInt 0) then mkitv Classical pn0 (PFlt (flt_max2 i u))
     else if Nat.even n && contains_num (pro X) (PInt 0) then mkitv Kaucher (PFlt (flt_max2 i u)) pn0
     else if flt_ltb u i then mkitv Kaucher (PFlt i) (PFlt u) else mkitv Classical (PFlt i) (PFlt u)).
Proof.
  intros K Hp Hq Hi Hu. unfold returns, outcome, itv_pow, kaucher_pow. rewrite K.
  assert (Le : (0 <=? Z.of_nat n)%Z = true) by (apply Z.leb_le; lia). rewrite Le, even_of_nat.
  assert (R1 : as_double (pow_ L (lo X) (Z.of_nat n)) FE_DOWNWARD = (Ok i, FE_DOWNWARD)).
  { unfold as_double, pow_, mprim, mlift, mbind. now rewrite Hp, Hi. }
  assert (R2 : as_double (pow_ L (hi X) (Z.of_nat n)) FE_UPWARD = (Ok u, FE_UPWARD)).
  { unfold as_double, pow_, mprim, mlift, mbind. now rewrite Hq, Hu. }
  rewrite (bind_ok _ _ _ _ _ (with_rounding_ok _ _ m _ _ R1)), (bind_ok _ _ _ _ _ (with_rounding_ok _ _ m _ _ R2)).
  destruct (Nat.even n && contains_num X (PInt 0)); [reflexivity|].
  destruct (Nat.even n && contains_num (pro X) (PInt 0)); [reflexivity|].
  destruct (flt_ltb u i); reflexivity.
Qed.

Lemma contains_pro X : finite_itv X -> kd X = Kaucher -> (contains_num (pro X) (PInt 0) = true <-> between (num_val (lo X)) (num_val (hi X)) 0).
Proof.
  intros F K. destruct (pro_vals2 X F) as ([F1 F2] & E1 & E2); [congruence|].
  rewrite contains0_int, member_x. apply finite_num_x in F1, F2. rewrite F1, F2, E1, E2. reflexivity.
Qed.
Lemma contains_fin X : finite_itv X -> (contains_num X (PInt 0) = true <-> num_val (lo X) <= 0 <= num_val (hi X)).
Proof. intros [F1 F2]. rewrite contains0_int, member_x. apply finite_num_x in F1, F2. rewrite F1, F2. reflexivity. Qed.

(** *** The exact range *)
Lemma pow_range_mono n a b : Nat.even n = false \/ (0 <= a /\ 0 <= b) ->
  least_value (fun x => x ^ n) a b (Rmin a b ^ n) /\ greatest_value (fun x => x ^ n) a b (Rmax a b ^ n).
Proof.
  intro H. assert (M : forall x y, between a b x -> between a b y -> x <= y -> x ^ n <= y ^ n).
  { intros x y Hx Hy L. destruct H as [E | [H1 H2]]; [now apply pow_odd_mono|]. apply pow_incr. split; [|exact L].
    apply Rle_trans with (Rmin a b); [now apply Rmin_glb | apply Hx]. }
  assert (Q : Rmin a b <= Rmax a b) by (apply Rle_trans with a; [apply Rmin_l | apply Rmax_l]).
  assert (A : between a b (Rmin a b)) by (split; lra). assert (B : between a b (Rmax a b)) by (split; lra).
  split; (split; [eexists; split; [|reflexivity]; assumption|]); intros s (x & Hx & ->); apply M; trivial; apply Hx.
Qed.
Lemma pow_range_zero n a b : Nat.even n = true -> (0 < n)%nat -> between a b 0 ->
  least_value (fun x => x ^ n) a b 0 /\ greatest_value (fun x => x ^ n) a b (Rmax (a ^ n) (b ^ n)).
Proof.
  intros E N Z. split.
  - split; [exists 0; split; [exact Z | symmetry; now apply pow_i]|]. intros s (x & _ & ->). now apply pow_even_pos.
  - assert (A : between a b a) by (split; [apply Rmin_l | apply Rmax_l]). assert (B : between a b b) by (split; [apply Rmin_r | apply Rmax_r]).
    split; [unfold Rmax; destruct Rle_dec; [exists b | exists a]; auto|]. intros s (x & [X1 X2] & ->).
    assert (C : Rabs x <= Rabs a \/ Rabs x <= Rabs b).
    { destruct Z as [Z1 Z2]. unfold Rmin, Rmax in *. destruct (Rle_dec a b); unfold Rabs; repeat destruct Rcase_abs; lra. }
    destruct C as [C|C]; [apply Rle_trans with (a ^ n); [now apply pow_even_mono | apply Rmax_l] | apply Rle_trans with (b ^ n); [now apply pow_even_mono | apply Rmax_r]].
Qed.
Theorem kpow_int L X n m : kd X = Kaucher -> int_ends X -> (0 < n)%nat ->
  Rabs (num_val (lo X) ^ n) <= 9007199254740992 -> Rabs (num_val (hi X) ^ n) <= 9007199254740992 ->
  Nat.even n = false \/ (0 <= num_val (lo X) /\ 0 <= num_val (hi X)) \/ between (num_val (lo X)) (num_val (hi X)) 0 ->
  exists Z, returns (itv_pow L X (PInt (Z.of_nat n))) m Z /\ range_ends (fun x => x ^ n) X Z.
Proof.
  intros K (a & b & Ea & Eb) N Ba Bb C.
  assert (FX : finite_itv X) by (split; [rewrite Ea | rewrite Eb]; exact I).
  assert (Va : num_val (lo X) = IZR a) by now rewrite Ea. assert (Vb : num_val (hi X) = IZR b) by now rewrite Eb.
  assert (Hx : forall z, Rabs (IZR z ^ n) <= 9007199254740992 -> exact_num (PInt (z ^ Z.of_nat n))).
  { intros z H. cbn [exact_num]. rewrite pow_IZR, <- abs_IZR in H. apply le_IZR in H. exact H. }
  rewrite Va in Ba. rewrite Vb in Bb.
  destruct (to_double_exact _ (Hx a Ba)) as (i & Hi & Xi). destruct (to_double_exact _ (Hx b Bb)) as (u & Hu & Xu).
  cbn [xval] in Xi, Xu. rewrite <- pow_IZR in Xi, Xu. destruct (xfin_flt _ _ Xi) as [Fi Vi]. destruct (xfin_flt _ _ Xu) as [Fu Vu].
  assert (HR := kpow_run L X n m (PInt (a ^ Z.of_nat n)) (PInt (b ^ Z.of_nat n)) i u K). rewrite Ea, Eb in HR. specialize (HR eq_refl eq_refl Hi Hu).
  eexists. split; [exact HR|]. clear HR.
  assert (Fm := proj1 (flt_max2_fin i u Fi Fu)). assert (Vm := flt_max2_val i u Fi Fu). rewrite Vi, Vu in Vm.
  destruct (xflt_fin f0 0) as [F0 V0]; [reflexivity|].
  unfold range_ends. rewrite Va, Vb in *.
  destruct (Nat.even n && contains_num X (PInt 0)) eqn:B1.
  { apply andb_true_iff in B1. destruct B1 as [E B1]. apply (contains_fin X FX) in B1. rewrite Va, Vb in B1.
    assert (Z : between (IZR a) (IZR b) 0) by (unfold between; rewrite Rmin_left, Rmax_right; lra).
    split; [split; [exact F0 | exact Fm]|]. exists 0, (Rmax (IZR a ^ n) (IZR b ^ n)). destruct (pow_range_zero n _ _ E N Z) as [L1 U1].
    split; [exact L1|]. split; [exact U1|]. cbn [lo hi]. split; [intros _; split; [exact V0 | exact Vm] | lra]. }
  destruct (Nat.even n && contains_num (pro X) (PInt 0)) eqn:B2.
  { apply andb_true_iff in B2. destruct B2 as [E B2]. apply (contains_pro X FX K) in B2. rewrite Va, Vb in B2.
    split; [split; [exact Fm | exact F0]|]. exists 0, (Rmax (IZR a ^ n) (IZR b ^ n)). destruct (pow_range_zero n _ _ E N B2) as [L1 U1].
    split; [exact L1|]. split; [exact U1|]. cbn [lo hi]. split; [|intros _; split; [exact Vm | exact V0]].
    intro O. exfalso. rewrite E in B1. cbn [andb] in B1. assert (contains_num X (PInt 0) = true); [|congruence].
    apply (contains_fin X FX). rewrite Va, Vb. unfold between in B2. rewrite Rmin_left, Rmax_right in B2; lra. }
  assert (C' : Nat.even n = false \/ (0 <= IZR a /\ 0 <= IZR b)).
  { destruct C as [C | [C | C]]; auto. destruct (Nat.even n) eqn:E; auto. exfalso. cbn [andb] in B2.
    assert (contains_num (pro X) (PInt 0) = true); [|congruence]. apply (contains_pro X FX K). now rewrite Va, Vb. }
  destruct (pow_range_mono n (IZR a) (IZR b) C') as [L1 U1].
  split; [destruct (flt_ltb u i); split; assumption|]. exists (Rmin (IZR a) (IZR b) ^ n), (Rmax (IZR a) (IZR b) ^ n).
  split; [exact L1|]. split; [exact U1|].
  split; intro O; [rewrite Rmin_left, Rmax_right by lra | rewrite Rmin_right, Rmax_left by lra]; destruct (flt_ltb u i); cbn [lo hi num_val]; auto.
Qed.

(** *** Where the power is wrong *)
Theorem kpow_neg_refuted : exists X, kd X = Kaucher /\ int_ends X /\ num_val (hi X) < num_val (lo X) /\ forall L m,
  exists Z, returns (itv_pow L X (PInt 2)) m Z /\ ~ range_ends (fun x => x ^ 2) X Z /\
    num_val (lo X) ^ 2 = num_val (lo Z) /\ num_val (hi X) ^ 2 = num_val (hi Z) /\ num_val (lo Z) < num_val (hi Z).
Proof.
  exists (mkitv Kaucher (PInt (-1)) (PInt (-3))). split; [reflexivity|]. split; [now exists (-1)%Z, (-3)%Z|]. split; [simpl; lra|].
  intros L m. eexists. split; [exact (kpow_run L (mkitv Kaucher (PInt (-1)) (PInt (-3))) 2 m (PInt 1) (PInt 9) (fl 1 0) (fl 9 0) eq_refl eq_refl eq_refl eq_refl eq_refl)|].
  replace (flt_ltb (fl 9 0) (fl 1 0)) with false by (vm_compute; reflexivity). cbn [Nat.even andb].
  replace (contains_num (mkitv Kaucher (PInt (-1)) (PInt (-3))) (PInt 0)) with false by reflexivity.
  replace (contains_num (pro (mkitv Kaucher (PInt (-1)) (PInt (-3)))) (PInt 0)) with false by reflexivity.
  destruct (xval_fl_small 1) as [_ V1]; [lia|]. destruct (xval_fl_small 9) as [_ V9]; [lia|].
  cbn [lo hi num_val]. rewrite V1, V9. split; [|simpl; lra].
  intros (_ & l & u & [(x & Hx & El) L1] & [(y & Hy & Eu) U1] & _ & H). cbn [lo hi num_val] in *. rewrite V1, V9 in H. destruct H as [H1 H2]; [simpl; lra|].
  specialize (U1 l). assert (l <= u) by (apply U1; exists x; auto). lra.
Qed.
Theorem kpow_zero_refuted : exists X, kd X = Kaucher /\ int_ends X /\ forall L m,
  exists Z, returns (itv_pow L X (PInt 0)) m Z /\ num_val (lo Z) = 1 /\ num_val (hi Z) = 0 /\ ~ range_ends (fun x => x ^ 0) X Z.
Proof.
  exists (mkitv Kaucher (PInt 1) (PInt (-1))). split; [reflexivity|]. split; [now exists 1%Z, (-1)%Z|].
  intros L m. eexists. split; [exact (kpow_run L (mkitv Kaucher (PInt 1) (PInt (-1))) 0 m (PInt 1) (PInt 1) (fl 1 0) (fl 1 0) eq_refl eq_refl eq_refl eq_refl eq_refl)|].
  cbn [Nat.even andb].
  replace (contains_num (mkitv Kaucher (PInt 1) (PInt (-1))) (PInt 0)) with false by reflexivity.
  replace (contains_num (pro (mkitv Kaucher (PInt 1) (PInt (-1)))) (PInt 0)) with true by reflexivity.
  destruct (xval_fl_small 1) as [F1 V1]; [lia|]. assert (Vm := flt_max2_val _ _ F1 F1). rewrite V1, Rmax_left in Vm by lra.
  destruct (xflt_fin f0 0) as [F0 V0]; [reflexivity|]. cbn [lo hi]. split; [exact Vm|]. split; [exact V0|].
  intros (_ & l & u & [(x & _ & El) _] & _ & _ & H). cbn [lo hi] in H. destruct H as [_ H]; [simpl; lra|]. change (num_val pn0) with (num_val (PFlt f0)) in H. rewrite V0 in H. simpl in El. lra.
Qed.

(** *** Doubles *)
Lemma zero_pow L m (f : flt) n v : is_finite f = true -> B2R f = 0 -> (0 < n)%nat -> float_pow L m f (Z.of_nat n) = Ok v -> xflt v = XFin 0.
Proof.
  intros F Z N. destruct f as [s|s| |s mm e B]; try discriminate F.
  - unfold float_pow, rbind. destruct (int_to_double _); [|discriminate]. destruct (Z.eqb_spec (Z.of_nat n) 0); [lia|].
    intro H. apply Ok_inj in H. subst v. destruct Z.odd; reflexivity.
  - exfalso. simpl in Z. apply eq_0_F2R in Z. destruct s; discriminate.
Qed.
Theorem kpow_double L X n m Z : kd X = Kaucher -> fin_double_itv X -> (0 < n)%nat -> pow_directed L n -> 0 <= num_val (lo X) -> 0 <= num_val (hi X) ->
  returns (itv_pow L X (PInt (Z.of_nat n))) m Z -> num_le_R (lo Z) (num_val (lo X) ^ n) /\ R_le_num (num_val (hi X) ^ n) (hi Z).
Proof.
  intros K [D1 D2] N HL Pa Pb HR. destruct (lo X) as [|fa] eqn:Ea; [contradiction|]. destruct (hi X) as [|fb] eqn:Eb; [contradiction|]. cbn [fin_double] in D1, D2.
  assert (FX : finite_itv X) by (split; [rewrite Ea | rewrite Eb]; assumption).
  assert (Xa : xval (PFlt fa) = XFin (B2R fa)) by (now apply is_finite_x). assert (Xb : xval (PFlt fb) = XFin (B2R fb)) by (now apply is_finite_x).
  destruct (float_pow L FE_DOWNWARD fa (Z.of_nat n)) as [i|] eqn:Hi; [|exfalso; revert HR; unfold returns, outcome, itv_pow, kaucher_pow; rewrite K;
    (assert (Le : (0 <=? Z.of_nat n)%Z = true) by (apply Z.leb_le; lia)); rewrite Le, Ea; unfold mbind at 1; rewrite with_rounding_run;
    unfold as_double, pow_, mprim, mbind at 1; cbn [num_pow]; rewrite Hi; cbn; discriminate].
  destruct (float_pow L FE_UPWARD fb (Z.of_nat n)) as [u|] eqn:Hu; [|exfalso; revert HR; unfold returns, outcome, itv_pow, kaucher_pow; rewrite K;
    (assert (Le : (0 <=? Z.of_nat n)%Z = true) by (apply Z.leb_le; lia)); rewrite Le, Ea, Eb; unfold mbind at 1; rewrite with_rounding_run;
    unfold as_double, pow_, mprim, mbind at 1; cbn [num_pow]; rewrite Hi; cbn [rbind fst mlift mret to_double]; unfold mbind at 1; rewrite with_rounding_run;
    unfold mbind at 1; rewrite Hu; cbn; discriminate].
  assert (HR' := kpow_run L X n m (PFlt i) (PFlt u) i u K). rewrite Ea, Eb in HR'. cbn [num_pow] in HR'. rewrite Hi, Hu in HR'. specialize (HR' eq_refl eq_refl eq_refl eq_refl).
  assert (E := HR'). unfold returns in HR, E. rewrite HR in E. apply Ok_inj in E. subst Z. clear HR HR'.
  assert (S1 : forall f : flt, is_finite f = true -> 0 <= B2R f -> Nat.even n = true \/ xleb (XFin 0) (xval (PFlt f)) = true \/ (exists z, PFlt f = PInt z)).
  { intros f Ff P. right; left. cbn [xval]. rewrite (proj1 (is_finite_x f) Ff). now apply xleb_fin. }
  cbn [num_val] in *.
  destruct (num_pow_bound L n (PFlt fa) FE_DOWNWARD (PFlt i) (or_introl HL) (S1 fa D1 Pa)) as [QA _]; [rewrite Xa; discriminate | cbn [num_pow]; now rewrite Hi |].
  destruct (num_pow_bound L n (PFlt fb) FE_UPWARD (PFlt u) (or_introl HL) (S1 fb D2 Pb)) as [_ QB]; [rewrite Xb; discriminate | cbn [num_pow]; now rewrite Hu |].
  destruct (QA eq_refl) as [NA LA]. destruct (QB eq_refl) as [NB LB]. rewrite Xa, xpowE_fin in LA. rewrite Xb, xpowE_fin in LB.
  specialize (LA (B2R fa ^ n) (Rle_refl _)). specialize (LB (B2R fb ^ n) (Rle_refl _)). cbn [xval] in *.
  assert (Lo : num_le_R (PFlt i) (B2R fa ^ n)) by (now apply num_le_R_x). assert (Hi' : R_le_num (B2R fb ^ n) (PFlt u)) by (now apply R_le_num_x).
  destruct (Nat.even n && contains_num X (PInt 0)) eqn:B1.
  { apply andb_true_iff in B1. destruct B1 as [E B1]. apply (contains_fin X FX) in B1. rewrite Ea, Eb in B1. cbn [num_val] in B1.
    assert (A0 : B2R fa = 0) by lra. cbn [lo hi]. rewrite A0, pow_i by exact N. split; [apply num_le_R_x; cbn; lra|].
    apply R_le_num_x. cbn [xval]. rewrite flt_max2_x. eapply R_xle_xleb; [exact LB | now apply xmax2_ge_r]. }
  destruct (Nat.even n && contains_num (pro X) (PInt 0)) eqn:B2; [|destruct (flt_ltb u i); cbn [lo hi]; auto].
  apply andb_true_iff in B2. destruct B2 as [E B2]. apply (contains_pro X FX K) in B2. rewrite Ea, Eb in B2. cbn [num_val] in B2.
  assert (B0 : B2R fb = 0).
  { rewrite E in B1. cbn [andb] in B1. destruct (Rle_lt_dec (B2R fa) 0) as [C|C].
    - exfalso. assert (contains_num X (PInt 0) = true); [|congruence]. apply (contains_fin X FX). rewrite Ea, Eb. cbn [num_val]. lra.
    - unfold between, Rmin in B2. destruct (Rle_dec (B2R fa) (B2R fb)); lra. }
  assert (U0 := zero_pow L _ fb n u D2 B0 N Hu). cbn [lo hi]. rewrite B0, pow_i by exact N. split; [|apply R_le_num_x; cbn; lra].
  apply num_le_R_x. cbn [xval]. rewrite flt_max2_x, U0. unfold xmax2. destruct (xltb (xflt i) (XFin 0)); [|exact LA].
  cbn. now apply pow_le.
Qed.
