(** How the operations on generalized intervals round. *)
From Coq Require Import ZArith Reals List Bool Lia Lra Psatz.
From Coq Require Import Floats.SpecFloat.
From Flocq Require Import Core IEEE754.BinarySingleNaN.
From Verif Require Import Base PyNum Kernel Spec XReal XArith KernelProofs Expr ExprProofs KernelAlg KaucherProofs KernelMore KaucherDiv IsoProofs SpecKaucher.
Import ListNotations.
Open Scope R_scope.

Lemma down_of x v : xval x = xround mode_DN v -> rounded_down v x.
Proof.
  intro E. split.
  - intros r ->. apply num_le_R_x. rewrite E. apply xround_DN_le.
  - intros g G H. rewrite num_le_x, E. apply xround_DN_greatest; [now exists g|]. apply flt_le_R_x. now apply H.
Qed.
Lemma up_of x v : xval x = xround mode_UP v -> rounded_up v x.
Proof.
  intro E. split.
  - intros r ->. apply R_le_num_x. rewrite E. apply xround_UP_ge.
  - intros g G H. rewrite num_le_x, E. apply xround_UP_least; [now exists g|]. apply R_le_flt_x. now apply H.
Qed.

Definition xtz (v : R) : xreal := if Rle_dec 0 v then xround mode_DN v else xround mode_UP v.
Definition xaz (v : R) : xreal := if Rle_dec 0 v then xround mode_UP v else xround mode_DN v.
Lemma tz_of x v : xval x = xtz v -> toward_zero v x.
Proof.
  unfold xtz. intro E. destruct (Rle_dec 0 v).
  - split; intro; [now apply down_of|]. apply up_of. replace v with 0 in * by lra. now rewrite xround_0 in *.
  - split; intro; [lra | now apply up_of].
Qed.
Lemma az_of x v : xval x = xaz v -> away_from_zero v x.
Proof.
  unfold xaz. intro E. destruct (Rle_dec 0 v).
  - split; intro; [now apply up_of|]. apply down_of. replace v with 0 in * by lra. now rewrite xround_0 in *.
  - split; intro; [lra | now apply down_of].
Qed.

Definition omode (m : rmode) : rmode := match m with mode_DN => mode_UP | mode_UP => mode_DN | m => m end.
Lemma rnd_opp_DN x : - rnd mode_DN x = rnd mode_UP (- x).
Proof. rewrite rnd_DN, rnd_UP, round_UP_opp. reflexivity. Qed.
Lemma rnd_opp_UP x : - rnd mode_UP x = rnd mode_DN (- x).
Proof. rewrite rnd_DN, rnd_UP, round_DN_opp. reflexivity. Qed.
Lemma big_ne0 m x : Rlt_bool (Rabs (rnd m x)) (bpow radix2 1024) = false -> x <> 0.
Proof. apply overflow_ne0. Qed.
Lemma xround_opp_DN x : xopp (xround mode_DN x) = xround mode_UP (- x).
Proof.
  unfold xround. rewrite <- rnd_opp_DN, Rabs_Ropp.
  destruct (Rlt_bool (Rabs (rnd mode_DN x)) (bpow radix2 1024)) eqn:E; [reflexivity|].
  assert (N := overflow_ne0 _ _ E). destruct (Rlt_bool_spec x 0), (Rlt_bool_spec (- x) 0); try lra; cbn [overflow_to_inf xopp]; try reflexivity; cbn; rewrite ?Ropp_involutive; reflexivity.
Qed.
Lemma xround_opp_UP x : xopp (xround mode_UP x) = xround mode_DN (- x).
Proof.
  unfold xround. rewrite <- rnd_opp_UP, Rabs_Ropp.
  destruct (Rlt_bool (Rabs (rnd mode_UP x)) (bpow radix2 1024)) eqn:E; [reflexivity|].
  assert (N := overflow_ne0 _ _ E). destruct (Rlt_bool_spec x 0), (Rlt_bool_spec (- x) 0); try lra; cbn [overflow_to_inf xopp]; try reflexivity; cbn; rewrite ?Ropp_involutive; reflexivity.
Qed.
Lemma xsub_0_l m v : is_dbl v -> xsub m (XFin 0) v = xopp v.
Proof. intro D. unfold xsub. apply xadd_0_l. now apply is_dbl_opp'. Qed.

Lemma xmaxf_DN p q r s P Q : 0 <= P -> 0 <= Q -> P = 0 \/ Q = 0 -> Rmax (p * q) (r * s) = P ->
  forall e f g h, Rmax (e * f) (g * h) = Q -> xmaxf mode_DN p q r s e f g h = xtz (P - Q) /\ xmaxf mode_UP p q r s e f g h = xaz (P - Q).
Proof.
  intros HP HQ D EP e f g h EQ. unfold xmaxf. rewrite !xmax2_round, EP, EQ. unfold xtz, xaz.
  destruct (Rle_dec 0 (P - Q)).
  - replace Q with 0 by lra. rewrite !xround_0, !xsub_0_r, Rminus_0_r by apply xround_dbl. auto.
  - replace P with 0 by lra. rewrite !xround_0, !xsub_0_l, xround_opp_DN, xround_opp_UP by apply xround_dbl. rewrite Rminus_0_l. auto.
Qed.
Ltac four a b c d := destruct (Rle_dec 0 a), (Rle_dec 0 b), (Rle_dec 0 c), (Rle_dec 0 d);
  repeat match goal with
  | H : 0 <= ?x |- _ => rewrite ?(rpos_nn x H), ?(rneg_nn x H); revert H
  | H : ~ 0 <= ?x |- _ => rewrite ?(rpos_np x), ?(rneg_np x) by lra; revert H
  end; intros.
Lemma pq_lo a b c d : Rmax (rpos a * rpos c) (rneg b * rneg d) = 0 \/ Rmax (rpos b * rneg c) (rneg a * rpos d) = 0.
Proof. four a b c d; rewrite ?Rmult_0_l, ?Rmult_0_r; first [left; apply Rmax_left; lra | right; apply Rmax_left; lra]. Qed.
Lemma pq_hi a b c d : Rmax (rpos b * rpos d) (rneg a * rneg c) = 0 \/ Rmax (rpos a * rneg d) (rneg b * rpos c) = 0.
Proof. four a b c d; rewrite ?Rmult_0_l, ?Rmult_0_r; first [left; apply Rmax_left; lra | right; apply Rmax_left; lra]. Qed.
Lemma max_nn p q r s : 0 <= p -> 0 <= q -> 0 <= Rmax (p * q) (r * s).
Proof. intros. apply Rle_trans with (p * q); [now apply Rmult_le_pos | apply Rmax_l]. Qed.

(** The product as computed: the lower end rounds towards zero, the upper away from it. *)
Lemma xmaxf_klo a b c d :
  xmaxf mode_DN (rpos a) (rpos c) (rneg b) (rneg d) (rpos b) (rneg c) (rneg a) (rpos d) = xtz (klo a b c d).
Proof. apply xmaxf_DN; auto using max_nn with kau. apply pq_lo. Qed.
Lemma xmaxf_khi a b c d :
  xmaxf mode_UP (rpos b) (rpos d) (rneg a) (rneg c) (rpos a) (rneg d) (rneg b) (rpos c) = xaz (khi_ a b c d).
Proof. apply xmaxf_DN; auto using max_nn with kau. apply pq_hi. Qed.

Lemma mul_max_rounds X Y a b c d m : small_itv X -> small_itv Y ->
  xval (lo X) = XFin a -> xval (hi X) = XFin b -> xval (lo Y) = XFin c -> xval (hi Y) = XFin d ->
  gives (mul_max X Y) m Kaucher (xtz (klo a b c d)) (xaz (khi_ a b c d)).
Proof. intros. rewrite <- xmaxf_klo, <- xmaxf_khi. now apply mul_max_gives. Qed.
Lemma mul_sum_rounds X Y a b c d m : small_itv X -> small_itv Y ->
  xval (lo X) = XFin a -> xval (hi X) = XFin b -> xval (lo Y) = XFin c -> xval (hi Y) = XFin d ->
  (a <= b /\ d < c) \/ (0 <= c /\ 0 <= d) \/ (c <= 0 /\ d <= 0) ->
  gives (mul_sum X Y) m Kaucher (xtz (klo a b c d)) (xaz (khi_ a b c d)).
Proof.
  intros sX sY Ea Eb Ec Ed [[H1 H2] | C].
  - rewrite <- xmaxf_klo, <- xmaxf_khi, <- sum_max_lo, <- sum_max_hi by assumption. now apply mul_sum_gives.
  - rewrite <- xmaxf_klo, <- xmaxf_khi, <- !sum_is_max; [now apply mul_sum_gives | ..]; auto with kau;
    destruct C as [[P3 P4] | [P3 P4]]; rewrite ?(rpos_nn _ P3), ?(rpos_nn _ P4), ?(rneg_nn _ P3), ?(rneg_nn _ P4), ?(rpos_np _ P3), ?(rpos_np _ P4), ?Rmult_0_r; auto.
Qed.
Lemma product_rounds X Y m : ~ (kd X = Classical /\ kd Y = Classical) -> (kd X = Classical -> well_kinded X /\ well_kinded Y) ->
  small_itv X -> small_itv Y -> finite_itv X -> finite_itv Y ->
  gives (py_mul (OItv X) (OItv Y)) m Kaucher
    (xtz (klo (num_val (lo X)) (num_val (hi X)) (num_val (lo Y)) (num_val (hi Y))))
    (xaz (khi_ (num_val (lo X)) (num_val (hi X)) (num_val (lo Y)) (num_val (hi Y)))).
Proof.
  intros NC W sX sY [F1 F2] [F3 F4]. apply finite_num_x in F1, F2, F3, F4. unfold py_mul, itv_mul.
  destruct (kd X) eqn:KX, (kd Y) eqn:KY; [tauto | ..]; try now apply mul_max_rounds.
  destruct (W eq_refl) as [WX WY]. apply mul_sum_rounds; try assumption. left.
  split; [exact (wk_proper _ _ _ WX KX F1 F2) | exact (wk_improper _ _ _ WY KY F3 F4)].
Qed.
Lemma ends_of a b c d : kaucher_ends a b c d (klo a b c d) (khi_ a b c d).
Proof. split; [apply klo_spec | apply khi_spec]. Qed.

(** *** Addition and subtraction *)
Theorem add_rounds X Y m : small_itv X -> small_itv Y -> finite_itv X -> finite_itv Y ->
  exists Z, returns (py_add (OItv X) (OItv Y)) m Z /\
    rounded_down (num_val (lo X) + num_val (lo Y)) (lo Z) /\ rounded_up (num_val (hi X) + num_val (hi Y)) (hi Z) /\
    (kd Z = Classical <-> kd X = Classical /\ kd Y = Classical).
Proof.
  intros sX sY [F1 F2] [F3 F4]. apply finite_num_x in F1, F2, F3, F4.
  destruct (gives_returns _ _ _ _ _ (add_gives X Y m sX sY)) as (Z & HZ & K & L & U & _). rewrite F1, F3 in L. rewrite F2, F4 in U.
  exists Z. split; [exact HZ|]. split; [now apply down_of|]. split; [now apply up_of|]. rewrite K. destruct (kd X), (kd Y); intuition discriminate.
Qed.
Theorem sub_rounds X Y m : small_itv X -> small_itv Y -> finite_itv X -> finite_itv Y ->
  exists Z, returns (py_sub (OItv X) (OItv Y)) m Z /\
    rounded_down (num_val (lo X) - num_val (hi Y)) (lo Z) /\ rounded_up (num_val (hi X) - num_val (lo Y)) (hi Z) /\
    (kd Z = Classical <-> kd X = Classical /\ kd Y = Classical).
Proof.
  intros sX sY [F1 F2] [F3 F4]. apply finite_num_x in F1, F2, F3, F4.
  destruct (gives_returns _ _ _ _ _ (sub_gives X Y m sX sY)) as (Z & HZ & K & L & U & _). rewrite F1, F4 in L. rewrite F2, F3 in U.
  exists Z. split; [exact HZ|]. split; [now apply down_of|]. split; [now apply up_of|]. rewrite K. destruct (kd X), (kd Y); intuition discriminate.
Qed.
Theorem mul_rounds X Y m : ~ (kd X = Classical /\ kd Y = Classical) -> (kd X = Classical -> well_kinded X /\ well_kinded Y) ->
  small_itv X -> small_itv Y -> finite_itv X -> finite_itv Y ->
  exists Z l u, returns (py_mul (OItv X) (OItv Y)) m Z /\ kd Z = Kaucher /\
    kaucher_ends (num_val (lo X)) (num_val (hi X)) (num_val (lo Y)) (num_val (hi Y)) l u /\ toward_zero l (lo Z) /\ away_from_zero u (hi Z).
Proof.
  intros NC W sX sY FX FY. destruct (gives_returns _ _ _ _ _ (product_rounds X Y m NC W sX sY FX FY)) as (Z & HZ & K & L & U & _).
  exists Z. eexists. eexists. split; [exact HZ|]. split; [exact K|]. split; [apply ends_of|]. split; [now apply tz_of | now apply az_of].
Qed.

(** *** Number operands *)
Lemma krmul_rounds X v c m a b : small_itv X -> small_num v -> xval (lo X) = XFin a -> xval (hi X) = XFin b -> xval v = XFin c ->
  gives (kaucher_rmul X v) m Kaucher (xtz (klo a b c c)) (xaz (khi_ a b c c)).
Proof.
  intros sX sv Ea Eb Ec.
  rewrite <- xmaxf_klo, <- xmaxf_khi, <- !sum_is_max; auto with kau;
    try lazymatch goal with |- _ \/ _ => destruct (Rle_dec 0 c); [rewrite ?(rneg_nn c), ?Rmult_0_r by lra | rewrite ?(rpos_np c), ?Rmult_0_r by lra]; auto end.
  destruct sX as [S1 S2]. unfold gives, kaucher_rmul.
  destruct (plus_run _ a m S1 Ea) as (p1 & H1 & V1). destruct (plus_run _ b m S2 Eb) as (p2 & H2 & V2).
  destruct (minus_run p1 _ a m S1 Ea V1) as (q1 & K1 & W1). destruct (minus_run p2 _ b m S2 Eb V2) as (q2 & K2 & W2).
  destruct (plus_run _ c m sv Ec) as (p3 & H3 & V3). destruct (minus_run p3 _ c m sv Ec V3) as (q3 & K3 & W3).
  rewrite (bind_ok _ _ _ _ _ H1), (bind_ok _ _ _ _ _ H2), (bind_ok _ _ _ _ _ K1), (bind_ok _ _ _ _ _ K2), (bind_ok _ _ _ _ _ H3), (bind_ok _ _ _ _ _ K3), (bind_ok _ _ _ _ _ K3).
  apply two_ends; apply sum_run; assumption.
Qed.
Lemma kscale a b c : klo a b c c = (if Rle_dec 0 c then c * a else c * b) /\ khi_ a b c c = (if Rle_dec 0 c then c * b else c * a).
Proof.
  assert (M1 : forall p q, 0 <= p -> 0 <= q -> Rmax (p * q) 0 = p * q) by (intros; apply Rmax_left; auto with kau).
  assert (M2 : forall p q, 0 <= p -> 0 <= q -> Rmax 0 (p * q) = p * q) by (intros; apply Rmax_right; auto with kau).
  assert (D : forall x, rpos x - rneg x = x) by (intro; unfold rpos, rneg; ring).
  unfold klo, khi_. destruct (Rle_dec 0 c) as [H|H].
  - rewrite (rpos_nn c), (rneg_nn c), !Rmult_0_r, !M1, !M2 by auto with kau.
    rewrite <- (D a) at 3. rewrite <- (D b) at 3. split; ring.
  - assert (0 <= - c) by lra. rewrite (rpos_np c), (rneg_np c), !Rmult_0_r, !M1, !M2 by (auto with kau; lra).
    rewrite <- (D b) at 3. rewrite <- (D a) at 3. split; ring.
Qed.
Theorem number_rounds X v m : kd X = Kaucher -> small_itv X -> small_num v -> finite_itv X -> finite_num v ->
  exists Z, returns (py_mul (OItv X) (ONum v)) m Z /\ returns (py_mul (ONum v) (OItv X)) m Z /\ kd Z = Kaucher /\
    toward_zero (if Rle_dec 0 (num_val v) then num_val v * num_val (lo X) else num_val v * num_val (hi X)) (lo Z) /\
    away_from_zero (if Rle_dec 0 (num_val v) then num_val v * num_val (hi X) else num_val v * num_val (lo X)) (hi Z).
Proof.
  intros KX sX sv [F1 F2] Fv. apply finite_num_x in F1, F2, Fv.
  destruct (gives_returns _ _ _ _ _ (krmul_rounds X v _ m _ _ sX sv F1 F2 Fv)) as (Z & HZ & K & L & U & _).
  destruct (kscale (num_val (lo X)) (num_val (hi X)) (num_val v)) as [E1 E2]. rewrite E1 in L. rewrite E2 in U.
  exists Z. unfold py_mul, itv_mul, rmul. rewrite KX. repeat (split; [assumption|]). split; [now apply tz_of | now apply az_of].
Qed.

(** *** Division *)
Lemma recip_any c m : min_normal <= Rabs c -> xround m (1 / c) = XFin (rnd m (1 / c)) /\ ((0 < c -> 0 <= rnd m (1 / c)) /\ (c < 0 -> rnd m (1 / c) <= 0)).
Proof.
  intro H. assert (P := bpow_gt_0 radix2 (-1022)). unfold min_normal in H.
  assert (N : c <> 0) by (intros ->; rewrite Rabs_R0 in H; lra).
  assert (B : Rabs (rnd m (1 / c)) <= bpow radix2 1022).
  { apply abs_round_le_generic; auto with typeclass_instances.
    - apply generic_format_bpow. vm_compute. discriminate.
    - unfold Rdiv. rewrite Rmult_1_l, Rabs_inv. change 1022%Z with (- (-1022))%Z. rewrite bpow_opp. apply Rinv_le; assumption. }
  split; [|split; intro S0].
  - unfold xround. rewrite Rlt_bool_true; [reflexivity|]. apply Rle_lt_trans with (1 := B). apply bpow_lt; lia.
  - apply rnd_nn. unfold Rdiv. rewrite Rmult_1_l. left. now apply Rinv_0_lt_compat.
  - apply round_le_generic; auto with typeclass_instances; [apply generic_format_0|]. unfold Rdiv. rewrite Rmult_1_l. left. now apply Rinv_lt_0_compat.
Qed.
Lemma div_gives X Y m : ~ (kd X = Classical /\ kd Y = Classical) -> small_itv X -> small_itv Y -> finite_itv X -> finite_itv Y -> divisor Y ->
  let p := rnd mode_DN (1 / num_val (hi Y)) in let q := rnd mode_UP (1 / num_val (lo Y)) in
  xround mode_DN (1 / num_val (hi Y)) = XFin p /\ xround mode_UP (1 / num_val (lo Y)) = XFin q /\
  gives (py_div (OItv X) (OItv Y)) m Kaucher (xtz (klo (num_val (lo X)) (num_val (hi X)) p q)) (xaz (khi_ (num_val (lo X)) (num_val (hi X)) p q)).
Proof.
  intros NC sX [S3 S4] [F1 F2] [F3 F4] DV. cbv zeta. apply finite_num_x in F1, F2, F3, F4.
  assert (P := bpow_gt_0 radix2 (-1022)). fold min_normal in P.
  assert (B3 : min_normal <= Rabs (num_val (lo Y))) by (destruct DV as [[A B] | [A B]]; unfold Rabs; destruct Rcase_abs; lra).
  assert (B4 : min_normal <= Rabs (num_val (hi Y))) by (destruct DV as [[A B] | [A B]]; unfold Rabs; destruct Rcase_abs; lra).
  destruct (recip_any (num_val (hi Y)) mode_DN B4) as (R1 & N1 & N1'). destruct (recip_any (num_val (lo Y)) mode_UP B3) as (R2 & N2 & N2').
  split; [exact R1|]. split; [exact R2|].
  assert (D1 : dbl_run (as_double (div_ pn1 (hi Y))) FE_DOWNWARD (XFin (rnd mode_DN (1 / num_val (hi Y))))).
  { assert (H : xval (hi Y) <> XFin 0) by (rewrite F4; intro Q; injection Q; destruct DV; lra).
    generalize (div_run FE_DOWNWARD pn1 (hi Y) I S4 H). rewrite one_x, F4. unfold xdiv. unfold FE_DOWNWARD. now rewrite R1. }
  assert (D2 : dbl_run (as_double (div_ pn1 (lo Y))) FE_UPWARD (XFin (rnd mode_UP (1 / num_val (lo Y))))).
  { assert (H : xval (lo Y) <> XFin 0) by (rewrite F3; intro Q; injection Q; destruct DV; lra).
    generalize (div_run FE_UPWARD pn1 (lo Y) I S3 H). rewrite one_x, F3. unfold xdiv. unfold FE_UPWARD. now rewrite R2. }
  destruct D1 as (i & Hi & Xi). destruct D2 as (u & Hu & Xu).
  assert (HR : recip Y m = (Ok (i, u), m)).
  { unfold recip. rewrite (bind_ok _ _ _ _ _ (with_rounding_ok _ _ m _ _ Hi)).
    rewrite (bind_ok _ _ _ _ _ (with_rounding_ok _ _ m _ _ Hu)). reflexivity. }
  assert (NZ : contains_num Y pn0 = false).
  { rewrite contains0_x, F3, F4. destruct (xleb (XFin (num_val (lo Y))) (XFin 0)) eqn:Q; [|reflexivity]. apply xleb_fin in Q.
    destruct (xleb (XFin 0) (XFin (num_val (hi Y)))) eqn:Q2; [|reflexivity]. apply xleb_fin in Q2. destruct DV; lra. }
  assert (SG : (0 <= rnd mode_DN (1 / num_val (hi Y)) /\ 0 <= rnd mode_UP (1 / num_val (lo Y))) \/ (rnd mode_DN (1 / num_val (hi Y)) <= 0 /\ rnd mode_UP (1 / num_val (lo Y)) <= 0)).
  { destruct DV as [[A B] | [A B]]; [left | right]; split; [apply N1 | apply N2 | apply N1' | apply N2']; lra. }
  unfold gives, py_div, itv_div. rewrite NZ. destruct (kd X), (kd Y); [tauto | ..]; rewrite (bind_ok _ _ _ _ _ HR); cbn [fst snd].
  - apply mul_sum_rounds; try assumption; [exact (conj I I) | now right].
  - apply mul_sum_rounds; try assumption; [exact (conj I I) | now right].
  - apply mul_max_rounds; try assumption. exact (conj I I).
Qed.
Theorem div_rounds X Y m : ~ (kd X = Classical /\ kd Y = Classical) -> small_itv X -> small_itv Y -> finite_itv X -> finite_itv Y -> divisor Y ->
  exists Z p q l u, returns (py_div (OItv X) (OItv Y)) m Z /\ kd Z = Kaucher /\
    is_finite p = true /\ is_finite q = true /\ rounded_down (1 / num_val (hi Y)) (PFlt p) /\ rounded_up (1 / num_val (lo Y)) (PFlt q) /\
    kaucher_ends (num_val (lo X)) (num_val (hi X)) (B2R p) (B2R q) l u /\ toward_zero l (lo Z) /\ away_from_zero u (hi Z).
Proof.
  intros NC sX sY FX FY DV. destruct (div_gives X Y m NC sX sY FX FY DV) as (R1 & R2 & G).
  destruct (gives_returns _ _ _ _ _ G) as (Z & HZ & K & L & U & _).
  destruct (xround_dbl mode_DN (1 / num_val (hi Y))) as [p Hp]. destruct (xround_dbl mode_UP (1 / num_val (lo Y))) as [q Hq].
  assert (Fp : is_finite p = true) by (apply is_finite_x; rewrite R1 in Hp; destruct p as [[]|[]| |]; try discriminate; reflexivity).
  assert (Fq : is_finite q = true) by (apply is_finite_x; rewrite R2 in Hq; destruct q as [[]|[]| |]; try discriminate; reflexivity).
  assert (Vp : B2R p = rnd mode_DN (1 / num_val (hi Y))) by (apply is_finite_x in Fp; congruence).
  assert (Vq : B2R q = rnd mode_UP (1 / num_val (lo Y))) by (apply is_finite_x in Fq; congruence).
  exists Z, p, q. eexists. eexists. split; [exact HZ|]. split; [exact K|]. split; [exact Fp|]. split; [exact Fq|].
  split; [apply down_of; exact Hp|]. split; [apply up_of; exact Hq|]. rewrite Vp, Vq. split; [apply ends_of|].
  split; [now apply tz_of | now apply az_of].
Qed.
