(** The algebraic inverse and Kaucher division: what the computed endpoints are. *)
From Coq Require Import ZArith Reals List Bool Lia Lra Psatz.
From Coq Require Import Floats.SpecFloat.
From Flocq Require Import Core IEEE754.BinarySingleNaN.
From Verif Require Import Base PyNum Kernel Spec XReal XArith KernelProofs Expr ExprProofs KernelAlg KaucherProofs KernelMore.
Import ListNotations.
Open Scope R_scope.

Definition one_x := xval_pn1.

Lemma inv_ends X m : small_itv X -> finite_itv X -> num_val (lo X) <> 0 -> num_val (hi X) <> 0 ->
  exists Z, returns (inv X) m Z /\
    greatest_lower_double (fun r => r = 1 / num_val (lo X)) (lo Z) /\
    least_upper_double (fun r => r = 1 / num_val (hi X)) (hi Z) /\
    (kd Z = Classical <-> num_val (hi X) <= num_val (lo X)).
Proof.
  intros [S1 S2] [F1 F2] N1 N2. apply finite_num_x in F1, F2.
  assert (D1 : dbl_run (as_double (div_ pn1 (lo X))) FE_DOWNWARD (xround mode_DN (1 / num_val (lo X)))).
  { assert (H : xval (lo X) <> XFin 0) by (rewrite F1; congruence).
    generalize (div_run FE_DOWNWARD pn1 (lo X) I S1 H). now rewrite one_x, F1. }
  assert (D2 : dbl_run (as_double (div_ pn1 (hi X))) FE_UPWARD (xround mode_UP (1 / num_val (hi X)))).
  { assert (H : xval (hi X) <> XFin 0) by (rewrite F2; congruence).
    generalize (div_run FE_UPWARD pn1 (hi X) I S2 H). now rewrite one_x, F2. }
  destruct D1 as (i & Hi & Xi). destruct D2 as (u & Hu & Xu).
  exists (mkitv (if num_le (hi X) (lo X) then Classical else Kaucher) (PFlt i) (PFlt u)).
  split.
  { unfold returns, outcome, inv. rewrite (bind_ok _ _ _ _ _ (with_rounding_ok _ _ m _ _ Hi)).
    rewrite (bind_ok _ _ _ _ _ (with_rounding_ok _ _ m _ _ Hu)). now destruct num_le. }
  split; [|split].
  - apply greatest_of_in with [1 / num_val (lo X)].
    + intros r ->. apply num_le_R_x. cbn [lo xval]. rewrite Xi. apply xround_DN_le.
    + now intros p [<-|[]].
    + eexists. split; [left; reflexivity|]. exact Xi.
  - apply least_of_in with [1 / num_val (hi X)].
    + intros r ->. apply R_le_num_x. cbn [hi xval]. rewrite Xu. apply xround_UP_ge.
    + now intros p [<-|[]].
    + eexists. split; [left; reflexivity|]. exact Xu.
  - cbn [kd]. rewrite num_le_x, F1, F2. rewrite <- xleb_fin. destruct xleb; split; intro Q; try reflexivity; discriminate.
Qed.

(** products of non-negative operands, by either formula *)
Lemma nn_gives X Y a b c d m (f : itv -> itv -> M itv) : (f = mul_sum \/ f = mul_max) ->
  small_itv X -> small_itv Y ->
  xval (lo X) = XFin a -> xval (hi X) = XFin b -> xval (lo Y) = XFin c -> xval (hi Y) = XFin d ->
  0 <= a -> 0 <= b -> 0 <= c -> 0 <= d ->
  gives (f X Y) m Kaucher (xround mode_DN (a * c)) (xround mode_UP (b * d)).
Proof.
  intros Hf sX sY E1 E2 E3 E4 P1 P2 P3 P4.
  assert (G : gives (f X Y) m Kaucher
    (xmaxf mode_DN (rpos a) (rpos c) (rneg b) (rneg d) (rpos b) (rneg c) (rneg a) (rpos d))
    (xmaxf mode_UP (rpos b) (rpos d) (rneg a) (rneg c) (rpos a) (rneg d) (rneg b) (rpos c))).
  { destruct Hf as [-> | ->].
    - rewrite <- !sum_is_max; [now apply mul_sum_gives | ..];
      rewrite ?(rpos_nn _ P1), ?(rpos_nn _ P2), ?(rpos_nn _ P3), ?(rpos_nn _ P4), ?(rneg_nn _ P1), ?(rneg_nn _ P2), ?(rneg_nn _ P3), ?(rneg_nn _ P4);
      rewrite ?Rmult_0_l, ?Rmult_0_r; auto using Rmult_le_pos with real.
    - now apply mul_max_gives. }
  rewrite !(rpos_nn _ P1), !(rpos_nn _ P2), !(rpos_nn _ P3), !(rpos_nn _ P4), !(rneg_nn _ P1), !(rneg_nn _ P2), !(rneg_nn _ P3), !(rneg_nn _ P4) in G.
  unfold xmaxf in G. rewrite !Rmult_0_r, !Rmult_0_l, !xround_0 in G.
  rewrite (xmax2_0_r (XFin 0)) in G by (apply xleb_refl; discriminate).
  rewrite !(xmax2_0_r) in G by (apply xround_nn; now apply Rmult_le_pos).
  rewrite !xsub_0_r in G by apply xround_dbl. exact G.
Qed.

Lemma recip_small c m : bpow radix2 (-1022) <= c -> xround m (1 / c) = XFin (rnd m (1 / c)) /\ 0 <= rnd m (1 / c).
Proof.
  intro H. assert (P := bpow_gt_0 radix2 (-1022)).
  assert (Q : 0 < 1 / c) by (apply Rdiv_lt_0_compat; lra).
  assert (N : 0 <= rnd m (1 / c)) by (apply rnd_nn; lra). split; [|exact N].
  unfold xround. rewrite Rlt_bool_true; [reflexivity|]. rewrite Rabs_pos_eq by exact N.
  apply Rle_lt_trans with (bpow radix2 1022); [|apply bpow_lt; lia].
  apply round_le_generic; auto with typeclass_instances.
  - apply generic_format_bpow. vm_compute. discriminate.
  - unfold Rdiv. rewrite Rmult_1_l. change 1022%Z with (- (-1022))%Z. rewrite bpow_opp. apply Rinv_le; assumption.
Qed.

Lemma kaucher_div X Y m : ~ (kd X = Classical /\ kd Y = Classical) -> small_itv X -> small_itv Y -> finite_itv X -> finite_itv Y ->
  0 <= num_val (lo X) -> 0 <= num_val (hi X) -> min_normal <= num_val (lo Y) -> min_normal <= num_val (hi Y) ->
  exists Z, returns (py_div (OItv X) (OItv Y)) m Z /\ kd Z = Kaucher /\
    num_le_R (lo Z) (num_val (lo X) / num_val (hi Y)) /\
    R_le_num (num_val (hi X) / num_val (lo Y)) (hi Z).
Proof.
  intros NC sX [S3 S4] [F1 F2] [F3 F4] P1 P2 B3 B4. apply finite_num_x in F1, F2, F3, F4.
  assert (P := bpow_gt_0 radix2 (-1022)). fold min_normal in P.
  destruct (recip_small (num_val (hi Y)) mode_DN B4) as [R1 N1]. destruct (recip_small (num_val (lo Y)) mode_UP B3) as [R2 N2].
  assert (D1 : dbl_run (as_double (div_ pn1 (hi Y))) FE_DOWNWARD (XFin (rnd mode_DN (1 / num_val (hi Y))))).
  { assert (H : xval (hi Y) <> XFin 0) by (rewrite F4; intro Q; injection Q; lra).
    generalize (div_run FE_DOWNWARD pn1 (hi Y) I S4 H). rewrite one_x, F4. unfold xdiv. unfold FE_DOWNWARD. now rewrite R1. }
  assert (D2 : dbl_run (as_double (div_ pn1 (lo Y))) FE_UPWARD (XFin (rnd mode_UP (1 / num_val (lo Y))))).
  { assert (H : xval (lo Y) <> XFin 0) by (rewrite F3; intro Q; injection Q; lra).
    generalize (div_run FE_UPWARD pn1 (lo Y) I S3 H). rewrite one_x, F3. unfold xdiv. unfold FE_UPWARD. now rewrite R2. }
  destruct D1 as (i & Hi & Xi). destruct D2 as (u & Hu & Xu).
  assert (HR : recip Y m = (Ok (i, u), m)).
  { unfold recip. rewrite (bind_ok _ _ _ _ _ (with_rounding_ok _ _ m _ _ Hi)).
    rewrite (bind_ok _ _ _ _ _ (with_rounding_ok _ _ m _ _ Hu)). reflexivity. }
  assert (NZ : contains_num Y pn0 = false).
  { rewrite contains0_x, F3. destruct (xleb (XFin (num_val (lo Y))) (XFin 0)) eqn:Q; [|reflexivity]. apply xleb_fin in Q. lra. }
  assert (G : exists k f, (f = mul_sum \/ f = mul_max) /\
     itv_div X (OItv Y) m = f X (mkitv k (PFlt i) (PFlt u)) m).
  { unfold itv_div. rewrite NZ. destruct (kd X), (kd Y); [tauto | ..].
    - exists Kaucher, mul_sum. split; [auto|]. rewrite (bind_ok _ _ _ _ _ HR). reflexivity.
    - exists Classical, mul_sum. split; [auto|]. rewrite (bind_ok _ _ _ _ _ HR). reflexivity.
    - exists Kaucher, mul_max. split; [auto|]. rewrite (bind_ok _ _ _ _ _ HR). reflexivity. }
  destruct G as (k & f & Hf & G).
  assert (GV := nn_gives X (mkitv k (PFlt i) (PFlt u)) _ _ _ _ m f Hf sX (conj I I) F1 F2 Xi Xu P1 P2 N1 N2).
  destruct (gives_returns _ _ _ _ _ GV) as (Z & HZ & KZ & Hl & Hh & _).
  exists Z. split; [unfold returns, outcome in *; unfold py_div; now rewrite G|]. split; [assumption|]. split.
  - apply num_le_R_x. rewrite Hl.
    assert (A := xround_DN_le (num_val (lo X) * rnd mode_DN (1 / num_val (hi Y)))).
    refine (xle_R_trans _ _ _ A _). change (num_val (lo X) / num_val (hi Y)) with (num_val (lo X) * / num_val (hi Y)). apply Rmult_le_compat_l; [assumption|].
    generalize (rnd_DN_le (1 / num_val (hi Y))). unfold Rdiv. lra.
  - apply R_le_num_x. rewrite Hh.
    assert (A := xround_UP_ge (num_val (hi X) * rnd mode_UP (1 / num_val (lo Y)))).
    refine (R_xle_trans _ _ _ A _). unfold Rdiv at 1. apply Rmult_le_compat_l; [assumption|].
    generalize (rnd_UP_ge (1 / num_val (lo Y))). unfold Rdiv. lra.
Qed.
