(** The Kaucher product formulas of the kernel. *)
From Coq Require Import ZArith Reals List Bool Lia Lra Psatz.
From Flocq Require Import Core IEEE754.BinarySingleNaN.
From Verif Require Import Base PyNum Kernel Spec XReal XArith KernelProofs Expr ExprProofs.
Import ListNotations.
Open Scope R_scope.

Definition rpos (a : R) : R := Rmax a 0.
Definition rneg (a : R) : R := Rmax a 0 - a.
Definition klo (a b c d : R) : R := Rmax (rpos a * rpos c) (rneg b * rneg d) - Rmax (rpos b * rneg c) (rneg a * rpos d).
Definition khi_ (a b c d : R) : R := Rmax (rpos b * rpos d) (rneg a * rneg c) - Rmax (rpos a * rneg d) (rneg b * rpos c).

Lemma rpos_nn a : 0 <= a -> rpos a = a. Proof. intro. unfold rpos. now rewrite Rmax_left. Qed.
Lemma rpos_np a : a <= 0 -> rpos a = 0. Proof. intro. unfold rpos. now rewrite Rmax_right. Qed.
Lemma rneg_nn a : 0 <= a -> rneg a = 0. Proof. intro. unfold rneg. rewrite Rmax_left by assumption. ring. Qed.
Lemma rneg_np a : a <= 0 -> rneg a = - a. Proof. intro. unfold rneg. rewrite Rmax_right by assumption. ring. Qed.
Ltac signs a := destruct (Rle_dec 0 a) as [?|?];
  [rewrite ?(rpos_nn a), ?(rneg_nn a) by lra | rewrite ?(rpos_np a), ?(rneg_np a) by lra].

Ltac mm := unfold Rmax, Rmin; repeat (match goal with
  | |- context [Rle_dec ?x ?y] =>
      lazymatch x with context [Rle_dec] => fail | _ => lazymatch y with context [Rle_dec] => fail | _ => destruct (Rle_dec x y) end end
  end); try lra; try nra.

Lemma extremum_unique mn S v w : extremum mn S v -> extremum mn S w -> v = w.
Proof. intros [Sv Hv] [Sw Hw]. specialize (Hv _ Sw). specialize (Hw _ Sv). destruct mn; lra. Qed.
Lemma extremum_ext mn S S2 v : (forall s, S s <-> S2 s) -> extremum mn S v -> extremum mn S2 v.
Proof. intros E [H1 H2]. split; [now apply E|]. intros s Hs. apply H2. now apply E. Qed.

Definition opt (mn : bool) (p q : R) := if mn then Rmin p q else Rmax p q.
Lemma inner_ext my c d x : extremum my (fun t => exists y, between c d y /\ t = x * y) (opt my (x * c) (x * d)).
Proof.
  split.
  - unfold opt. destruct my.
    + destruct (Rle_dec (x * c) (x * d)).
      * exists c. rewrite Rmin_left by assumption. split; [|reflexivity]. split; [apply Rmin_l | apply Rmax_l].
      * exists d. rewrite Rmin_right by lra. split; [|reflexivity]. split; [apply Rmin_r | apply Rmax_r].
    + destruct (Rle_dec (x * c) (x * d)).
      * exists d. rewrite Rmax_right by assumption. split; [|reflexivity]. split; [apply Rmin_r | apply Rmax_r].
      * exists c. rewrite Rmax_left by lra. split; [|reflexivity]. split; [apply Rmin_l | apply Rmax_l].
  - intros s (y & [H1 H2] & ->). unfold opt. destruct my; destruct (Rle_dec 0 x);
    destruct (Rle_dec c d); first [rewrite Rmin_left in H1 by lra | rewrite Rmin_right in H1 by lra];
    first [rewrite Rmax_right in H2 by lra | rewrite Rmax_left in H2 by lra]; mm.
Qed.
Lemma kaucher_end_val (mx my : bool) a b c d v :
  (exists x, between a b x /\ v = opt my (x * c) (x * d)) ->
  (forall x, between a b x -> if mx then v <= opt my (x * c) (x * d) else opt my (x * c) (x * d) <= v) ->
  kaucher_end mx my a b c d v.
Proof.
  intros (x & Hx & ->) H2. split.
  - exists x. split; [assumption|]. apply inner_ext.
  - intros s (x2 & Hx2 & Hs). rewrite (extremum_unique _ _ _ _ Hs (inner_ext my c d x2)). now apply H2.
Qed.
Lemma between_l a b : between a b a. Proof. split; [apply Rmin_l | apply Rmax_l]. Qed.
Lemma between_r a b : between a b b. Proof. split; [apply Rmin_r | apply Rmax_r]. Qed.
Lemma between_le a b x : a <= b -> (between a b x <-> a <= x <= b).
Proof. intro. unfold between. rewrite Rmin_left, Rmax_right by assumption. tauto. Qed.
Lemma between_ge a b x : b <= a -> (between a b x <-> b <= x <= a).
Proof. intro. unfold between. rewrite Rmin_right, Rmax_left by assumption. tauto. Qed.

Ltac kcore a b :=
  cbn [negb];
  lazymatch goal with BW : (forall x, @?P x) |- _ =>
   apply kaucher_end_val;
   [ first [ exists a; split; [apply between_l | solve [unfold opt; mm]]
           | exists b; split; [apply between_r | solve [unfold opt; mm]]
           | exists 0; split; [apply BW; lra | solve [unfold opt; mm]] ]
   | intros x Hx; apply BW in Hx; unfold opt; destruct (Rle_dec 0 x); mm ]
  end.
Ltac ksolve a b c d :=
  signs a; signs b; signs c; signs d;
  (destruct (Rle_bool_spec a b) as [Hab|Hab]; [pose proof (fun x => between_le a b x Hab) | pose proof (fun x => between_ge a b x (Rlt_le _ _ Hab))]);
  destruct (Rle_bool_spec c d); try lra;
  repeat match goal with |- context [Rmax ?p ?q] =>
    destruct (Rle_dec p q); [rewrite (Rmax_right p q) by assumption | rewrite (Rmax_left p q) by lra] end;
  kcore a b.
Lemma klo_spec a b c d : kaucher_lo a b c d (klo a b c d).
Proof. unfold klo, kaucher_lo. ksolve a b c d. Qed.
Lemma khi_spec a b c d : kaucher_hi a b c d (khi_ a b c d).
Proof. unfold khi_, kaucher_hi. ksolve a b c d. Qed.

(** ** The formulas as computed *)
Definition xsumf (m : rmode) (a b c d e f g h : R) : xreal :=
  xsub m (xsub m (xadd m (xround m (a * b)) (xround m (c * d))) (xround m (e * f))) (xround m (g * h)).
Definition xmaxf (m : rmode) (a b c d e f g h : R) : xreal :=
  xsub m (xmax2 (xround m (a * b)) (xround m (c * d))) (xmax2 (xround m (e * f)) (xround m (g * h))).

Lemma small_dbl x a : small_num x -> xval x = XFin a -> is_dbl (XFin a).
Proof. intros Hx E. destruct (small_double x Hx) as (f & _ & Hf). exists f. congruence. Qed.
Lemma xval_pn0 : xval pn0 = XFin 0.
Proof. reflexivity. Qed.
Lemma plus_run x a r : small_num x -> xval x = XFin a -> dbl_run (plus_part x) r (XFin (rpos a)).
Proof.
  intros Hx E. unfold plus_part.
  assert (S : small_num (num_max2 x pn0)) by (unfold num_max2; destruct num_lt; [exact I | assumption]).
  destruct (small_double _ S) as (f & Hf & Hv). exists f. unfold mlift. rewrite Hf. split; [reflexivity|].
  rewrite Hv, num_max2_x, E, xval_pn0. unfold xmax2, rpos.
  destruct (xltb (XFin a) (XFin 0)) eqn:L.
  - apply xltb_fin in L. now rewrite Rmax_right by lra.
  - rewrite Rmax_left; [reflexivity|]. destruct (Rle_dec 0 a); [lra|].
    assert (xltb (XFin a) (XFin 0) = true) by (apply xltb_fin; lra). congruence.
Qed.
Lemma is_dbl_opp a : is_dbl (XFin a) -> is_dbl (XFin (- a)).
Proof. intros [f Hf]. exists (fneg f). now rewrite xflt_neg, Hf. Qed.
Lemma minus_run p x a r : small_num x -> xval x = XFin a -> xflt p = XFin (rpos a) -> dbl_run (minus_part p x) r (XFin (rneg a)).
Proof.
  intros Hx E Hp. unfold minus_part.
  assert (R := sub_run r (PFlt p) x I Hx). cbn [xval] in R. rewrite E, Hp in R. unfold xsub, xopp, xadd in R.
  replace (rpos a + - a) with (rneg a) in R by (unfold rpos, rneg; ring).
  rewrite xround_dbl_id in R; [assumption|].
  destruct (Rle_dec 0 a).
  - rewrite rneg_nn by assumption. apply zero_dbl.
  - rewrite rneg_np by lra. apply is_dbl_opp. now apply small_dbl with x.
Qed.

Lemma sum_run r a b c d e f g h xa xb xc xd xe xf xg xh :
  xflt a = XFin xa -> xflt b = XFin xb -> xflt c = XFin xc -> xflt d = XFin xd ->
  xflt e = XFin xe -> xflt f = XFin xf -> xflt g = XFin xg -> xflt h = XFin xh ->
  dbl_run (sum_formula a b c d e f g h) r (xsumf r xa xb xc xd xe xf xg xh).
Proof.
  intros Ha Hb Hc Hd He Hf Hg Hh. eexists. split; [reflexivity|].
  rewrite !fsub_x, !fadd_x, !fmul_x, Ha, Hb, Hc, Hd, He, Hf, Hg, Hh. reflexivity.
Qed.
Lemma max_run r a b c d e f g h xa xb xc xd xe xf xg xh :
  xflt a = XFin xa -> xflt b = XFin xb -> xflt c = XFin xc -> xflt d = XFin xd ->
  xflt e = XFin xe -> xflt f = XFin xf -> xflt g = XFin xg -> xflt h = XFin xh ->
  dbl_run (max_formula a b c d e f g h) r (xmaxf r xa xb xc xd xe xf xg xh).
Proof.
  intros Ha Hb Hc Hd He Hf Hg Hh. eexists. split; [reflexivity|].
  rewrite !fsub_x, !flt_max2_x, !fmul_x, Ha, Hb, Hc, Hd, He, Hf, Hg, Hh. reflexivity.
Qed.

Lemma parts {B} x a m (k : flt -> flt -> M B) r : small_num x -> xval x = XFin a ->
  (forall p q, xflt p = XFin (rpos a) -> xflt q = XFin (rneg a) -> k p q m = r) ->
  (p <- plus_part x ;; q <- minus_part p x ;; k p q) m = r.
Proof.
  intros Hx E H. destruct (plus_run x a m Hx E) as (p & Hp & Vp). rewrite (bind_ok _ _ _ _ _ Hp).
  destruct (minus_run p x a m Hx E Vp) as (q & Hq & Vq). rewrite (bind_ok _ _ _ _ _ Hq). now apply H.
Qed.

Section Gives.
Variables (X Y : itv) (a b c d : R) (m : rmode).
Hypotheses (sX : small_itv X) (sY : small_itv Y)
  (Ea : xval (lo X) = XFin a) (Eb : xval (hi X) = XFin b) (Ec : xval (lo Y) = XFin c) (Ed : xval (hi Y) = XFin d).

Lemma mul_sum_gives : gives (mul_sum X Y) m Kaucher
  (xsumf mode_DN (rpos a) (rpos c) (rneg b) (rneg d) (rpos b) (rneg c) (rneg a) (rpos d))
  (xsumf mode_UP (rpos b) (rpos d) (rneg a) (rneg c) (rpos a) (rneg d) (rneg b) (rpos c)).
Proof.
  destruct sX as [S1 S2], sY as [S3 S4]. unfold gives, mul_sum.
  destruct (plus_run _ a m S1 Ea) as (p1 & H1 & V1). destruct (plus_run _ b m S2 Eb) as (p2 & H2 & V2).
  destruct (minus_run p1 _ a m S1 Ea V1) as (q1 & K1 & W1). destruct (minus_run p2 _ b m S2 Eb V2) as (q2 & K2 & W2).
  destruct (plus_run _ c m S3 Ec) as (p3 & H3 & V3). destruct (plus_run _ d m S4 Ed) as (p4 & H4 & V4).
  destruct (minus_run p3 _ c m S3 Ec V3) as (q3 & K3 & W3). destruct (minus_run p4 _ d m S4 Ed V4) as (q4 & K4 & W4).
  rewrite (bind_ok _ _ _ _ _ H1), (bind_ok _ _ _ _ _ H2), (bind_ok _ _ _ _ _ K1), (bind_ok _ _ _ _ _ K2),
    (bind_ok _ _ _ _ _ H3), (bind_ok _ _ _ _ _ H4), (bind_ok _ _ _ _ _ K3), (bind_ok _ _ _ _ _ K4).
  apply two_ends; apply sum_run; assumption.
Qed.
Lemma mul_max_gives : gives (mul_max X Y) m Kaucher
  (xmaxf mode_DN (rpos a) (rpos c) (rneg b) (rneg d) (rpos b) (rneg c) (rneg a) (rpos d))
  (xmaxf mode_UP (rpos b) (rpos d) (rneg a) (rneg c) (rpos a) (rneg d) (rneg b) (rpos c)).
Proof.
  destruct sX as [S1 S2], sY as [S3 S4]. unfold gives, mul_max.
  destruct (plus_run _ a m S1 Ea) as (p1 & H1 & V1). destruct (plus_run _ b m S2 Eb) as (p2 & H2 & V2).
  destruct (minus_run p1 _ a m S1 Ea V1) as (q1 & K1 & W1). destruct (minus_run p2 _ b m S2 Eb V2) as (q2 & K2 & W2).
  destruct (plus_run _ c m S3 Ec) as (p3 & H3 & V3). destruct (plus_run _ d m S4 Ed) as (p4 & H4 & V4).
  destruct (minus_run p3 _ c m S3 Ec V3) as (q3 & K3 & W3). destruct (minus_run p4 _ d m S4 Ed V4) as (q4 & K4 & W4).
  rewrite (bind_ok _ _ _ _ _ H1), (bind_ok _ _ _ _ _ H2), (bind_ok _ _ _ _ _ K1), (bind_ok _ _ _ _ _ K2),
    (bind_ok _ _ _ _ _ H3), (bind_ok _ _ _ _ _ H4), (bind_ok _ _ _ _ _ K3), (bind_ok _ _ _ _ _ K4).
  apply two_ends; apply max_run; assumption.
Qed.
End Gives.

(** ** The two formulas agree when at most one term of each pair is non-zero *)
Lemma xround_0 m : xround m 0 = XFin 0.
Proof. apply xround_dbl_id, zero_dbl. Qed.
Lemma xadd_0_r m v : is_dbl v -> xadd m v (XFin 0) = v.
Proof. intro D. destruct v; try reflexivity. cbn [xadd]. rewrite Rplus_0_r. now apply xround_dbl_id. Qed.
Lemma xadd_0_l m v : is_dbl v -> xadd m (XFin 0) v = v.
Proof. intro D. destruct v; try reflexivity. cbn [xadd]. rewrite Rplus_0_l. now apply xround_dbl_id. Qed.
Lemma xsub_0_r m v : is_dbl v -> xsub m v (XFin 0) = v.
Proof. intro D. unfold xsub. cbn [xopp]. rewrite Ropp_0. now apply xadd_0_r. Qed.
Lemma rnd_nn m x : 0 <= x -> 0 <= rnd m x.
Proof. intro. apply round_ge_generic; auto with typeclass_instances. apply generic_format_0. Qed.
Lemma xround_nn m x : 0 <= x -> xleb (XFin 0) (xround m x) = true.
Proof.
  intro H. unfold xround. destruct Rlt_bool.
  - apply xleb_fin. now apply rnd_nn.
  - rewrite Rlt_bool_false by assumption. destruct overflow_to_inf; [reflexivity|]. apply xleb_fin.
    left. apply fmaxR_pos.
Qed.
Lemma xmax2_0_r v : xleb (XFin 0) v = true -> xmax2 v (XFin 0) = v.
Proof.
  intro H. unfold xmax2. destruct (xltb v (XFin 0)) eqn:E; [|reflexivity].
  apply xltb_xleb in E. now apply xleb_antisym.
Qed.
Lemma xmax2_0_l v : xleb (XFin 0) v = true -> xmax2 (XFin 0) v = v.
Proof.
  intro H. unfold xmax2. destruct (xltb (XFin 0) v) eqn:E; [reflexivity|].
  apply xleb_antisym; [assumption|]. apply xltb_false_xleb; [discriminate| |assumption].
  now apply xleb_nnan_r in H.
Qed.
Lemma is_dbl_opp' v : is_dbl v -> is_dbl (xopp v).
Proof. intros [f Hf]. exists (fneg f). now rewrite xflt_neg, Hf. Qed.
Lemma is_dbl_xsub m u v : is_dbl u -> is_dbl v -> is_dbl (xsub m u v).
Proof. intros [f Hf] [g Hg]. exists (fsub m f g). now rewrite fsub_x, Hf, Hg. Qed.

Lemma sum_is_max m a b c d e f g h :
  0 <= a * b -> 0 <= c * d -> 0 <= e * f -> 0 <= g * h ->
  a * b = 0 \/ c * d = 0 -> e * f = 0 \/ g * h = 0 ->
  xsumf m a b c d e f g h = xmaxf m a b c d e f g h.
Proof.
  intros H1 H2 H3 H4 H5 H6. unfold xsumf, xmaxf.
  assert (E1 : xadd m (xround m (a * b)) (xround m (c * d)) = xmax2 (xround m (a * b)) (xround m (c * d))).
  { destruct H5 as [E|E]; rewrite E, xround_0.
    - rewrite xadd_0_l by apply xround_dbl. now rewrite xmax2_0_l by (now apply xround_nn).
    - rewrite xadd_0_r by apply xround_dbl. now rewrite xmax2_0_r by (now apply xround_nn). }
  rewrite E1. assert (D1 : is_dbl (xmax2 (xround m (a * b)) (xround m (c * d)))).
  { unfold xmax2. destruct xltb; apply xround_dbl. }
  destruct H6 as [E|E]; rewrite E, xround_0.
  - rewrite xsub_0_r by assumption. now rewrite xmax2_0_l by (now apply xround_nn).
  - rewrite xmax2_0_r by (now apply xround_nn). rewrite xsub_0_r; [reflexivity|]. apply is_dbl_xsub; [assumption | apply xround_dbl].
Qed.
Lemma rpos_ge a : 0 <= rpos a. Proof. unfold rpos. apply Rmax_r. Qed.
Lemma rneg_ge a : 0 <= rneg a. Proof. unfold rneg. assert (H := Rmax_l a 0). lra. Qed.
Global Hint Resolve rpos_ge rneg_ge Rmult_le_pos : kau.
Lemma pn_zero a b : a <= b -> rpos a = 0 \/ rneg b = 0.
Proof. intro. destruct (Rle_dec a 0); [left; now apply rpos_np | right; apply rneg_nn; lra]. Qed.

Lemma xmax2_comm u v : u <> XNan -> v <> XNan -> xmax2 u v = xmax2 v u.
Proof.
  intros Hu Hv. unfold xmax2. destruct (xltb u v) eqn:E1, (xltb v u) eqn:E2; try reflexivity.
  - apply xltb_xleb in E1, E2. symmetry. now apply xleb_antisym.
  - apply xleb_antisym; now apply xltb_false_xleb.
Qed.
Lemma xmaxf_swap m a b c d e f g h : xmaxf m a b c d e f g h = xmaxf m b a d c h g f e.
Proof.
  unfold xmaxf. rewrite (Rmult_comm b a), (Rmult_comm d c), (Rmult_comm h g), (Rmult_comm f e).
  f_equal. apply xmax2_comm; apply xround_not_nan.
Qed.

(** ** Commutativity of the mixed product (well-kinded finite operands) *)
Lemma sum_max_lo m a b c d : a <= b -> d < c ->
  xsumf m (rpos a) (rpos c) (rneg b) (rneg d) (rpos b) (rneg c) (rneg a) (rpos d) =
  xmaxf m (rpos a) (rpos c) (rneg b) (rneg d) (rpos b) (rneg c) (rneg a) (rpos d).
Proof.
  intros H1 H2. apply sum_is_max; auto with kau.
  - destruct (pn_zero a b H1) as [E|E]; rewrite E; [left|right]; ring.
  - destruct (pn_zero d c) as [E|E]; [lra|right|left]; rewrite E; ring.
Qed.
Lemma sum_max_hi m a b c d : a <= b -> d < c ->
  xsumf m (rpos b) (rpos d) (rneg a) (rneg c) (rpos a) (rneg d) (rneg b) (rpos c) =
  xmaxf m (rpos b) (rpos d) (rneg a) (rneg c) (rpos a) (rneg d) (rneg b) (rpos c).
Proof.
  intros H1 H2. apply sum_is_max; auto with kau.
  - destruct (pn_zero d c) as [E|E]; [lra|left|right]; rewrite E; ring.
  - destruct (pn_zero a b H1) as [E|E]; rewrite E; [left|right]; ring.
Qed.
Lemma wk_improper Y c d : well_kinded Y -> kd Y = Kaucher -> xval (lo Y) = XFin c -> xval (hi Y) = XFin d -> d < c.
Proof.
  intros W K Ec Ed. destruct (Rle_dec c d); [|lra].
  assert (kd Y = Classical) by (apply W; rewrite num_le_x, Ec, Ed; now apply xleb_fin). congruence.
Qed.
Lemma wk_proper Y c d : well_kinded Y -> kd Y = Classical -> xval (lo Y) = XFin c -> xval (hi Y) = XFin d -> c <= d.
Proof. intros W K Ec Ed. apply W in K. rewrite num_le_x, Ec, Ed in K. now apply xleb_fin. Qed.

Lemma xeqb_refl a : a <> XNan -> xeqb a a = true.
Proof. intro H. destruct a; try reflexivity; [congruence|]. now apply xeqb_fin. Qed.
Lemma xmaxf_nnan_or m a b c d e f g h u v : xflt u = xmaxf m a b c d e f g h -> xflt v = xmaxf m a b c d e f g h ->
  B2SF u = B2SF v \/ num_eq (PFlt u) (PFlt v) = true \/ (is_nan u = true /\ is_nan v = true).
Proof.
  intros Hu Hv. right. rewrite num_eq_x. cbn [xval]. rewrite !is_nan_x. rewrite Hu, Hv.
  destruct (xmaxf m a b c d e f g h) eqn:E; try (left; now apply xeqb_refl).
  right; split; reflexivity.
Qed.

Lemma mixed_comm X Y m : small_itv X -> small_itv Y -> finite_itv X -> finite_itv Y ->
  kd X = Classical -> kd Y = Kaucher -> well_kinded X -> well_kinded Y ->
  exists Z1 Z2, returns (py_mul (OItv X) (OItv Y)) m Z1 /\ returns (py_mul (OItv Y) (OItv X)) m Z2 /\
    kd Z1 = kd Z2 /\ xval (lo Z1) = xval (lo Z2) /\ xval (hi Z1) = xval (hi Z2).
Proof.
  intros sX sY [F1 F2] [F3 F4] kX kY wX wY. apply finite_num_x in F1, F2, F3, F4.
  assert (H1 := wk_proper _ _ _ wX kX F1 F2). assert (H2 := wk_improper _ _ _ wY kY F3 F4).
  assert (G1 := mul_sum_gives X Y _ _ _ _ m sX sY F1 F2 F3 F4).
  assert (G2 := mul_max_gives Y X _ _ _ _ m sY sX F3 F4 F1 F2).
  destruct (gives_returns _ _ _ _ _ G1) as (Z1 & HZ1 & K1 & L1 & U1 & _).
  destruct (gives_returns _ _ _ _ _ G2) as (Z2 & HZ2 & K2 & L2 & U2 & _).
  exists Z1, Z2. unfold py_mul, itv_mul. rewrite kX, kY. split; [assumption|split; [assumption|]].
  split; [congruence|]. rewrite L1, L2, U1, U2. rewrite sum_max_lo, sum_max_hi by assumption.
  split; apply xmaxf_swap.
Qed.

(** ** Exactness on integer-valued endpoints *)
Lemma int_num_x x : int_num x -> exists z, xval x = XFin (IZR z) /\ (Z.abs z <= 2 ^ 24)%Z.
Proof. intros (F & z & E & B). apply finite_num_x in F. exists z. rewrite F, E. auto. Qed.
Lemma int_small x : int_num x -> small_num x.
Proof.
  intros (F & z & E & B). destruct x as [y|f]; simpl in *; [|trivial]. apply eq_IZR in E. subst.
  apply Z.le_trans with (1 := B). discriminate.
Qed.
Definition zpos z := Z.max z 0.
Definition zneg z := (Z.max z 0 - z)%Z.
Lemma Rmax_IZR a b : Rmax (IZR a) (IZR b) = IZR (Z.max a b).
Proof.
  destruct (Z.le_ge_cases a b) as [H|H].
  - rewrite Z.max_r by assumption. apply Rmax_right. now apply IZR_le.
  - rewrite Z.max_l by assumption. apply Rmax_left. now apply IZR_le.
Qed.
Lemma rpos_IZR z : rpos (IZR z) = IZR (zpos z).
Proof. unfold rpos, zpos. apply Rmax_IZR. Qed.
Lemma rneg_IZR z : rneg (IZR z) = IZR (zneg z).
Proof. unfold rneg, zneg. now rewrite (Rmax_IZR z 0), <- minus_IZR. Qed.
Lemma zpos_b z : (Z.abs z <= 2 ^ 24 -> 0 <= zpos z <= 2 ^ 24)%Z. Proof. unfold zpos. lia. Qed.
Lemma zneg_b z : (Z.abs z <= 2 ^ 24 -> 0 <= zneg z <= 2 ^ 24)%Z. Proof. unfold zneg. lia. Qed.
Lemma mul_b x y : (0 <= x <= 2 ^ 24 -> 0 <= y <= 2 ^ 24 -> 0 <= x * y <= 2 ^ 48)%Z.
Proof. intros. change (2 ^ 48)%Z with (2 ^ 24 * 2 ^ 24)%Z. split; [apply Z.mul_nonneg_nonneg; lia|]. apply Z.mul_le_mono_nonneg; lia. Qed.
Lemma xround_int m z : (Z.abs z <= 2 ^ 53)%Z -> xround m (IZR z) = XFin (IZR z).
Proof. intro. apply xround_dbl_id. now apply int_dbl. Qed.
Lemma xmax2_fin a b : xmax2 (XFin a) (XFin b) = XFin (Rmax a b).
Proof.
  unfold xmax2. destruct (xltb (XFin a) (XFin b)) eqn:E.
  - apply xltb_fin in E. now rewrite Rmax_right by lra.
  - rewrite Rmax_left; [reflexivity|]. destruct (Rle_dec b a); [assumption|].
    assert (xltb (XFin a) (XFin b) = true) by (apply xltb_fin; lra). congruence.
Qed.
Lemma xmaxf_exact m a b c d e f g h :
  (0 <= a <= 2 ^ 24)%Z -> (0 <= b <= 2 ^ 24)%Z -> (0 <= c <= 2 ^ 24)%Z -> (0 <= d <= 2 ^ 24)%Z ->
  (0 <= e <= 2 ^ 24)%Z -> (0 <= f <= 2 ^ 24)%Z -> (0 <= g <= 2 ^ 24)%Z -> (0 <= h <= 2 ^ 24)%Z ->
  xmaxf m (IZR a) (IZR b) (IZR c) (IZR d) (IZR e) (IZR f) (IZR g) (IZR h)
  = XFin (Rmax (IZR a * IZR b) (IZR c * IZR d) - Rmax (IZR e * IZR f) (IZR g * IZR h)).
Proof.
  intros Ha Hb Hc Hd He Hf Hg Hh.
  assert (H1 := mul_b _ _ Ha Hb). assert (H2 := mul_b _ _ Hc Hd). assert (H3 := mul_b _ _ He Hf). assert (H4 := mul_b _ _ Hg Hh).
  assert (P : (2 ^ 48 < 2 ^ 52)%Z) by reflexivity. assert (P2 : (2 ^ 52 < 2 ^ 53)%Z) by reflexivity.
  unfold xmaxf. rewrite <- !mult_IZR. rewrite !xround_int by lia. rewrite !xmax2_fin, !Rmax_IZR.
  unfold xsub, xopp, xadd. rewrite <- opp_IZR, <- plus_IZR. rewrite xround_int by lia.
  rewrite plus_IZR, opp_IZR. reflexivity.
Qed.
Lemma klo_int m x1 x2 y1 y2 :
  (Z.abs x1 <= 2 ^ 24)%Z -> (Z.abs x2 <= 2 ^ 24)%Z -> (Z.abs y1 <= 2 ^ 24)%Z -> (Z.abs y2 <= 2 ^ 24)%Z ->
  let a := IZR x1 in let b := IZR x2 in let c := IZR y1 in let d := IZR y2 in
  xmaxf m (rpos a) (rpos c) (rneg b) (rneg d) (rpos b) (rneg c) (rneg a) (rpos d) = XFin (klo a b c d) /\
  xmaxf m (rpos b) (rpos d) (rneg a) (rneg c) (rpos a) (rneg d) (rneg b) (rpos c) = XFin (khi_ a b c d).
Proof.
  intros H1 H2 H3 H4 a b c d. unfold klo, khi_. subst a b c d. rewrite !rpos_IZR, !rneg_IZR.
  split; apply xmaxf_exact; auto using zpos_b, zneg_b.
Qed.
Lemma kaucher_of_vals X Y Z a b c d : xval (lo X) = XFin a -> xval (hi X) = XFin b -> xval (lo Y) = XFin c -> xval (hi Y) = XFin d ->
  xval (lo Z) = XFin (klo a b c d) -> xval (hi Z) = XFin (khi_ a b c d) -> kaucher_product X Y Z.
Proof.
  intros E1 E2 E3 E4 E5 E6. apply xval_num_val in E1, E2, E3, E4, E5, E6.
  destruct E1 as [_ <-], E2 as [_ <-], E3 as [_ <-], E4 as [_ <-], E5 as [F5 E5], E6 as [F6 E6].
  split; [split; assumption|]. rewrite E5, E6. split; [apply klo_spec | apply khi_spec].
Qed.
(** The classical product by four products, in exact arithmetic. *)
Lemma classical_exact m x1 x2 y1 y2 : (x1 <= x2)%Z -> (y1 <= y2)%Z ->
  (Z.abs x1 <= 2 ^ 24)%Z -> (Z.abs x2 <= 2 ^ 24)%Z -> (Z.abs y1 <= 2 ^ 24)%Z -> (Z.abs y2 <= 2 ^ 24)%Z ->
  let a := IZR x1 in let b := IZR x2 in let c := IZR y1 in let d := IZR y2 in
  let f := fun x y => xmul m (XFin x) (XFin y) in
  xmin4 (f a c) (f a d) (f b c) (f b d) = XFin (klo a b c d) /\
  xmax4 (f a c) (f a d) (f b c) (f b d) = XFin (khi_ a b c d).
Proof.
  intros O1 O2 H1 H2 H3 H4 a b c d f.
  assert (M : forall x y, (Z.abs x <= 2 ^ 24)%Z -> (Z.abs y <= 2 ^ 24)%Z -> f (IZR x) (IZR y) = XFin (IZR x * IZR y)).
  { intros x y Hx Hy. unfold f, xmul. rewrite <- mult_IZR. apply xround_int. rewrite Z.abs_mul.
    apply Z.le_trans with (2 ^ 24 * 2 ^ 24)%Z; [apply Z.mul_le_mono_nonneg; lia | discriminate]. }
  subst a b c d. rewrite !M by assumption. clear M f m. apply IZR_le in O1, O2.
  set (a := IZR x1) in *. set (b := IZR x2) in *. set (c := IZR y1) in *. set (d := IZR y2) in *. clearbody a b c d. clear - O1 O2.
  assert (MN : forall p q, xmin2 (XFin p) (XFin q) = XFin (Rmin p q)).
  { intros p q. unfold xmin2. destruct (xltb (XFin q) (XFin p)) eqn:E.
    - apply xltb_fin in E. now rewrite Rmin_right by lra.
    - rewrite Rmin_left; [reflexivity|]. destruct (Rle_dec p q); [assumption|].
      assert (xltb (XFin q) (XFin p) = true) by (apply xltb_fin; lra). congruence. }
  unfold xmin4, xmax4. rewrite !MN, !xmax2_fin. unfold klo, khi_.
  split; f_equal; signs a; signs b; signs c; signs d; try lra; mm.
Qed.

Theorem mul_exact X Y m : int_itv X -> int_itv Y -> (kd X = Classical -> well_kinded X /\ well_kinded Y) ->
  exists Z, returns (py_mul (OItv X) (OItv Y)) m Z /\ kaucher_product X Y Z.
Proof.
  intros [I1 I2] [I3 I4] W.
  assert (sX : small_itv X) by (split; now apply int_small). assert (sY : small_itv Y) by (split; now apply int_small).
  apply int_num_x in I1, I2, I3, I4. destruct I1 as (x1 & E1 & B1), I2 as (x2 & E2 & B2), I3 as (y1 & E3 & B3), I4 as (y2 & E4 & B4).
  unfold py_mul, itv_mul. destruct (kd X) eqn:kX, (kd Y) eqn:kY; try (destruct (W eq_refl) as [wX wY]); clear W.
  - destruct (gives_returns _ _ _ _ _ (mul_gives X Y m sX sY kX kY)) as (Z & HZ & _ & Hl & Hh & _).
    unfold itv_mul in HZ. rewrite kX, kY in HZ. exists Z. split; [assumption|].
    assert (O1 := wk_proper _ _ _ wX kX E1 E2). assert (O2 := wk_proper _ _ _ wY kY E3 E4). apply le_IZR in O1, O2.
    rewrite E1, E2, E3, E4 in Hl, Hh.
    destruct (classical_exact mode_DN _ _ _ _ O1 O2 B1 B2 B3 B4) as [L _].
    destruct (classical_exact mode_UP _ _ _ _ O1 O2 B1 B2 B3 B4) as [_ U].
    cbv zeta in L, U. unfold xmul_lo in Hl; unfold xmul_hi in Hh. rewrite L in Hl. rewrite U in Hh. eapply kaucher_of_vals; eassumption.
  - destruct (gives_returns _ _ _ _ _ (mul_sum_gives X Y _ _ _ _ m sX sY E1 E2 E3 E4)) as (Z & HZ & _ & Hl & Hh & _).
    exists Z. split; [assumption|].
    assert (O1 := wk_proper _ _ _ wX kX E1 E2). assert (O2 := wk_improper _ _ _ wY kY E3 E4).
    rewrite sum_max_lo in Hl by assumption. rewrite sum_max_hi in Hh by assumption.
    destruct (klo_int mode_DN _ _ _ _ B1 B2 B3 B4) as [L _]. destruct (klo_int mode_UP _ _ _ _ B1 B2 B3 B4) as [_ U].
    cbv zeta in L, U. rewrite L in Hl. rewrite U in Hh. eapply kaucher_of_vals; eassumption.
  - destruct (gives_returns _ _ _ _ _ (mul_max_gives X Y _ _ _ _ m sX sY E1 E2 E3 E4)) as (Z & HZ & _ & Hl & Hh & _).
    exists Z. split; [assumption|].
    destruct (klo_int mode_DN _ _ _ _ B1 B2 B3 B4) as [L _]. destruct (klo_int mode_UP _ _ _ _ B1 B2 B3 B4) as [_ U].
    cbv zeta in L, U. rewrite L in Hl. rewrite U in Hh. eapply kaucher_of_vals; eassumption.
  - destruct (gives_returns _ _ _ _ _ (mul_max_gives X Y _ _ _ _ m sX sY E1 E2 E3 E4)) as (Z & HZ & _ & Hl & Hh & _).
    exists Z. split; [assumption|].
    destruct (klo_int mode_DN _ _ _ _ B1 B2 B3 B4) as [L _]. destruct (klo_int mode_UP _ _ _ _ B1 B2 B3 B4) as [_ U].
    cbv zeta in L, U. rewrite L in Hl. rewrite U in Hh. eapply kaucher_of_vals; eassumption.
Qed.
