(** Semantics of the kernel operations in the extended reals, and the enclosure
    and tightness lemmas. *)
From Coq Require Import ZArith Reals List Bool Lia Lra Psatz.
From Flocq Require Import Core IEEE754.BinarySingleNaN.
From Verif Require Import Base PyNum Kernel Spec XReal XArith.
Import ListNotations.
Open Scope R_scope.

(** ** Running monadic code *)
Lemma with_rounding_run {A} new (body : M A) m : with_rounding new body m = (fst (body new), m).
Proof.
  unfold with_rounding, mbind, fegetround, fesetround, mfinally. simpl.
  destruct (body new) as [r m1]. reflexivity.
Qed.
Lemma bind_ok {A B} (c : M A) (k : A -> M B) m a m1 : c m = (Ok a, m1) -> mbind c k m = k a m1.
Proof. intro H. unfold mbind. now rewrite H. Qed.
Lemma bind_err {A B} (c : M A) (k : A -> M B) m e m1 : c m = (Err e, m1) -> mbind c k m = (Err e, m1).
Proof. intro H. unfold mbind. now rewrite H. Qed.
Lemma with_rounding_ok {A} new (body : M A) m a m1 : body new = (Ok a, m1) -> with_rounding new body m = (Ok a, m).
Proof. intro H. now rewrite with_rounding_run, H. Qed.

(** A computation keeps the rounding mode. *)
Definition keeps_mode {A} (c : M A) : Prop := forall m, snd (c m) = m.
Lemma keeps_ret {A} (a : A) : keeps_mode (mret a).
Proof. intro; reflexivity. Qed.
Lemma keeps_raise {A} e : keeps_mode (@mraise A e).
Proof. intro; reflexivity. Qed.
Lemma keeps_prim {A} (f : rmode -> res A) : keeps_mode (mprim f).
Proof. intro; reflexivity. Qed.
Lemma keeps_lift {A} (r : res A) : keeps_mode (mlift r).
Proof. intro; reflexivity. Qed.
Lemma keeps_bind {A B} (c : M A) (k : A -> M B) : keeps_mode c -> (forall a, keeps_mode (k a)) -> keeps_mode (mbind c k).
Proof.
  intros Hc Hk m. unfold mbind. specialize (Hc m). destruct (c m) as [[a|e] m1]; simpl in *; subst; [apply Hk | reflexivity].
Qed.
Lemma keeps_with {A} new (c : M A) : keeps_mode (with_rounding new c).
Proof. intro m. now rewrite with_rounding_run. Qed.

(** ** Endpoint computations *)
Definition dbl_run (c : M flt) (r : rmode) (x : xreal) : Prop :=
  exists f, c r = (Ok f, r) /\ xflt f = x.

Lemma as_double_run c r v : c r = (Ok v, r) -> exact_num v -> dbl_run (as_double c) r (xval v).
Proof.
  intros Hc Hv. destruct (to_double_exact v Hv) as (f & Hf & Hx). exists f. split; [|assumption].
  unfold as_double. rewrite (bind_ok _ _ _ _ _ Hc). unfold mlift. now rewrite Hf.
Qed.

Lemma add_run r x y : small_num x -> small_num y -> dbl_run (as_double (add_ x y)) r (xadd r (xval x) (xval y)).
Proof.
  intros Hx Hy. destruct (num_add_x r x y Hx Hy) as (v & Hv & He & <-).
  apply as_double_run; [|assumption]. unfold add_, mprim. now rewrite Hv.
Qed.
Lemma sub_run r x y : small_num x -> small_num y -> dbl_run (as_double (sub_ x y)) r (xsub r (xval x) (xval y)).
Proof.
  intros Hx Hy. destruct (num_sub_x r x y Hx Hy) as (v & Hv & He & <-).
  apply as_double_run; [|assumption]. unfold sub_, mprim. now rewrite Hv.
Qed.
Lemma div_run r x y : small_num x -> small_num y -> xval y <> XFin 0 ->
  dbl_run (as_double (div_ x y)) r (xdiv r (xval x) (xval y)).
Proof.
  intros Hx Hy H0. destruct (num_div_x r x y Hx Hy H0) as (v & Hv & He & <-).
  apply as_double_run; [|assumption]. unfold div_, mprim. now rewrite Hv.
Qed.

(** Two endpoints computed in directed rounding give a result. *)
Lemma two_ends (ci cu : M flt) k m xi xu :
  dbl_run ci FE_DOWNWARD xi -> dbl_run cu FE_UPWARD xu ->
  exists i u, (i <- with_rounding FE_DOWNWARD ci ;; u <- with_rounding FE_UPWARD cu ;; mret (mkitv k (PFlt i) (PFlt u))) m
              = (Ok (mkitv k (PFlt i) (PFlt u)), m) /\ xflt i = xi /\ xflt u = xu.
Proof.
  intros (i & Hi & Hxi) (u & Hu & Hxu). exists i, u. split; [|auto].
  rewrite (bind_ok _ _ _ _ _ (with_rounding_ok _ _ m _ _ Hi)).
  rewrite (bind_ok _ _ _ _ _ (with_rounding_ok _ _ m _ _ Hu)). reflexivity.
Qed.

(** The result of running an operation: an interval with double endpoints whose
    extended values are given. *)
Definition gives (c : M itv) (m : rmode) (k : kind) (xi xu : xreal) : Prop :=
  exists i u, c m = (Ok (mkitv k (PFlt i) (PFlt u)), m) /\ xflt i = xi /\ xflt u = xu.

Lemma gives_returns c m k xi xu : gives c m k xi xu ->
  exists Z, returns c m Z /\ kd Z = k /\ xval (lo Z) = xi /\ xval (hi Z) = xu /\ small_itv Z /\ snd (c m) = m.
Proof.
  intros (i & u & Hc & Hi & Hu). exists (mkitv k (PFlt i) (PFlt u)). unfold returns, outcome. rewrite Hc.
  repeat split; auto.
Qed.

Lemma add_gives X Y m : small_itv X -> small_itv Y ->
  gives (itv_add X (OItv Y)) m (match kd X with Classical => kd Y | Kaucher => Kaucher end)
    (xadd mode_DN (xval (lo X)) (xval (lo Y))) (xadd mode_UP (xval (hi X)) (xval (hi Y))).
Proof.
  intros [Hxl Hxh] [Hyl Hyh]. unfold gives. simpl itv_add.
  apply two_ends; apply add_run; assumption.
Qed.
Lemma sub_gives X Y m : small_itv X -> small_itv Y ->
  gives (itv_sub X (OItv Y)) m (match kd X with Classical => kd Y | Kaucher => Kaucher end)
    (xsub mode_DN (xval (lo X)) (xval (hi Y))) (xsub mode_UP (xval (hi X)) (xval (lo Y))).
Proof.
  intros [Hxl Hxh] [Hyl Hyh]. unfold gives. simpl itv_sub.
  apply two_ends; apply sub_run; assumption.
Qed.

Definition prods r a b c d : xreal * xreal * xreal * xreal := (xmul r a c, xmul r a d, xmul r b c, xmul r b d).
Definition quots r a b c d : xreal * xreal * xreal * xreal := (xdiv r a c, xdiv r a d, xdiv r b c, xdiv r b d).

Lemma exact_min2 x y : exact_num x -> exact_num y -> exact_num (num_min2 x y).
Proof. intros. unfold num_min2. now destruct num_lt. Qed.
Lemma exact_max2 x y : exact_num x -> exact_num y -> exact_num (num_max2 x y).
Proof. intros. unfold num_max2. now destruct num_lt. Qed.

Lemma four_products_run r X Y : small_itv X -> small_itv Y ->
  exists p q s t, four_products X Y r = (Ok (p, q, s, t), r) /\
    exact_num p /\ exact_num q /\ exact_num s /\ exact_num t /\
    xval p = xmul r (xval (lo X)) (xval (lo Y)) /\ xval q = xmul r (xval (lo X)) (xval (hi Y)) /\
    xval s = xmul r (xval (hi X)) (xval (lo Y)) /\ xval t = xmul r (xval (hi X)) (xval (hi Y)).
Proof.
  intros [Hxl Hxh] [Hyl Hyh].
  destruct (num_mul_x r _ _ Hxl Hyl) as (p & Hp & ? & ?). destruct (num_mul_x r _ _ Hxl Hyh) as (q & Hq & ? & ?).
  destruct (num_mul_x r _ _ Hxh Hyl) as (s & Hs & ? & ?). destruct (num_mul_x r _ _ Hxh Hyh) as (t & Ht & ? & ?).
  exists p, q, s, t. split; [|tauto].
  unfold four_products, mul_, mbind, mprim, mret. now rewrite Hp, Hq, Hs, Ht.
Qed.
Lemma four_quotients_run r X Y : small_itv X -> small_itv Y -> xval (lo Y) <> XFin 0 -> xval (hi Y) <> XFin 0 ->
  exists p q s t, four_quotients X Y r = (Ok (p, q, s, t), r) /\
    exact_num p /\ exact_num q /\ exact_num s /\ exact_num t /\
    xval p = xdiv r (xval (lo X)) (xval (lo Y)) /\ xval q = xdiv r (xval (lo X)) (xval (hi Y)) /\
    xval s = xdiv r (xval (hi X)) (xval (lo Y)) /\ xval t = xdiv r (xval (hi X)) (xval (hi Y)).
Proof.
  intros [Hxl Hxh] [Hyl Hyh] H1 H2.
  destruct (num_div_x r _ _ Hxl Hyl H1) as (p & Hp & ? & ?). destruct (num_div_x r _ _ Hxl Hyh H2) as (q & Hq & ? & ?).
  destruct (num_div_x r _ _ Hxh Hyl H1) as (s & Hs & ? & ?). destruct (num_div_x r _ _ Hxh Hyh H2) as (t & Ht & ? & ?).
  exists p, q, s, t. split; [|tauto].
  unfold four_quotients, div_, mbind, mprim, mret. now rewrite Hp, Hq, Hs, Ht.
Qed.

Definition xmul_lo a b c d := xmin4 (xmul mode_DN a c) (xmul mode_DN a d) (xmul mode_DN b c) (xmul mode_DN b d).
Definition xmul_hi a b c d := xmax4 (xmul mode_UP a c) (xmul mode_UP a d) (xmul mode_UP b c) (xmul mode_UP b d).
Definition xdiv_lo a b c d := xmin4 (xdiv mode_DN a c) (xdiv mode_DN a d) (xdiv mode_DN b c) (xdiv mode_DN b d).
Definition xdiv_hi a b c d := xmax4 (xdiv mode_UP a c) (xdiv mode_UP a d) (xdiv mode_UP b c) (xdiv mode_UP b d).

Lemma min_of_run (c : M (pynum * pynum * pynum * pynum)) r p q s t :
  c r = (Ok (p, q, s, t), r) -> exact_num p -> exact_num q -> exact_num s -> exact_num t ->
  dbl_run (as_double (v <- c ;; mret (min_of v))) r (xmin4 (xval p) (xval q) (xval s) (xval t)).
Proof.
  intros Hc H1 H2 H3 H4. rewrite <- num_min4_x. apply as_double_run.
  - rewrite (bind_ok _ _ _ _ _ Hc). reflexivity.
  - unfold num_min4. repeat apply exact_min2; assumption.
Qed.
Lemma max_of_run (c : M (pynum * pynum * pynum * pynum)) r p q s t :
  c r = (Ok (p, q, s, t), r) -> exact_num p -> exact_num q -> exact_num s -> exact_num t ->
  dbl_run (as_double (v <- c ;; mret (max_of v))) r (xmax4 (xval p) (xval q) (xval s) (xval t)).
Proof.
  intros Hc H1 H2 H3 H4. rewrite <- num_max4_x. apply as_double_run.
  - rewrite (bind_ok _ _ _ _ _ Hc). reflexivity.
  - unfold num_max4. repeat apply exact_max2; assumption.
Qed.

Lemma mul_gives X Y m : small_itv X -> small_itv Y -> kd X = Classical -> kd Y = Classical ->
  gives (itv_mul X (OItv Y)) m Classical
    (xmul_lo (xval (lo X)) (xval (hi X)) (xval (lo Y)) (xval (hi Y)))
    (xmul_hi (xval (lo X)) (xval (hi X)) (xval (lo Y)) (xval (hi Y))).
Proof.
  intros HX HY HkX HkY. unfold gives. simpl itv_mul. rewrite HkX, HkY. unfold mul_classical, xmul_lo, xmul_hi.
  apply two_ends.
  - destruct (four_products_run mode_DN X Y HX HY) as (p & q & s & t & Hr & e1 & e2 & e3 & e4 & <- & <- & <- & <-).
    now apply min_of_run.
  - destruct (four_products_run mode_UP X Y HX HY) as (p & q & s & t & Hr & e1 & e2 & e3 & e4 & <- & <- & <- & <-).
    now apply max_of_run.
Qed.

(** the zero test of division *)
Lemma contains0_x Y : contains_num Y pn0 = xleb (xval (lo Y)) (XFin 0) && xleb (XFin 0) (xval (hi Y)).
Proof. unfold contains_num. rewrite !num_le_x. reflexivity. Qed.

Lemma not_zero_end Y y : contains_num Y pn0 = false -> member Y y -> no_zero (xval (lo Y)) (xval (hi Y)).
Proof.
  rewrite contains0_x, member_x. intros H [Hl Hh]. unfold no_zero.
  destruct (xltb (XFin 0) (xval (lo Y))) eqn:E1; [now left|].
  destruct (xltb (xval (hi Y)) (XFin 0)) eqn:E2; [now right|].
  apply xltb_false_xleb in E1; [|discriminate|now apply xle_R_nnan in Hl].
  apply xltb_false_xleb in E2; [|now apply R_xle_nnan in Hh|discriminate].
  rewrite E1, E2 in H. discriminate.
Qed.
Definition ordered_or_nan (X : itv) : Prop := nan_itv X \/ xleb (xval (lo X)) (xval (hi X)) = true.

Lemma zero_ends Y : contains_num Y pn0 = false -> ordered_or_nan Y ->
  xval (lo Y) <> XFin 0 /\ xval (hi Y) <> XFin 0.
Proof.
  rewrite contains0_x. intros H [[H1 H2]|Ho].
  - apply is_nan_num_x in H1, H2. rewrite H1, H2. split; discriminate.
  - split; intro E; rewrite E in *.
    + rewrite xleb_refl in H by discriminate. simpl in H. congruence.
    + rewrite (xleb_refl (XFin 0)) in H by discriminate. rewrite andb_true_r in H. congruence.
Qed.

Lemma div_gives X Y m : small_itv X -> small_itv Y -> kd X = Classical -> kd Y = Classical ->
  contains_num Y pn0 = false -> ordered_or_nan Y ->
  gives (itv_div X (OItv Y)) m Classical
    (xdiv_lo (xval (lo X)) (xval (hi X)) (xval (lo Y)) (xval (hi Y)))
    (xdiv_hi (xval (lo X)) (xval (hi X)) (xval (lo Y)) (xval (hi Y))).
Proof.
  intros HX HY HkX HkY H0 Ho. destruct (zero_ends Y H0 Ho) as [N1 N2].
  unfold gives. simpl itv_div. rewrite H0, HkX, HkY. unfold div_classical, xdiv_lo, xdiv_hi.
  apply two_ends.
  - destruct (four_quotients_run mode_DN X Y HX HY N1 N2) as (p & q & s & t & Hr & e1 & e2 & e3 & e4 & <- & <- & <- & <-).
    now apply min_of_run.
  - destruct (four_quotients_run mode_UP X Y HX HY N1 N2) as (p & q & s & t & Hr & e1 & e2 & e3 & e4 & <- & <- & <- & <-).
    now apply max_of_run.
Qed.
Lemma div_raises X Y m : contains_num Y pn0 = true -> itv_div X (OItv Y) m = (Err ValueError, m).
Proof. intro H. simpl. now rewrite H. Qed.

(** ** Enclosure *)
Lemma nan_itv_x X : nan_itv X <-> xval (lo X) = XNan /\ xval (hi X) = XNan.
Proof. unfold nan_itv. now rewrite !is_nan_num_x. Qed.

Lemma add_encl X Y m : small_itv X -> small_itv Y ->
  exists Z, returns (itv_add X (OItv Y)) m Z /\
    (forall x y, member X x -> member Y y -> member Z (x + y)).
Proof.
  intros HX HY. destruct (gives_returns _ _ _ _ _ (add_gives X Y m HX HY)) as (Z & HZ & _ & Hl & Hh & _).
  exists Z. split; [assumption|]. intros x y. rewrite !member_x, Hl, Hh. intros [] []. split.
  - now apply xadd_low.
  - now apply xadd_high.
Qed.
Lemma sub_encl X Y m : small_itv X -> small_itv Y ->
  exists Z, returns (itv_sub X (OItv Y)) m Z /\
    (forall x y, member X x -> member Y y -> member Z (x - y)).
Proof.
  intros HX HY. destruct (gives_returns _ _ _ _ _ (sub_gives X Y m HX HY)) as (Z & HZ & _ & Hl & Hh & _).
  exists Z. split; [assumption|]. intros x y. rewrite !member_x, Hl, Hh. intros [] []. split.
  - now apply xsub_low.
  - now apply xsub_high.
Qed.
Lemma mul_encl X Y m : small_itv X -> small_itv Y -> kd X = Classical -> kd Y = Classical ->
  exists Z, returns (itv_mul X (OItv Y)) m Z /\
    (forall x y, member X x -> member Y y -> member_or_nan Z (x * y)).
Proof.
  intros HX HY kX kY. destruct (gives_returns _ _ _ _ _ (mul_gives X Y m HX HY kX kY)) as (Z & HZ & _ & Hl & Hh & _).
  exists Z. split; [assumption|]. intros x y. unfold member_or_nan. rewrite nan_itv_x, !member_x, Hl, Hh.
  intros [] []. now apply xmul4_encl.
Qed.

Lemma xmul_fin_nnan m a b : xmul m (XFin a) (XFin b) <> XNan.
Proof. apply xround_not_nan. Qed.
Lemma xmin4_nnan a b c d : a <> XNan -> xmin4 a b c d <> XNan.
Proof. intro. unfold xmin4. now repeat apply xmin2_nnan. Qed.
Lemma xmax4_nnan a b c d : a <> XNan -> xmax4 a b c d <> XNan.
Proof. intro. unfold xmax4. now repeat apply xmax2_nnan. Qed.

Lemma mul_finite_not_nan X Y m : small_itv X -> small_itv Y -> kd X = Classical -> kd Y = Classical ->
  finite_itv X -> finite_itv Y ->
  exists Z, returns (itv_mul X (OItv Y)) m Z /\ is_nan_num (lo Z) = false /\ is_nan_num (hi Z) = false.
Proof.
  intros HX HY kX kY [F1 F2] [F3 F4].
  destruct (gives_returns _ _ _ _ _ (mul_gives X Y m HX HY kX kY)) as (Z & HZ & _ & Hl & Hh & _).
  apply finite_num_x in F1, F2, F3, F4. rewrite F1, F2, F3, F4 in Hl, Hh.
  exists Z. split; [assumption|]. split; apply not_true_is_false; rewrite is_nan_num_x.
  - rewrite Hl. apply xmin4_nnan, xmul_fin_nnan.
  - rewrite Hh. apply xmax4_nnan, xmul_fin_nnan.
Qed.

Lemma div_encl X Y m : small_itv X -> small_itv Y -> kd X = Classical -> kd Y = Classical ->
  ordered_or_nan Y -> contains_num Y pn0 = false ->
  exists Z, returns (itv_div X (OItv Y)) m Z /\
    (forall x y, member X x -> member Y y -> member_or_nan Z (x / y)).
Proof.
  intros HX HY kX kY Ho H0.
  destruct (gives_returns _ _ _ _ _ (div_gives X Y m HX HY kX kY H0 Ho)) as (Z & HZ & _ & Hl & Hh & _).
  exists Z. split; [assumption|]. intros x y Hx Hy.
  assert (Hnz := not_zero_end Y y H0 Hy). revert Hx Hy.
  unfold member_or_nan. rewrite nan_itv_x, !member_x, Hl, Hh.
  intros [] []. now apply xdiv4_encl.
Qed.

(** ** NaN propagation: the NaN interval absorbs *)
Lemma add_nan X Y m : small_itv X -> small_itv Y -> nan_itv X \/ nan_itv Y ->
  exists Z, returns (itv_add X (OItv Y)) m Z /\ nan_itv Z.
Proof.
  intros HX HY HN. destruct (gives_returns _ _ _ _ _ (add_gives X Y m HX HY)) as (Z & HZ & _ & Hl & Hh & _).
  exists Z. split; [assumption|]. rewrite !nan_itv_x in *. rewrite Hl, Hh.
  destruct HN as [[-> ->]|[-> ->]]; [now rewrite !xadd_nan_l | now rewrite !xadd_nan_r].
Qed.
Lemma sub_nan X Y m : small_itv X -> small_itv Y -> nan_itv X \/ nan_itv Y ->
  exists Z, returns (itv_sub X (OItv Y)) m Z /\ nan_itv Z.
Proof.
  intros HX HY HN. destruct (gives_returns _ _ _ _ _ (sub_gives X Y m HX HY)) as (Z & HZ & _ & Hl & Hh & _).
  exists Z. split; [assumption|]. rewrite !nan_itv_x in *. rewrite Hl, Hh. unfold xsub.
  destruct HN as [[-> ->]|[-> ->]]; simpl xopp; [now rewrite !xadd_nan_l | now rewrite !xadd_nan_r].
Qed.
Lemma mul_nan X Y m : small_itv X -> small_itv Y -> kd X = Classical -> kd Y = Classical -> nan_itv X \/ nan_itv Y ->
  exists Z, returns (itv_mul X (OItv Y)) m Z /\ nan_itv Z.
Proof.
  intros HX HY kX kY HN. destruct (gives_returns _ _ _ _ _ (mul_gives X Y m HX HY kX kY)) as (Z & HZ & _ & Hl & Hh & _).
  exists Z. split; [assumption|]. rewrite !nan_itv_x in *. rewrite Hl, Hh. unfold xmul_lo, xmul_hi.
  destruct HN as [[-> ->]|[-> ->]]; [rewrite !xmul_nan_l | rewrite !xmul_nan_r]; split; reflexivity.
Qed.
Lemma div_nan X Y m : small_itv X -> small_itv Y -> kd X = Classical -> kd Y = Classical ->
  ordered_or_nan Y -> contains_num Y pn0 = false -> nan_itv X \/ nan_itv Y ->
  exists Z, returns (itv_div X (OItv Y)) m Z /\ nan_itv Z.
Proof.
  intros HX HY kX kY Ho H0 HN.
  destruct (gives_returns _ _ _ _ _ (div_gives X Y m HX HY kX kY H0 Ho)) as (Z & HZ & _ & Hl & Hh & _).
  exists Z. split; [assumption|]. rewrite !nan_itv_x in *. rewrite Hl, Hh. unfold xdiv_lo, xdiv_hi.
  destruct HN as [[-> ->]|[-> ->]]; [rewrite !xdiv_nan_l | rewrite !xdiv_nan_r]; split; reflexivity.
Qed.

(** ** Tightness *)
Lemma dbl_xle (g : flt) r : flt_le_R g r <-> xle_R (xflt g) r.
Proof. apply flt_le_R_x. Qed.

Lemma proper_fin_x X : proper_fin X ->
  exists a b, xval (lo X) = XFin a /\ xval (hi X) = XFin b /\ a <= b /\
              a = num_val (lo X) /\ b = num_val (hi X).
Proof.
  intros [[F1 F2] Ho]. apply finite_num_x in F1, F2.
  exists (num_val (lo X)), (num_val (hi X)). auto.
Qed.
Lemma proper_members X a b : xval (lo X) = XFin a -> xval (hi X) = XFin b -> a <= b -> member X a /\ member X b.
Proof. intros Hl Hh Ho. rewrite !member_x, Hl, Hh. simpl. lra. Qed.

Lemma lo_dbl l : is_dbl (xval (PFlt l)).
Proof. now exists l. Qed.

(** a generic pattern: the lower end is the minimum of roundings of values of
    the image *)
Lemma greatest_of_in (S : R -> Prop) (Z : itv) (ps : list R) :
  (forall r, S r -> num_le_R (lo Z) r) ->
  (forall p, In p ps -> S p) ->
  (exists p, In p ps /\ xval (lo Z) = xround mode_DN p) ->
  greatest_lower_double S (lo Z).
Proof.
  intros H1 H2 (p & Hp & Hz). split; [assumption|]. intros g Hg Hb.
  rewrite num_le_x, Hz. apply xround_DN_greatest; [now exists g|].
  apply flt_le_R_x. auto.
Qed.
Lemma least_of_in (S : R -> Prop) (Z : itv) (ps : list R) :
  (forall r, S r -> R_le_num r (hi Z)) ->
  (forall p, In p ps -> S p) ->
  (exists p, In p ps /\ xval (hi Z) = xround mode_UP p) ->
  least_upper_double S (hi Z).
Proof.
  intros H1 H2 (p & Hp & Hz). split; [assumption|]. intros g Hg Hb.
  rewrite num_le_x, Hz. apply xround_UP_least; [now exists g|].
  apply R_le_flt_x. auto.
Qed.

Definition tight (S : R -> Prop) (Z : itv) : Prop :=
  greatest_lower_double S (lo Z) /\ least_upper_double S (hi Z).

Lemma add_tight X Y m : small_itv X -> small_itv Y -> proper_fin X -> proper_fin Y ->
  exists Z, returns (itv_add X (OItv Y)) m Z /\ tight (image2 Rplus X Y) Z.
Proof.
  intros HX HY PX PY.
  destruct (gives_returns _ _ _ _ _ (add_gives X Y m HX HY)) as (Z & HZ & _ & Hl & Hh & _).
  destruct (add_encl X Y m HX HY) as (Z' & HZ' & He).
  assert (Z' = Z) by (unfold returns in *; congruence). subst Z'.
  exists Z. split; [assumption|].
  destruct (proper_fin_x X PX) as (a & b & Ha & Hb & Hab & _). destruct (proper_fin_x Y PY) as (c & d & Hc & Hd & Hcd & _).
  destruct (proper_members X a b Ha Hb Hab), (proper_members Y c d Hc Hd Hcd).
  rewrite Ha, Hc in Hl. rewrite Hb, Hd in Hh.
  split; [apply greatest_of_in with [a + c] | apply least_of_in with [b + d]].
  - intros r (x & y & Hx & Hy & ->). now apply He.
  - intros p [<-|[]]. exists a, c; auto.
  - exists (a + c); simpl; auto.
  - intros r (x & y & Hx & Hy & ->). now apply He.
  - intros p [<-|[]]. exists b, d; auto.
  - exists (b + d); simpl; auto.
Qed.
Lemma sub_tight X Y m : small_itv X -> small_itv Y -> proper_fin X -> proper_fin Y ->
  exists Z, returns (itv_sub X (OItv Y)) m Z /\ tight (image2 Rminus X Y) Z.
Proof.
  intros HX HY PX PY.
  destruct (gives_returns _ _ _ _ _ (sub_gives X Y m HX HY)) as (Z & HZ & _ & Hl & Hh & _).
  destruct (sub_encl X Y m HX HY) as (Z' & HZ' & He).
  assert (Z' = Z) by (unfold returns in *; congruence). subst Z'.
  exists Z. split; [assumption|].
  destruct (proper_fin_x X PX) as (a & b & Ha & Hb & Hab & _). destruct (proper_fin_x Y PY) as (c & d & Hc & Hd & Hcd & _).
  destruct (proper_members X a b Ha Hb Hab), (proper_members Y c d Hc Hd Hcd).
  rewrite Ha, Hd in Hl. rewrite Hb, Hc in Hh.
  split; [apply greatest_of_in with [a - d] | apply least_of_in with [b - c]].
  - intros r (x & y & Hx & Hy & ->). now apply He.
  - intros p [<-|[]]. exists a, d; auto.
  - exists (a - d); simpl; auto.
  - intros r (x & y & Hx & Hy & ->). now apply He.
  - intros p [<-|[]]. exists b, c; auto.
  - exists (b - c); simpl; auto.
Qed.
Lemma mul_tight X Y m : small_itv X -> small_itv Y -> kd X = Classical -> kd Y = Classical ->
  proper_fin X -> proper_fin Y ->
  exists Z, returns (itv_mul X (OItv Y)) m Z /\ tight (image2 Rmult X Y) Z.
Proof.
  intros HX HY kX kY PX PY.
  destruct (gives_returns _ _ _ _ _ (mul_gives X Y m HX HY kX kY)) as (Z & HZ & _ & Hl & Hh & _).
  destruct (mul_encl X Y m HX HY kX kY) as (Z' & HZ' & He).
  assert (Z' = Z) by (unfold returns in *; congruence). subst Z'.
  destruct (mul_finite_not_nan X Y m HX HY kX kY (proj1 PX) (proj1 PY)) as (Z' & HZ'' & Hn & _).
  assert (Z' = Z) by (unfold returns in *; congruence). subst Z'.
  assert (He' : forall x y, member X x -> member Y y -> member Z (x * y)).
  { intros x y Hx Hy. destruct (He x y Hx Hy) as [[Hn' _]|]; [congruence|assumption]. }
  exists Z. split; [assumption|].
  destruct (proper_fin_x X PX) as (a & b & Ha & Hb & Hab & _). destruct (proper_fin_x Y PY) as (c & d & Hc & Hd & Hcd & _).
  destruct (proper_members X a b Ha Hb Hab), (proper_members Y c d Hc Hd Hcd).
  rewrite Ha, Hb, Hc, Hd in Hl, Hh.
  split; [apply greatest_of_in with [a * c; a * d; b * c; b * d] | apply least_of_in with [a * c; a * d; b * c; b * d]].
  - intros r (x & y & Hx & Hy & ->). now apply He'.
  - intros p [<-|[<-|[<-|[<-|[]]]]]; unfold image2; eauto 8.
  - rewrite Hl. destruct (xmin4_in (xmul mode_DN (XFin a) (XFin c)) (xmul mode_DN (XFin a) (XFin d)) (xmul mode_DN (XFin b) (XFin c)) (xmul mode_DN (XFin b) (XFin d))) as [E|[E|[E|[E|[]]]]]; unfold xmul_lo; rewrite <- E; simpl; eauto 8.
  - intros r (x & y & Hx & Hy & ->). now apply He'.
  - intros p [<-|[<-|[<-|[<-|[]]]]]; unfold image2; eauto 8.
  - rewrite Hh. destruct (xmax4_in (xmul mode_UP (XFin a) (XFin c)) (xmul mode_UP (XFin a) (XFin d)) (xmul mode_UP (XFin b) (XFin c)) (xmul mode_UP (XFin b) (XFin d))) as [E|[E|[E|[E|[]]]]]; unfold xmul_hi; rewrite <- E; simpl; eauto 8.
Qed.
Lemma div_tight X Y m : small_itv X -> small_itv Y -> kd X = Classical -> kd Y = Classical ->
  proper_fin X -> proper_fin Y -> contains_num Y pn0 = false ->
  exists Z, returns (itv_div X (OItv Y)) m Z /\ tight (image2 Rdiv X Y) Z.
Proof.
  intros HX HY kX kY PX PY H0.
  destruct (proper_fin_x X PX) as (a & b & Ha & Hb & Hab & _). destruct (proper_fin_x Y PY) as (c & d & Hc & Hd & Hcd & _).
  assert (Ho : ordered_or_nan Y) by (right; rewrite Hc, Hd; now apply xleb_fin).
  destruct (gives_returns _ _ _ _ _ (div_gives X Y m HX HY kX kY H0 Ho)) as (Z & HZ & _ & Hl & Hh & _).
  destruct (div_encl X Y m HX HY kX kY Ho H0) as (Z' & HZ' & He).
  assert (Z' = Z) by (unfold returns in *; congruence). subst Z'.
  rewrite Ha, Hb, Hc, Hd in Hl, Hh.
  assert (Hn : xval (lo Z) <> XNan) by (rewrite Hl; apply xmin4_nnan, xround_not_nan).
  assert (He' : forall x y, member X x -> member Y y -> member Z (x / y)).
  { intros x y Hx Hy. destruct (He x y Hx Hy) as [Hn'|]; [|assumption]. apply nan_itv_x in Hn'. tauto. }
  exists Z. split; [assumption|].
  destruct (proper_members X a b Ha Hb Hab), (proper_members Y c d Hc Hd Hcd).
  split; [apply greatest_of_in with [a / c; a / d; b / c; b / d] | apply least_of_in with [a / c; a / d; b / c; b / d]].
  - intros r (x & y & Hx & Hy & ->). now apply He'.
  - intros p [<-|[<-|[<-|[<-|[]]]]]; unfold image2; eauto 8.
  - rewrite Hl. destruct (xmin4_in (xdiv mode_DN (XFin a) (XFin c)) (xdiv mode_DN (XFin a) (XFin d)) (xdiv mode_DN (XFin b) (XFin c)) (xdiv mode_DN (XFin b) (XFin d))) as [E|[E|[E|[E|[]]]]]; unfold xdiv_lo; rewrite <- E; simpl; eauto 8.
  - intros r (x & y & Hx & Hy & ->). now apply He'.
  - intros p [<-|[<-|[<-|[<-|[]]]]]; unfold image2; eauto 8.
  - rewrite Hh. destruct (xmax4_in (xdiv mode_UP (XFin a) (XFin c)) (xdiv mode_UP (XFin a) (XFin d)) (xdiv mode_UP (XFin b) (XFin c)) (xdiv mode_UP (XFin b) (XFin d))) as [E|[E|[E|[E|[]]]]]; unfold xdiv_hi; rewrite <- E; simpl; eauto 8.
Qed.
