(** sin and cos of proper and improper intervals: the computed ends are close
    to the least and the greatest value. *)
From Coq Require Import ZArith Reals List Bool Lia Lra Psatz Classical.
From Coq Require Import Floats.SpecFloat.
From Flocq Require Import Core IEEE754.BinarySingleNaN.
From Verif Require Import Base PyNum Kernel Spec XReal XArith KernelProofs Expr ExprProofs KaucherProofs Witness SpecElem ElemProofs TrigProofs SpecKaucher KaucherRound KaucherElem.
Import ListNotations.
Open Scope R_scope.

(** *** The extremum test, in both directions *)
Definition hit (s a b : R) : Prop := exists k : Z, a <= s + 2 * IZR k * PI <= b.
Lemma test_run2 r sa sb a b s : a <= b -> Rabs a <= 1048576 -> Rabs b <= 1048576 -> Rabs s <= 4 ->
  shift_ok sa r a s -> shift_ok sb r b s ->
  exists t, extremum_test sa sb r = (Ok t, r) /\
    (hit s a b -> t = true \/ near s a \/ near s b) /\ (t = true -> hit s a b \/ near s a \/ near s b).
Proof.
  intros Hab Ba Bb Bs (va & A & Ra & Sa & Xa & Ea) (vb & B & Rb & Sb & Xb & Eb).
  assert (PB := PI_bounds). assert (PR := PIr_range).
  assert (Ba' := Ba). assert (Bb' := Bb). assert (Bs' := Bs). apply Rabs_le_inv in Ba', Bb', Bs'.
  destruct (shift_div_run sa r va A Ra Sa Xa) as (p & Rp & Fp & Ep).
  { apply Rabs_le_inv in Ea. apply Rabs_le; lra. }
  destruct (shift_div_run sb r vb B Rb Sb Xb) as (q & Rq & Fq & Eq).
  { apply Rabs_le_inv in Eb. apply Rabs_le; lra. }
  assert (Qa : Rabs (B2R p - (a - s) / (2 * PI)) <= eta) by (apply (quot_err a s A); trivial; apply Rabs_le; lra).
  assert (Qb : Rabs (B2R q - (b - s) / (2 * PI)) <= eta) by (apply (quot_err b s B); trivial; apply Rabs_le; lra).
  exists (flt_leb (c_ceil p) (c_floor q)). split.
  { unfold extremum_test. rewrite (bind_ok _ _ _ _ _ Rp), (bind_ok _ _ _ _ _ Rq). reflexivity. }
  rewrite flt_leb_x, ceil_val, floor_val by assumption.
  set (wa := (a - s) / (2 * PI)) in *. assert (Wa : wa * (2 * PI) = a - s) by (unfold wa; field; lra).
  set (wb := (b - s) / (2 * PI)) in *. assert (Wb : wb * (2 * PI) = b - s) by (unfold wb; field; lra).
  apply Rabs_le_inv in Qa, Qb. unfold eta in *. split.
  - intros [k [K1 K2]]. destruct (Rle_lt_dec (B2R p) (IZR k)) as [Pk|Pk].
    + destruct (Rle_lt_dec (IZR k) (B2R q)) as [Qk|Qk].
      * left. apply xleb_fin. apply IZR_le. transitivity k; [now apply Zceil_glb | now apply Zfloor_lub].
      * right; right. exists k. apply Rabs_le. assert (IZR k <= wb) by nra. split; nra.
    + right; left. exists k. apply Rabs_le. assert (wa <= IZR k) by nra. split; nra.
  - intro T. apply xleb_fin in T. assert (P1 := Zceil_ub (B2R p)). assert (P2 := Zfloor_lb (B2R q)). set (k := Zceil (B2R p)) in *.
    destruct (Rle_lt_dec wa (IZR k)) as [Ka|Ka].
    + destruct (Rle_lt_dec (IZR k) wb) as [Kb|Kb].
      * left. exists k. split; nra.
      * right; right. exists k. apply Rabs_le. split; nra.
    + right; left. exists k. apply Rabs_le. split; nra.
Qed.

(** *** The greatest value *)
Lemma faithful_max (f h r : flt) va vb : faithful f va -> faithful h vb -> is_finite r = true -> B2R r = Rmax (B2R f) (B2R h) -> faithful r (Rmax va vb).
Proof.
  assert (Main : forall (f h r : flt) va vb, va <= vb -> faithful f va -> faithful h vb -> is_finite r = true -> B2R r = Rmax (B2R f) (B2R h) -> faithful r vb).
  { clear. intros f h r va vb V (Ff & Hf) (Fh & Hh) Fr Er. split; [exact Fr|]. rewrite Er.
    destruct (Rle_lt_dec (B2R f) (B2R h)) as [C|C]; [rewrite Rmax_right by lra; exact Hh|]. rewrite Rmax_left by lra.
    destruct Hf as [[A1 A2] | [A1 A2]], Hh as [[B1 B2] | [B1 B2]].
    - specialize (B2 f Ff). lra.
    - lra.
    - right. split; [|intros g Fg Hg; apply A2; [exact Fg | lra]].
      destruct (Rle_lt_dec vb (B2R f)) as [D|D]; [exact D|]. specialize (B2 f Ff). lra.
    - specialize (A2 h Fh). lra. }
  intros Hf Hh Fr Er. destruct (Rle_lt_dec va vb) as [C|C].
  - rewrite Rmax_right by lra. now apply (Main f h r va vb).
  - rewrite Rmax_left by lra. rewrite Rmax_comm in Er. now apply (Main h f r vb va); [lra|..].
Qed.
Lemma faithful_le1 r v : faithful r v -> v <= 1 -> B2R r <= 1.
Proof.
  intros (F & H) V. destruct H as [[H _] | [_ H]]; [lra|]. destruct (xfin_flt _ _ xf1) as [F1 V1]. rewrite <- V1. apply H; [exact F1 | lra].
Qed.
Lemma faithful_p1 r v : faithful r v -> B2R p1 < v -> B2R p1 <= B2R r.
Proof. intros (F & H) V. destruct H as [[_ H] | [H _]]; [apply H; [apply p1_val | lra] | lra]. Qed.

Lemma max_end a b fi fs (maxv : flt) t s (g : R -> R) : a <= b -> faithful fi (g a) -> faithful fs (g b) ->
  (forall x, g x = cos (x - s)) -> is_finite maxv = true -> B2R maxv = Rmax (B2R fi) (B2R fs) ->
  (hit s a b -> t = true \/ near s a \/ near s b) -> (t = true -> hit s a b \/ near s a \/ near s b) ->
  exists v, (exists x, a <= x <= b /\ v = g x) /\ (forall x, a <= x <= b -> g x <= v) /\
    (t = true -> closeR v 1) /\ (t = false -> forall x, adjR x (B2R maxv) -> closeR v x).
Proof.
  intros Hab Fi Fs G Fm Em T1 T2. assert (B : forall x, g x <= 1) by (intro x; rewrite G; apply COS_bound).
  assert (N : near s a \/ near s b -> B2R p1 < g a \/ B2R p1 < g b).
  { intros [C|C]; apply near_cos in C; rewrite <- G in C; rewrite (proj2 p1_val); auto. }
  destruct (classic (hit s a b)) as [K|K].
  - exists 1. split; [|split; [intros x _; apply B | split]].
    + destruct K as [k K]. exists (s + 2 * IZR k * PI). split; [exact K|]. rewrite G. rewrite <- (cos_periodZ _ k).
      replace (s + 2 * IZR k * PI - s - 2 * IZR k * PI) with 0 by ring. now rewrite cos_0.
    + intros _ u h _ _. lra.
    + intros -> x Ax. destruct (T1 K) as [C|C]; [discriminate|]. apply N in C.
      assert (M1 : B2R maxv <= 1) by (rewrite Em; apply Rmax_lub; [apply (faithful_le1 _ _ Fi) | apply (faithful_le1 _ _ Fs)]; apply B).
      assert (M2 : B2R p1 <= B2R maxv).
      { rewrite Em. destruct C as [C|C]; [apply Rle_trans with (B2R fi); [now apply (faithful_p1 _ _ Fi) | apply Rmax_l] | apply Rle_trans with (B2R fs); [now apply (faithful_p1 _ _ Fs) | apply Rmax_r]]. }
      intros u h Fu Fh. destruct (Ax u Fu) as [A1 A2]. split; intros (H1 & H2 & H3).
      * destruct (Rle_lt_dec (B2R h) (B2R p1)) as [D|D]; [lra|]. apply above_p1 in D; [lra | exact Fh].
      * lra.
  - exists (Rmax (g a) (g b)). split; [|split; [|split]].
    + unfold Rmax. destruct Rle_dec; [exists b | exists a]; split; lra.
    + intros x Hx. destruct (cos_range s a b x Hx) as [C|C]; [contradiction|]. now rewrite <- !G in C.
    + intro T. destruct (T2 T) as [C|C]; [contradiction|]. apply N in C.
      assert (B2R p1 < Rmax (g a) (g b)) by (destruct C; [eapply Rlt_le_trans; [eassumption | apply Rmax_l] | eapply Rlt_le_trans; [eassumption | apply Rmax_r]]).
      assert (Rmax (g a) (g b) <= 1) by (apply Rmax_lub; apply B).
      intros u h Fu Fh. split; intros (H1 & H2 & H3); [lra|]. assert (D : B2R p1 < B2R h) by lra. apply above_p1 in D; [lra | exact Fh].
    + intros _ x Ax. apply (adj_close maxv); [|exact Ax]. now apply (faithful_max fi fs).
Qed.
Lemma closeR_opp v x : closeR (- v) (- x) -> closeR v x.
Proof.
  intros H g h Fg Fh. assert (Fn : forall f : flt, is_finite f = true -> is_finite (fneg f) = true /\ B2R (fneg f) = - B2R f).
  { intros f Ff. unfold fneg. now rewrite is_finite_Bopp, B2R_Bopp. }
  destruct (Fn g Fg) as [Fg' Vg']. destruct (Fn h Fh) as [Fh' Vh']. destruct (H _ _ Fg' Fh') as [H1 H2]. rewrite Vg', Vh' in *. split; intros (Q1 & Q2 & Q3); [apply H2 | apply H1]; lra.
Qed.
Lemma adjR_opp x r : adjR x r -> adjR (- x) (- r).
Proof.
  intros H g Fg. assert (Fg' : is_finite (fneg g) = true) by (unfold fneg; now rewrite is_finite_Bopp).
  assert (V : B2R (fneg g) = - B2R g) by (unfold fneg; apply B2R_Bopp). destruct (H _ Fg'). rewrite V in *. split; intros [Q1 Q2]; lra.
Qed.
Lemma faithful_opp r v : faithful r v -> faithful (fneg r) (- v).
Proof.
  assert (Fn : forall f : flt, is_finite f = true -> is_finite (fneg f) = true /\ B2R (fneg f) = - B2R f).
  { intros f Ff. unfold fneg. now rewrite is_finite_Bopp, B2R_Bopp. }
  intros (F & H). destruct (Fn r F) as [F' V']. split; [exact F'|]. rewrite V'.
  destruct H as [[H1 H2] | [H1 H2]]; [right | left]; (split; [lra|]); intros g Fg Hg; destruct (Fn g Fg) as [Fg' Vg']; specialize (H2 _ Fg'); lra.
Qed.
Lemma min_end a b fi fs (minv : flt) t s (g : R -> R) : a <= b -> faithful fi (g a) -> faithful fs (g b) ->
  (forall x, - g x = cos (x - s)) -> is_finite minv = true -> B2R minv = Rmin (B2R fi) (B2R fs) ->
  (hit s a b -> t = true \/ near s a \/ near s b) -> (t = true -> hit s a b \/ near s a \/ near s b) ->
  exists v, (exists x, a <= x <= b /\ v = g x) /\ (forall x, a <= x <= b -> v <= g x) /\
    (t = true -> closeR v (-1)) /\ (t = false -> forall x, adjR x (B2R minv) -> closeR v x).
Proof.
  intros Hab Fi Fs G Fm Em T1 T2. assert (NV : forall f : flt, B2R (fneg f) = - B2R f) by (intro f; unfold fneg; apply B2R_Bopp).
  destruct (max_end a b (fneg fi) (fneg fs) (fneg minv) t s (fun x => - g x) Hab) as (v & (x & Hx & E) & U & C1 & C2); trivial.
  - now apply faithful_opp.
  - now apply faithful_opp.
  - unfold fneg. now rewrite is_finite_Bopp.
  - rewrite !NV, Em. unfold Rmin, Rmax. do 2 destruct Rle_dec; lra.
  - exists (- v). split; [exists x; split; [exact Hx | lra]|]. split; [intros y Hy; specialize (U y Hy); lra|]. split.
    + intro T. apply closeR_opp. replace (- - v) with v by ring. replace (- -1) with 1 by ring. auto.
    + intros T y Ay. apply closeR_opp. rewrite Ropp_involutive. apply C2; [exact T|]. rewrite NV. now apply adjR_opp.
Qed.

(** *** Assembling *)
Lemma flt_max2_val (f h : flt) : is_finite f = true -> is_finite h = true -> B2R (flt_max2 f h) = Rmax (B2R f) (B2R h).
Proof.
  intros Ff Fh. unfold flt_max2. rewrite flt_ltb_x, (xround_fin_of _ Ff), (xround_fin_of _ Fh).
  destruct (xltb (XFin (B2R f)) (XFin (B2R h))) eqn:E.
  - apply xltb_fin in E. rewrite Rmax_right; lra.
  - rewrite Rmax_left; [reflexivity|]. destruct (Rle_lt_dec (B2R h) (B2R f)) as [|C]; [assumption|]. apply (proj2 (xltb_fin _ _)) in C. congruence.
Qed.
Lemma flt_min2_val (f h : flt) : is_finite f = true -> is_finite h = true -> B2R (flt_min2 f h) = Rmin (B2R f) (B2R h).
Proof.
  intros Ff Fh. unfold flt_min2. rewrite flt_ltb_x, (xround_fin_of _ Ff), (xround_fin_of _ Fh).
  destruct (xltb (XFin (B2R h)) (XFin (B2R f))) eqn:E.
  - apply xltb_fin in E. rewrite Rmin_right; lra.
  - rewrite Rmin_left; [reflexivity|]. destruct (Rle_lt_dec (B2R f) (B2R h)) as [|C]; [assumption|]. apply (proj2 (xltb_fin _ _)) in C. congruence.
Qed.
Definition tested (t : M bool) (s a b : R) : Prop := forall r, exists w, t r = (Ok w, r) /\ 
  (hit s a b -> w = true \/ near s a \/ near s b) /\ (w = true -> hit s a b \/ near s a \/ near s b).

Lemma max_num a b fi fs t s (g : R -> R) r (rho : flt -> flt) : a <= b -> faithful fi (g a) -> faithful fs (g b) -> (forall x, g x = cos (x - s)) -> tested t s a b ->
  (forall f, is_finite f = true -> exists q, rho f = q /\ is_finite q = true /\ adjR (B2R q) (B2R f)) ->
  exists v w, (exists x, a <= x <= b /\ v = g x) /\ (forall x, a <= x <= b -> g x <= v) /\
    (u <- t ;; mret (if u then f1 else rho (flt_max2 fi fs))) r = (Ok w, r) /\ close v (PFlt w).
Proof.
  intros Hab Fi Fs G T Rho. destruct (T r) as (u & Ru & T1 & T2).
  destruct (flt_max2_fin fi fs (proj1 Fi) (proj1 Fs)) as (Fm & _). assert (Vm := flt_max2_val fi fs (proj1 Fi) (proj1 Fs)).
  destruct (max_end a b fi fs _ u s g Hab Fi Fs G Fm Vm T1 T2) as (v & A & U & C1 & C2).
  exists v. eexists. split; [exact A|]. split; [exact U|]. split; [rewrite (bind_ok _ _ _ _ _ Ru); reflexivity|].
  destruct u.
  - destruct (xflt_fin _ _ xf1) as [F1 V1]. apply close_of; [exact F1|]. rewrite V1. auto.
  - destruct (Rho _ Fm) as (q & E & Fq & Aq). rewrite E. apply close_of; [exact Fq|]. cbn [num_val]. auto.
Qed.
Lemma min_num a b fi fs t s (g : R -> R) r (rho : flt -> flt) : a <= b -> faithful fi (g a) -> faithful fs (g b) -> (forall x, - g x = cos (x - s)) -> tested t s a b ->
  (forall f, is_finite f = true -> exists q, rho f = q /\ is_finite q = true /\ adjR (B2R q) (B2R f)) ->
  exists v w, (exists x, a <= x <= b /\ v = g x) /\ (forall x, a <= x <= b -> v <= g x) /\
    (u <- t ;; mret (if u then fneg f1 else rho (flt_min2 fi fs))) r = (Ok w, r) /\ close v (PFlt w).
Proof.
  intros Hab Fi Fs G T Rho. destruct (T r) as (u & Ru & T1 & T2).
  destruct (flt_min2_fin fi fs (proj1 Fi) (proj1 Fs)) as (Fm & _). assert (Vm := flt_min2_val fi fs (proj1 Fi) (proj1 Fs)).
  destruct (min_end a b fi fs _ u s g Hab Fi Fs G Fm Vm T1 T2) as (v & A & U & C1 & C2).
  exists v. eexists. split; [exact A|]. split; [exact U|]. split; [rewrite (bind_ok _ _ _ _ _ Ru); reflexivity|].
  destruct u.
  - destruct (xflt_fin _ _ xfm1) as [F1 V1]. apply close_of; [exact F1|]. rewrite V1. auto.
  - destruct (Rho _ Fm) as (q & E & Fq & Aq). rewrite E. apply close_of; [exact Fq|]. cbn [num_val]. auto.
Qed.

Lemma trig_close X fi fs tmin tmax smin smax (g : R -> R) m :
  finite_itv X -> let a := Rmin (num_val (lo X)) (num_val (hi X)) in let b := Rmax (num_val (lo X)) (num_val (hi X)) in
  faithful fi (g a) -> faithful fs (g b) -> (forall x, g x = cos (x - smax)) -> (forall x, - g x = cos (x - smin)) ->
  tested tmin smin a b -> tested tmax smax a b ->
  exists Z l u, trig_range X fi fs tmin tmax m = (Ok Z, m) /\ kd Z = kd X /\ trig_ends g X Z l u.
Proof.
  intros [F1 F2] a b Fi Fs Gmax Gmin T1 T2. apply finite_num_x in F1, F2.
  assert (Hab : a <= b) by (unfold a, b; apply Rle_trans with (num_val (lo X)); [apply Rmin_l | apply Rmax_l]).
  unfold trig_range. rewrite num_le_x, F1, F2.
  destruct (Rle_lt_dec (num_val (lo X)) (num_val (hi X))) as [O|O].
  - rewrite (proj2 (xleb_fin _ _) O).
    destruct (min_num a b fi fs tmin smin g FE_DOWNWARD round_down Hab Fi Fs Gmin T1 down_adj) as (l & i & A1 & L1 & R1 & C1).
    destruct (max_num a b fi fs tmax smax g FE_UPWARD round_up Hab Fi Fs Gmax T2 up_adj) as (u & s & A2 & L2 & R2 & C2).
    rewrite (bind_ok _ _ _ _ _ (with_rounding_ok _ _ m _ _ R1)), (bind_ok _ _ _ _ _ (with_rounding_ok _ _ m _ _ R2)).
    eexists. exists l, u. split; [reflexivity|]. split; [reflexivity|]. cbn [lo hi]. split; [|split; [|split]].
    + split; [exact A1|]. intros y (x & Hx & ->). now apply L1.
    + split; [exact A2|]. intros y (x & Hx & ->). now apply L2.
    + auto.
    + lra.
  - replace (xleb (XFin (num_val (lo X))) (XFin (num_val (hi X)))) with false by (symmetry; apply not_true_is_false; intro C; apply xleb_fin in C; lra).
    destruct (max_num a b fi fs tmax smax g FE_DOWNWARD round_down Hab Fi Fs Gmax T2 down_adj) as (u & s & A2 & L2 & R2 & C2).
    destruct (min_num a b fi fs tmin smin g FE_UPWARD round_up Hab Fi Fs Gmin T1 up_adj) as (l & i & A1 & L1 & R1 & C1).
    rewrite (bind_ok _ _ _ _ _ (with_rounding_ok _ _ m _ _ R2)), (bind_ok _ _ _ _ _ (with_rounding_ok _ _ m _ _ R1)).
    eexists. exists l, u. split; [reflexivity|]. split; [reflexivity|]. cbn [lo hi]. split; [|split; [|split]].
    + split; [exact A1|]. intros y (x & Hx & ->). now apply L1.
    + split; [exact A2|]. intros y (x & Hx & ->). now apply L2.
    + lra.
    + auto.
Qed.

Lemma trig_start X : small_itv X -> finite_itv X -> (kd X = Classical -> num_val (lo X) <= num_val (hi X)) -> lim20 X ->
  let a := Rmin (num_val (lo X)) (num_val (hi X)) in let b := Rmax (num_val (lo X)) (num_val (hi X)) in
  xval (lo (pro X)) = XFin a /\ xval (hi (pro X)) = XFin b /\ small_itv (pro X) /\ a <= b /\ Rabs a <= 1048576 /\ Rabs b <= 1048576.
Proof.
  intros HS HF HK [L1 L2] a b. destruct (pro_cases X HF HK HS) as ([F1 F2] & S & E1 & E2). apply finite_num_x in F1, F2. rewrite E1 in F1. rewrite E2 in F2.
  assert (a <= b) by (unfold a, b; apply Rle_trans with (num_val (lo X)); [apply Rmin_l | apply Rmax_l]).
  repeat (split; [assumption|]). unfold a, b, Rmin, Rmax. destruct Rle_dec; auto.
Qed.
Theorem sin_close L X m : sin_faithful L -> small_itv X -> finite_itv X -> (kd X = Classical -> num_val (lo X) <= num_val (hi X)) -> lim20 X ->
  exists Z l u, returns (itv_sin L X) m Z /\ kd Z = kd X /\ trig_ends sin X Z l u.
Proof.
  intros HL HS HF HK LX. destruct (trig_start X HS HF HK LX) as (P1 & P2 & [Sl Sh] & Hab & La & Lb).
  set (a := Rmin _ _) in *. set (b := Rmax _ _) in *. assert (PB := PI_bounds). assert (PR := PIr_range).
  destruct (math_trig_run (c_sin L) sin (lo (pro X)) a m HL (small_exact _ Sl) P1) as (fi & Ri & Fi).
  destruct (math_trig_run (c_sin L) sin (hi (pro X)) b m HL (small_exact _ Sh) P2) as (fs & Rs & Fs).
  assert (HH : Rabs (PIr / 2) <= 4) by (apply Rabs_le; lra).
  destruct (trig_close X fi fs
    (extremum_test (add_ (lo (pro X)) (PFlt PI_half)) (add_ (hi (pro X)) (PFlt PI_half)))
    (extremum_test (sub_ (lo (pro X)) (PFlt PI_half)) (sub_ (hi (pro X)) (PFlt PI_half)))
    (- PI / 2) (PI / 2) sin m HF Fi Fs) as (Z & l & u & HZ & K & E).
  - intro x. rewrite <- cos_shift. rewrite <- cos_neg. f_equal. lra.
  - intro x. replace (x - - PI / 2) with (PI / 2 - - x) by lra. rewrite cos_shift, sin_neg. reflexivity.
  - intro r. apply test_run2; trivial; [apply Rabs_le; lra| |].
    + apply (add_shift _ _ _ (PIr / 2)); trivial using xPI_half. apply Rabs_le; lra.
    + apply (add_shift _ _ _ (PIr / 2)); trivial using xPI_half. apply Rabs_le; lra.
  - intro r. apply test_run2; trivial; [apply Rabs_le; lra| |].
    + apply (sub_shift _ _ _ (PIr / 2)); trivial using xPI_half. apply Rabs_le; lra.
    + apply (sub_shift _ _ _ (PIr / 2)); trivial using xPI_half. apply Rabs_le; lra.
  - exists Z, l, u. split; [|auto]. unfold returns, outcome, itv_sin.
    rewrite (bind_ok _ _ _ _ _ Ri), (bind_ok _ _ _ _ _ Rs), HZ. reflexivity.
Qed.
Theorem cos_close L X m : cos_faithful L -> small_itv X -> finite_itv X -> (kd X = Classical -> num_val (lo X) <= num_val (hi X)) -> lim20 X ->
  exists Z l u, returns (itv_cos L X) m Z /\ kd Z = kd X /\ trig_ends cos X Z l u.
Proof.
  intros HL HS HF HK LX. destruct (trig_start X HS HF HK LX) as (P1 & P2 & [Sl Sh] & Hab & La & Lb).
  set (a := Rmin _ _) in *. set (b := Rmax _ _) in *. assert (PB := PI_bounds). assert (PR := PIr_range).
  destruct (math_trig_run (c_cos L) cos (lo (pro X)) a m HL (small_exact _ Sl) P1) as (fi & Ri & Fi).
  destruct (math_trig_run (c_cos L) cos (hi (pro X)) b m HL (small_exact _ Sh) P2) as (fs & Rs & Fs).
  assert (HH : Rabs PIr <= 4) by (apply Rabs_le; lra).
  destruct (trig_close X fi fs
    (extremum_test (sub_ (lo (pro X)) (PFlt PI_flt)) (sub_ (hi (pro X)) (PFlt PI_flt)))
    (extremum_test (mret (lo (pro X))) (mret (hi (pro X))))
    PI 0 cos m HF Fi Fs) as (Z & l & u & HZ & K & E).
  - intro x. f_equal. lra.
  - intro x. replace (x - PI) with (- (PI - x)) by lra. rewrite cos_neg. rewrite Rtrigo_facts.cos_pi_minus. reflexivity.
  - intro r. apply test_run2; trivial; [apply Rabs_le; lra| |].
    + apply (sub_shift _ _ _ PIr); trivial using xPI_flt. apply Rabs_le; lra.
    + apply (sub_shift _ _ _ PIr); trivial using xPI_flt. apply Rabs_le; lra.
  - intro r. apply test_run2; trivial; [rewrite Rabs_R0; lra| |]; now apply no_shift.
  - exists Z, l, u. split; [|auto]. unfold returns, outcome, itv_cos.
    rewrite (bind_ok _ _ _ _ _ Ri), (bind_ok _ _ _ _ _ Rs), HZ. reflexivity.
Qed.

(** *** An end rounded inwards *)
Lemma PIr_lt_PI : PIr < PI.
Proof.
  unfold PIr. assert (H := PI_2_3_7_ineq 10).
  change (S (2 * 10))%nat with 21%nat in H. change (2 * 10)%nat with 20%nat in H.
  cbn [sum_f_R0] in H. rewrite !Machin_term in H.
  cbn [Z.of_nat Nat.mul Nat.add Pos.of_succ_nat Pos.succ] in H.
  cbn [pow] in H. lra.
Qed.
Definition sinX : itv := mkitv Kaucher (PFlt PI_half) (PFlt f1).
Theorem sin_improper_refuted : exists X, kd X = Kaucher /\ finite_itv X /\ lim20 X /\ forall L m, sin_faithful L ->
  exists Z u, returns (itv_sin L X) m Z /\ greatest_value sin (num_val (lo X)) (num_val (hi X)) u /\ u < num_val (lo Z).
Proof.
  exists sinX. destruct (xflt_fin _ _ xPI_half) as [F1 V1]. destruct (xflt_fin _ _ xf1) as [F2 V2]. assert (PR := PIr_range). assert (PB := PI_bounds). assert (PL := PIr_lt_PI).
  split; [reflexivity|]. split; [split; assumption|]. split; [unfold lim20; cbn [lo hi sinX]; rewrite V1, V2; split; apply Rabs_le; lra|].
  intros L m HL.
  destruct (math_trig_run (c_sin L) sin (PFlt f1) 1 m HL (small_exact (PFlt f1) I) xf1) as (fi & Ri & Fi).
  destruct (math_trig_run (c_sin L) sin (PFlt PI_half) (PIr / 2) m HL (small_exact (PFlt PI_half) I) xPI_half) as (fs & Rs & Fs).
  assert (P : pro sinX = mkitv Classical (PFlt f1) (PFlt PI_half)) 
    by (unfold pro, sinX, num_min2, num_max2; cbn [kd lo hi]; replace (num_lt (PFlt f1) (PFlt PI_half)) with true by (vm_compute; reflexivity);
        replace (num_lt (PFlt PI_half) (PFlt f1)) with false by (vm_compute; reflexivity); reflexivity).
  assert (T2 : exists w, (t <- extremum_test (add_ (PFlt f1) (PFlt PI_half)) (add_ (PFlt PI_half) (PFlt PI_half)) ;; mret (if t then fneg f1 else round_up (flt_min2 fi fs))) FE_UPWARD = (Ok w, FE_UPWARD)).
  { assert (E : extremum_test (add_ (PFlt f1) (PFlt PI_half)) (add_ (PFlt PI_half) (PFlt PI_half)) FE_UPWARD = (Ok false, FE_UPWARD)) by (vm_compute; reflexivity).
    rewrite (bind_ok _ _ _ _ _ E). eexists. reflexivity. }
  destruct T2 as [w W].
  assert (E1 : (t <- extremum_test (sub_ (PFlt f1) (PFlt PI_half)) (sub_ (PFlt PI_half) (PFlt PI_half)) ;; mret (if t then f1 else round_down (flt_max2 fi fs))) FE_DOWNWARD = (Ok f1, FE_DOWNWARD)).
  { assert (E : extremum_test (sub_ (PFlt f1) (PFlt PI_half)) (sub_ (PFlt PI_half) (PFlt PI_half)) FE_DOWNWARD = (Ok true, FE_DOWNWARD)) by (vm_compute; reflexivity).
    rewrite (bind_ok _ _ _ _ _ E). reflexivity. }
  eexists. exists (sin (PIr / 2)). split; [|split].
  - unfold returns, outcome, itv_sin. rewrite P. cbn [lo hi]. rewrite (bind_ok _ _ _ _ _ Ri), (bind_ok _ _ _ _ _ Rs).
    unfold trig_range. replace (num_le (lo sinX) (hi sinX)) with false by (vm_compute; reflexivity).
    rewrite (bind_ok _ _ _ _ _ (with_rounding_ok _ _ m _ _ E1)), (bind_ok _ _ _ _ _ (with_rounding_ok _ _ m _ _ W)). reflexivity.
  - cbn [lo hi sinX]. rewrite V1, V2. assert (B : forall x, between (PIr / 2) 1 x <-> 1 <= x <= PIr / 2) by (intro x; unfold between; rewrite Rmin_right, Rmax_left by lra; tauto).
    split; [exists (PIr / 2); split; [apply B; lra | reflexivity]|]. intros s (x & Hx & ->). apply B in Hx. apply sin_incr_1; lra.
  - cbn [lo]. rewrite V2. assert (sin (PIr / 2) < sin (PI / 2)) by (apply sin_increasing_1; lra). rewrite sin_PI2 in H. exact H.
Qed.
