(** PSS is guaranteeing: whatever it returns encloses the solutions. *)
From Coq Require Import Reals List Arith Bool ZArith Lia Lra Psatz Sorting.Sorted.
From Verif Require Import Exact SpecExact ExactProofs Estim SpecEstim EstimProofs Pss SpecPss.
Import ListNotations.
Open Scope R_scope.

(** ** Quotients *)
Definition in_ends (lo hi : option R) (t : R) : Prop := (forall l, lo = Some l -> l <= t) /\ (forall h, hi = Some h -> t <= h).
Definition in_quot (q : quot) (t : R) : Prop :=
  match q with
  | QOne lo hi => in_ends lo hi t
  | QTwo l1 h1 l2 h2 => (t < 0 /\ in_ends l1 h1 t) \/ (0 < t /\ in_ends l2 h2 t)
  | QFail => True
  end.
Definition in_inter (s : inter) (t : R) : Prop :=
  match s with
  | IOne v => exists z, v = Some z /\ inI z t
  | ITwo v1 v2 => (t < 0 /\ exists z, v1 = Some z /\ inI z t) \/ (0 < t /\ exists z, v2 = Some z /\ inI z t)
  | IFail => True
  end.
Lemma isect_in lo hi z t : in_ends lo hi t -> inI z t -> exists y, isect lo hi (Some z) = Some y /\ inI y t.
Proof.
  intros [H1 H2] [Z1 Z2]. unfold isect. set (s := olo lo (rl z)). set (i := ohi hi (rh z)).
  assert (S1 : s <= t) by (unfold s, olo; destruct lo as [l|]; [apply Rmax_lub; auto | exact Z1]).
  assert (I1 : t <= i) by (unfold i, ohi; destruct hi as [h|]; [apply Rmin_glb; auto | exact Z2]).
  assert (E : 0 < / 10 ^ 15) by (apply Rinv_0_lt_compat; lra). destruct Rle_dec as [_|N]; [|exfalso; apply N; lra].
  eexists. split; [reflexivity|]. unfold inI. cbn [rl rh]. rewrite Rmin_left, Rmax_right by lra. lra.
Qed.
Lemma meet_in s q t : in_inter s t -> in_quot q t -> in_inter (meet s q) t.
Proof.
  intros Hs Hq. destruct s as [v|v1 v2|]; destruct q as [lo hi|l1 h1 l2 h2|]; cbn [meet]; try exact I; cbn [in_inter in_quot] in *.
  - destruct Hs as (z & -> & Hz). destruct (isect_in lo hi z t Hq Hz) as (y & E & Hy). exists y. auto.
  - destruct Hs as (z & -> & Hz). destruct Hq as [[L Q]|[L Q]]; [left | right]; (split; [exact L|]).
    + destruct (isect_in l1 h1 z t Q Hz) as (y & E & Hy). exists y. auto.
    + destruct (isect_in l2 h2 z t Q Hz) as (y & E & Hy). exists y. auto.
  - destruct Hs as [[L (z & -> & Hz)]|[L (z & -> & Hz)]]; [left | right]; (split; [exact L|]); destruct (isect_in lo hi z t Hq Hz) as (y & E & Hy); exists y; auto.
  - destruct Hs as [[L (z & -> & Hz)]|[L (z & -> & Hz)]]; destruct Hq as [[L' Q]|[L' Q]]; try lra; [left | right]; (split; [exact L|]).
    + destruct (isect_in l1 h1 z t Q Hz) as (y & E & Hy). exists y. auto.
    + destruct (isect_in l2 h2 z t Q Hz) as (y & E & Hy). exists y. auto.
Qed.
(** [v] is a lower bound of [t]; infinity is not *)
Definition below (v : oval) (t : R) : Prop := match v with Val r => r <= t | Infty => False | Fail => True end.
Lemma answer_below s t : in_inter s t -> below (answer s) t.
Proof.
  destruct s as [v|v1 v2|]; cbn [in_inter answer]; [|destruct v1 as [z1|], v2 as [z2|]|]; unfold below.
  - intros (z & -> & Hz). exact (proj1 Hz).
  - assert (A := Rmin_l (rl z1) (rl z2)). assert (B := Rmin_r (rl z1) (rl z2)). intros [[_ (z & E & Hz)]|[_ (z & E & Hz)]]; injection E as <-; destruct Hz; lra.
  - intros [[_ (z & E & Hz)]|[_ (z & E & Hz)]]; [injection E as <-; exact (proj1 Hz) | discriminate].
  - intros [[_ (z & E & Hz)]|[_ (z & E & Hz)]]; [discriminate | injection E as <-; exact (proj1 Hz)].
  - intros [[_ (z & E & Hz)]|[_ (z & E & Hz)]]; discriminate.
  - auto.
Qed.
Lemma has0_spec x : has0 x = true <-> inI x 0.
Proof. unfold has0, inI. destruct (Rle_dec (rl x) 0); [destruct (Rle_dec 0 (rh x))|]; split; intro H; try discriminate; try lra; auto. Qed.
Lemma div_le_pos p q t : 0 < q -> p <= t * q -> p / q <= t.
Proof. intros Hq H. apply (Rmult_le_reg_r q); [exact Hq|]. unfold Rdiv. rewrite Rmult_assoc, Rinv_l, Rmult_1_r by lra. exact H. Qed.
Lemma div_ge_pos p q t : 0 < q -> t * q <= p -> t <= p / q.
Proof. intros Hq H. apply (Rmult_le_reg_r q); [exact Hq|]. unfold Rdiv. rewrite Rmult_assoc, Rinv_l, Rmult_1_r by lra. exact H. Qed.
Lemma div_le_neg p q t : q < 0 -> t * q <= p -> p / q <= t.
Proof. intros Hq H. replace (p / q) with ((- p) / (- q)) by (field; lra). apply div_le_pos; lra. Qed.
Lemma div_ge_neg p q t : q < 0 -> p <= t * q -> t <= p / q.
Proof. intros Hq H. replace (p / q) with ((- p) / (- q)) by (field; lra). apply div_ge_pos; lra. Qed.
Lemma ends_all t : in_ends None None t. Proof. split; intros; discriminate. Qed.
Lemma ends_hi h t : t <= h -> in_ends None (Some h) t. Proof. intro H. split; intros y E; [discriminate | injection E as <-; exact H]. Qed.
Lemma ends_lo l t : l <= t -> in_ends (Some l) None t. Proof. intro H. split; intros y E; [injection E as <-; exact H | discriminate]. Qed.
Lemma sp_nn s t : 0 <= s -> s * t < 0 -> 0 < s /\ t < 0.
Proof. intros A B. assert (s <> 0) by (intros ->; lra). split; [lra|]. destruct (Rlt_dec t 0); [assumption|]. assert (0 <= s * t) by (apply Rmult_le_pos; lra). lra. Qed.
Lemma sp_np s t : 0 <= s -> 0 < s * t -> 0 < s /\ 0 < t.
Proof. intros A B. destruct (sp_nn s (- t) A ltac:(lra)). lra. Qed.
Lemma mul_mono s u t : s <= u -> 0 <= t -> s * t <= u * t. Proof. intros; now apply Rmult_le_compat_r. Qed.
Lemma mul_anti s u t : s <= u -> t <= 0 -> u * t <= s * t. Proof. intros A B. assert (C := Rmult_le_compat_r (- t) s u ltac:(lra) A). lra. Qed.
(** The extended division contains every quotient. *)
Theorem kdiv_in a d r s t : classic_row d = false -> inI a r -> inI d s -> s * t = r -> in_quot (kdiv a d) t.
Proof.
  intros C Ha Hd E. assert (C' : rl d * rh d <= 0) by (unfold classic_row in C; destruct Rlt_dec; [discriminate | lra]). clear C.
  unfold kdiv. destruct (has0 a) eqn:Z; [apply ends_all|]. assert (NZ : ~ inI a 0) by (rewrite <- has0_spec; congruence).
  unfold inI in *. assert (D : rl d <= 0 <= rh d).
  { destruct (Rle_dec (rl d) 0) as [G|G]; [destruct (Rle_dec 0 (rh d)) as [G2|G2]|]; [lra| |]; exfalso.
    - assert (0 < (- rl d) * (- rh d)) by (apply Rmult_lt_0_compat; lra). lra.
    - assert (0 < rl d * rh d) by (apply Rmult_lt_0_compat; lra). lra. }
  assert (TN : t <= 0 -> rh d * t <= r <= rl d * t) by (intro T; rewrite <- E; split; apply mul_anti; lra).
  assert (TP : 0 <= t -> rl d * t <= r <= rh d * t) by (intro T; rewrite <- E; split; apply mul_mono; lra).
  destruct (Rlt_dec (rh a) 0) as [N|N].
  - destruct (Req_EM_T (rl d) 0) as [E1|E1].
    + destruct (Req_EM_T (rh d) 0) as [E2|E2]; [exact I|]. apply ends_hi. apply div_ge_pos; [lra|]. destruct (sp_nn s t ltac:(lra) ltac:(lra)). assert (TN' := TN ltac:(lra)). lra.
    + destruct (Req_EM_T (rh d) 0) as [E2|E2].
      { apply ends_lo; apply div_le_neg; [lra|]. destruct (sp_np (- s) t ltac:(lra) ltac:(lra)). assert (TP' := TP ltac:(lra)). lra. }
      cbn [in_quot]. destruct (Rtotal_order t 0) as [T|[T|T]]; [left | subst t; exfalso; lra | right]; (split; [exact T|]).
      * apply ends_hi. apply div_ge_pos; [lra|]. assert (TN' := TN ltac:(lra)). lra.
      * apply ends_lo. apply div_le_neg; [lra|]. assert (TP' := TP ltac:(lra)). lra.
  - destruct (Rlt_dec 0 (rl a)) as [P|P]; [|exact I]. destruct (Req_EM_T (rl d) 0) as [E1|E1].
    + destruct (Req_EM_T (rh d) 0) as [E2|E2]; [exact I|]. apply ends_lo. apply div_le_pos; [lra|]. destruct (sp_np s t ltac:(lra) ltac:(lra)). assert (TP' := TP ltac:(lra)). lra.
    + destruct (Req_EM_T (rh d) 0) as [E2|E2].
      { apply ends_hi; apply div_ge_neg; [lra|]. destruct (sp_nn (- s) t ltac:(lra) ltac:(lra)). assert (TN' := TN ltac:(lra)). lra. }
      cbn [in_quot]. destruct (Rtotal_order t 0) as [T|[T|T]]; [left | subst t; exfalso; lra | right]; (split; [exact T|]).
      * apply ends_hi. apply div_ge_neg; [lra|]. assert (TN' := TN ltac:(lra)). lra.
      * apply ends_lo. apply div_le_pos; [lra|]. assert (TP' := TP ltac:(lra)). lra.
Qed.
Lemma inv_anti_neg u q : u <= q -> q < 0 -> / q <= / u.
Proof.
  intros A B. replace (/ q) with (- / (- q)) by (field; lra). replace (/ u) with (- / (- u)) by (field; lra). apply Ropp_le_contravar. apply Rinv_le_contravar; lra.
Qed.
Lemma quot_range p q l h s : l <= s <= h -> 0 < p \/ q < 0 -> p <= q -> forall u, p <= u <= q ->
  Rmin (Rmin (l / p) (l / q)) (Rmin (h / p) (h / q)) <= s / u <= Rmax (Rmax (l / p) (l / q)) (Rmax (h / p) (h / q)).
Proof.
  intros Hs Hz Hpq u Hu. assert (IU : / q <= / u <= / p).
  { destruct Hz; split.
    - apply Rinv_le_contravar; lra.
    - apply Rinv_le_contravar; lra.
    - apply inv_anti_neg; lra.
    - apply inv_anti_neg; lra. }
  unfold Rdiv. generalize dependent (/ u). generalize (/ p) (/ q). intros ip iq iu IU.
  assert (B : forall c, Rmin (c * ip) (c * iq) <= c * iu <= Rmax (c * ip) (c * iq)).
  { intro c. destruct (Rle_dec 0 c); [rewrite Rmin_right, Rmax_left by nra | rewrite Rmin_left, Rmax_right by nra]; nra. }
  assert (BL := B l). assert (BH := B h).
  assert (C : Rmin (l * iu) (h * iu) <= s * iu <= Rmax (l * iu) (h * iu)).
  { destruct (Rle_dec 0 iu); [rewrite Rmin_left, Rmax_right by nra | rewrite Rmin_right, Rmax_left by nra]; nra. }
  set (mL := Rmin (l * ip) (l * iq)) in *. set (mH := Rmin (h * ip) (h * iq)) in *. set (ML := Rmax (l * ip) (l * iq)) in *. set (MH := Rmax (h * ip) (h * iq)) in *.
  assert (X1 := Rmin_l mL mH). assert (X2 := Rmin_r mL mH). assert (X3 := Rmax_l ML MH). assert (X4 := Rmax_r ML MH). unfold Rmin at 1 in C. unfold Rmax at 1 in C. destruct (Rle_dec (l * iu) (h * iu)); lra.
Qed.
Lemma cdiv_in a d r s t : inI a r -> inI d s -> s * t = r -> in_quot (cdiv a d) t.
Proof.
  intros Ha Hd E. unfold cdiv, r_div. destruct (has0 d) eqn:Z; [exact I|]. assert (NZ : ~ inI d 0) by (rewrite <- has0_spec; congruence). unfold inI in *.
  assert (S0 : s <> 0) by (intro; subst s; lra). assert (T : t = r / s) by (subst r; field; exact S0).
  assert (Q := quot_range (rl d) (rh d) (rl a) (rh a) r Ha ltac:(lra) ltac:(lra) s Hd). cbn [rl rh in_quot]. rewrite T. 
  split; intros y Ey; injection Ey as <-; unfold Rmin, Rmax in Q |- *; tauto.
Qed.
Lemma fold_meet_in qs : forall s t, in_inter s t -> (forall q, In q qs -> in_quot q t) -> in_inter (fold_left meet qs s) t.
Proof.
  induction qs as [|q qs IH]; intros s t Hs H; [exact Hs|]. cbn [fold_left]. apply IH; [apply meet_in; [exact Hs | apply H; now left] | intros; apply H; now right].
Qed.
(** Omega: a lower bound of every [t] in V that solves all equations. *)
Theorem omega_sound m bAr Anu Vnu t : (forall i, (i < m)%nat -> exists s r, inI (Anu i) s /\ inI (bAr i) r /\ s * t = r) -> inI Vnu t ->
  below (omega_of m bAr Anu Vnu) t.
Proof.
  intros H Hv. unfold omega_of. apply answer_below. apply fold_meet_in; [exists Vnu; auto|].
  set (cl := map (fun i => cdiv (bAr i) (Anu i)) _). set (ka := map (fun i => kdiv (bAr i) (Anu i)) _).
  assert (C : forall q, In q cl -> in_quot q t).
  { intros q Hq. apply in_map_iff in Hq. destruct Hq as (i & <- & Hi). apply filter_In in Hi. destruct Hi as [Hi _]. apply in_seq in Hi. destruct (H i ltac:(lia)) as (s & r & H1 & H2 & H3). now apply (cdiv_in _ _ r s). }
  assert (K : forall q, In q ka -> in_quot q t).
  { intros q Hq. apply in_map_iff in Hq. destruct Hq as (i & <- & Hi). apply filter_In in Hi. destruct Hi as [Hi Hc]. apply in_seq in Hi. destruct (H i ltac:(lia)) as (s & r & H1 & H2 & H3).
    apply (kdiv_in _ _ r s); auto. now destruct (classic_row (Anu i)). }
  intros q Hq. destruct cl as [|c cl'].
  - destruct ka as [|q0 qs]; [destruct Hq as [<-|[]]; exact I|]. destruct Hq as [<-|Hq]; [apply K; now left | now apply K].
  - apply in_app_or in Hq. destruct Hq; auto.
Qed.

(** ** The other components *)
Lemma others_in n nu j : In j (others n nu) <-> (j < n)%nat /\ j <> nu.
Proof. unfold others. rewrite filter_In, in_seq. destruct (Nat.eqb_spec j nu); cbn [negb]; split; intros [H1 H2]; try discriminate; try lia; split; auto; lia. Qed.
Definition lsum (f : nat -> R) (l : list nat) : R := fold_right (fun j s => f j + s) 0 l.
Lemma lsum_app f l1 l2 : lsum f (l1 ++ l2) = lsum f l1 + lsum f l2.
Proof. induction l1 as [|a l IH]; simpl; [lra|]. unfold lsum in *. cbn [app fold_right]. rewrite IH. ring. Qed.
Lemma total_others n nu f : (nu < n)%nat -> total n f = f nu + lsum f (others n nu).
Proof.
  assert (G : forall k, total k f = (if (nu <? k)%nat then f nu else 0) + lsum f (others k nu)).
  { induction k as [|k IH]; [simpl; ring|]. cbn [total]. rewrite IH. unfold others. rewrite seq_S, filter_app, lsum_app. cbn [Nat.add filter].
    destruct (Nat.eqb_spec k nu) as [->|N]; cbn [negb].
    - destruct (Nat.ltb_spec nu nu); [lia|]. destruct (Nat.ltb_spec nu (S nu)); [|lia]. simpl. ring.
    - destruct (Nat.ltb_spec nu k); destruct (Nat.ltb_spec nu (S k)); try lia; unfold lsum; simpl; ring. }
  intro H. rewrite G. destruct (Nat.ltb_spec nu n); [reflexivity | lia].
Qed.
Lemma mul_in X Y x y : inI X x -> inI Y y -> inI (r_mul X Y) (x * y).
Proof.
  intros Hx Hy. unfold inI, r_mul in *. cbn [rl rh]. set (a := rl X) in *. set (c := rh X) in *. set (p := rl Y) in *. set (q := rh Y) in *.
  assert (B : forall k, Rmin (k * p) (k * q) <= k * y <= Rmax (k * p) (k * q)).
  { intro k. destruct (Rle_dec 0 k); [rewrite Rmin_left, Rmax_right by nra | rewrite Rmin_right, Rmax_left by nra]; nra. }
  assert (BL := B a). assert (BH := B c).
  assert (C : Rmin (a * y) (c * y) <= x * y <= Rmax (a * y) (c * y)).
  { destruct (Rle_dec 0 y); [rewrite Rmin_left, Rmax_right by nra | rewrite Rmin_right, Rmax_left by nra]; nra. }
  set (mL := Rmin (a * p) (a * q)) in *. set (mH := Rmin (c * p) (c * q)) in *. set (ML := Rmax (a * p) (a * q)) in *. set (MH := Rmax (c * p) (c * q)) in *.
  assert (X1 := Rmin_l mL mH). assert (X2 := Rmin_r mL mH). assert (X3 := Rmax_l ML MH). assert (X4 := Rmax_r ML MH). unfold Rmin at 1 in C. unfold Rmax at 1 in C. destruct (Rle_dec (a * y) (c * y)); lra.
Qed.
Lemma rest_in idx A Q M x i : (forall j, In j idx -> inI (A i j) (M i j) /\ inI (Q j) (x j)) -> inI (rest idx A Q i) (lsum (fun j => M i j * x j) idx).
Proof.
  unfold rest, lsum. induction idx as [|j idx IH]; intro H; cbn [fold_right]; [unfold inI, r_point; simpl; lra|].
  destruct (H j (or_introl eq_refl)) as [H1 H2]. assert (P := mul_in _ _ _ _ H1 H2). assert (R := IH ltac:(intros; apply H; now right)). unfold inI, r_add in *. cbn [rl rh]. lra.
Qed.
(** A solution gives a member of every quotient. *)
Lemma row_member m n nu A b Q x : (nu < n)%nat -> united m n A b x -> covers n nu Q x ->
  forall i, (i < m)%nat -> exists s r, inI (Anu nu A i) s /\ inI (r_sub (b i) (rest (others n nu) A Q i)) r /\ s * x nu = r.
Proof.
  intros Hn (M & v & HM & Hv & S) Hc i Hi. exists (M i nu), (M i nu * x nu). split; [now apply HM|]. split; [|reflexivity].
  assert (E := S i Hi). unfold times in E. rewrite (total_others n nu) in E by exact Hn.
  assert (R := rest_in (others n nu) A Q M x i ltac:(intros j Hj; apply others_in in Hj; split; [apply HM; tauto | apply Hc; tauto])).
  assert (B := Hv i Hi). unfold inI, r_sub in *. cbn [rl rh]. lra.
Qed.

(** ** ExactOmega *)
Definition same_sign (t s : R) : Prop := t = s * Rabs t.
Lemma sgn_abs t : same_sign t (sgn t).
Proof. unfold same_sign, sgn. destruct (Rlt_dec 0 t); [rewrite Rabs_right by lra; ring|]. destruct (Rlt_dec t 0); [rewrite Rabs_left by lra; ring|]. assert (t = 0) by lra. subst. ring. Qed.
Lemma total_single n k (f : nat -> R) : (k < n)%nat -> total n (fun j => if (k =? j)%nat then f j else 0) = f k.
Proof.
  intro H. rewrite (total_pick n k); [rewrite Nat.eqb_refl; reflexivity | exact H|]. intros j _ N. destruct (Nat.eqb_spec k j); [congruence | reflexivity].
Qed.
(** What the rows of the linear program say about [y] *)
Lemma pss_rows m n nu A b Q S y : feasible (2 * (m + n) + n) n (pss_A m n A S) (pss_b m n nu b Q) y <->
  (forall i, (i < m)%nat -> total n (fun j => (r_mid (A i j) * S j - r_rad (A i j)) * y j) <= rh (b i)) /\
  (forall i, (i < m)%nat -> total n (fun j => (- (r_mid (A i j) * S j) - r_rad (A i j)) * y j) <= - rl (b i)) /\
  (forall j, (j < n)%nat -> - (S j * y j) <= (if (j =? nu)%nat then 10 ^ 15 else - rl (Q j))) /\
  (forall j, (j < n)%nat -> S j * y j <= (if (j =? nu)%nat then 10 ^ 15 else rh (Q j))) /\
  (forall j, (j < n)%nat -> 0 <= y j).
Proof.
  unfold feasible. split.
  - intro H. refine (conj _ (conj _ (conj _ (conj _ _)))); intros i Hi.
    + specialize (H i ltac:(lia)). unfold times, pss_A, pss_b in H. destruct (Nat.ltb_spec i m); [exact H | lia].
    + specialize (H (m + i)%nat ltac:(lia)). unfold times, pss_A, pss_b in H. destruct (Nat.ltb_spec (m + i) m); [lia|]. destruct (Nat.ltb_spec (m + i) (2 * m)); [|lia].
      replace (m + i - m)%nat with i in H by lia. exact H.
    + specialize (H (2 * m + i)%nat ltac:(lia)). unfold times, pss_A, pss_b in H. destruct (Nat.ltb_spec (2 * m + i) m); [lia|]. destruct (Nat.ltb_spec (2 * m + i) (2 * m)); [lia|].
      destruct (Nat.ltb_spec (2 * m + i) (2 * m + n)); [|lia]. replace (2 * m + i - 2 * m)%nat with i in H by lia.
      rewrite (total_ext n _ (fun j => if (i =? j)%nat then - (S j * y j) else 0)) in H by (intros j _; destruct (i =? j)%nat; ring). rewrite (total_single n i (fun j => - (S j * y j))) in H by exact Hi. exact H.
    + specialize (H (2 * m + n + i)%nat ltac:(lia)). unfold times, pss_A, pss_b in H. destruct (Nat.ltb_spec (2 * m + n + i) m); [lia|]. destruct (Nat.ltb_spec (2 * m + n + i) (2 * m)); [lia|].
      destruct (Nat.ltb_spec (2 * m + n + i) (2 * m + n)); [lia|]. destruct (Nat.ltb_spec (2 * m + n + i) (2 * m + 2 * n)); [|lia]. replace (2 * m + n + i - (2 * m + n))%nat with i in H by lia.
      rewrite (total_ext n _ (fun j => if (i =? j)%nat then S j * y j else 0)) in H by (intros j _; destruct (i =? j)%nat; ring). rewrite (total_single n i (fun j => S j * y j)) in H by exact Hi. exact H.
    + specialize (H (2 * m + 2 * n + i)%nat ltac:(lia)). unfold times, pss_A, pss_b in H. destruct (Nat.ltb_spec (2 * m + 2 * n + i) m); [lia|]. destruct (Nat.ltb_spec (2 * m + 2 * n + i) (2 * m)); [lia|].
      destruct (Nat.ltb_spec (2 * m + 2 * n + i) (2 * m + n)); [lia|]. destruct (Nat.ltb_spec (2 * m + 2 * n + i) (2 * m + 2 * n)); [lia|]. replace (2 * m + 2 * n + i - (2 * m + 2 * n))%nat with i in H by lia.
      rewrite (total_ext n _ (fun j => if (i =? j)%nat then - y j else 0)) in H by (intros j _; destruct (i =? j)%nat; ring). rewrite (total_single n i (fun j => - y j)) in H by exact Hi. lra.
  - intros (H1 & H2 & H3 & H4 & H5) i Hi. unfold times, pss_A, pss_b.
    destruct (Nat.ltb_spec i m) as [L|L]; [now apply H1|]. destruct (Nat.ltb_spec i (2 * m)) as [L2|L2]; [apply H2; lia|].
    destruct (Nat.ltb_spec i (2 * m + n)) as [L3|L3].
    { rewrite (total_ext n _ (fun j => if (i - 2 * m =? j)%nat then - (S j * y j) else 0)) by (intros j _; destruct (i - 2 * m =? j)%nat; ring). rewrite (total_single n (i - 2 * m) (fun j => - (S j * y j))) by lia. apply H3. lia. }
    destruct (Nat.ltb_spec i (2 * m + 2 * n)) as [L4|L4].
    { rewrite (total_ext n _ (fun j => if (i - (2 * m + n) =? j)%nat then S j * y j else 0)) by (intros j _; destruct (i - (2 * m + n) =? j)%nat; ring). rewrite (total_single n (i - (2 * m + n)) (fun j => S j * y j)) by lia. apply H4. lia. }
    rewrite (total_ext n _ (fun j => if (i - (2 * m + 2 * n) =? j)%nat then - y j else 0)) by (intros j _; destruct (i - (2 * m + 2 * n) =? j)%nat; ring).
    rewrite (total_single n (i - (2 * m + 2 * n)) (fun j => - y j)) by lia. assert (Q5 := H5 (i - (2 * m + 2 * n))%nat ltac:(lia)). lra.
Qed.
(** A solution with the right signs is feasible. *)
Lemma solution_feasible m n nu A b Q x s : zero_free n nu Q -> united m n A b x -> covers n nu Q x -> Rabs (x nu) <= 10 ^ 15 -> same_sign (x nu) s ->
  feasible (2 * (m + n) + n) n (pss_A m n A (pss_S nu Q s)) (pss_b m n nu b Q) (vabs x).
Proof.
  intros Z U C B SS. apply pss_rows.
  assert (SG : forall j, (j < n)%nat -> pss_S nu Q s j * vabs x j = x j).
  { intros j Hj. unfold pss_S, vabs. destruct (Nat.eqb_spec j nu) as [->|N]; [symmetry; exact SS|]. destruct (Z j Hj N) as [P NZ]. assert (Cj := C j Hj N). unfold inI, proper in *.
    unfold sgn. destruct (Rlt_dec 0 (rl (Q j))); [rewrite Rabs_right by lra; ring|]. destruct (Rlt_dec (rl (Q j)) 0); [rewrite Rabs_left by lra; ring | lra]. }
  destruct U as (M & v & HM & Hv & S). 
  assert (T : forall i, (i < m)%nat -> total n (fun j => (r_mid (A i j) * pss_S nu Q s j - r_rad (A i j)) * vabs x j) <= v i /\
                                     total n (fun j => (- (r_mid (A i j) * pss_S nu Q s j) - r_rad (A i j)) * vabs x j) <= - v i).
  { intros i Hi. rewrite <- (S i Hi). unfold times. split; [apply total_le | rewrite <- total_opp; apply total_le]; intros j Hj; assert (Mj := HM i j Hi Hj); unfold inI in Mj; assert (G := SG j Hj).
    - replace ((r_mid (A i j) * pss_S nu Q s j - r_rad (A i j)) * vabs x j) with (r_mid (A i j) * (pss_S nu Q s j * vabs x j) - r_rad (A i j) * vabs x j) by ring. rewrite G.
      unfold vabs, r_mid, r_rad. unfold Rabs. destruct Rcase_abs; nra.
    - replace ((- (r_mid (A i j) * pss_S nu Q s j) - r_rad (A i j)) * vabs x j) with (- (r_mid (A i j) * (pss_S nu Q s j * vabs x j)) - r_rad (A i j) * vabs x j) by ring. rewrite G.
      unfold vabs, r_mid, r_rad. unfold Rabs. destruct Rcase_abs; nra. }
  refine (conj _ (conj _ (conj _ (conj _ _)))).
  - intros i Hi. destruct (T i Hi) as [T1 _]. assert (B1 := Hv i Hi). unfold inI in B1. lra.
  - intros i Hi. destruct (T i Hi) as [_ T2]. assert (B1 := Hv i Hi). unfold inI in B1. lra.
  - intros j Hj. rewrite SG by exact Hj. destruct (Nat.eqb_spec j nu) as [->|N]; [assert (A1 := Rle_abs (- x nu)); rewrite Rabs_Ropp in A1; lra|]. assert (Cj := C j Hj N). unfold inI in Cj. lra.
  - intros j Hj. rewrite SG by exact Hj. destruct (Nat.eqb_spec j nu) as [->|N]; [assert (A1 := Rle_abs (x nu)); lra|]. assert (Cj := C j Hj N). unfold inI in Cj. lra.
  - intros j _. apply Rabs_pos.
Qed.
Lemma obj_value n nu s y : (nu < n)%nat -> dot n (fun j => if (j =? nu)%nat then s else 0) y = s * y nu.
Proof.
  intro H. unfold dot. rewrite (total_ext n _ (fun j => if (nu =? j)%nat then s * y j else 0)); [now apply (total_single n nu (fun j => s * y j))|].
  intros j _. rewrite (Nat.eqb_sym nu j). destruct (j =? nu)%nat; ring.
Qed.
Lemma pss_lp_spec lp m n nu A b Q s : (nu < n)%nat -> lp_good lp m n nu A b Q s ->
  match pss_lp lp m n nu A b Q s with
  | Some r => exists y, feasible (2 * (m + n) + n) n (pss_A m n A (pss_S nu Q s)) (pss_b m n nu b Q) y /\ r = s * y nu /\
               forall z, feasible (2 * (m + n) + n) n (pss_A m n A (pss_S nu Q s)) (pss_b m n nu b Q) z -> r <= s * z nu
  | None => forall z, ~ feasible (2 * (m + n) + n) n (pss_A m n A (pss_S nu Q s)) (pss_b m n nu b Q) z
  end.
Proof.
  intros Hn G. unfold lp_good in G. unfold pss_lp. destruct (lp _ _ _ _ _) as [y|].
  - cbn [lp_truthful] in G. destruct G as [F O]. exists y. split; [exact F|].
    assert (E : vsum n (fun j => y j * (if (j =? nu)%nat then s else 0)) = s * y nu).
    { rewrite vsum_eq. rewrite <- (obj_value n nu s y Hn). unfold dot. apply total_ext. intros; ring. }
    rewrite E. split; [reflexivity|]. intros z Hz. assert (O1 := O z Hz). rewrite !obj_value in O1 by exact Hn. exact O1.
  - cbn [lp_truthful] in G. destruct G as [N|U]; [exact N|]. exfalso.
    destruct (U (- 10 ^ 15)) as (z & Hz & L). rewrite obj_value in L by exact Hn. apply pss_rows in Hz. destruct Hz as (_ & _ & H3 & _ & _). assert (Q3 := H3 nu Hn). unfold pss_S in Q3. rewrite !Nat.eqb_refl in Q3. lra.
Qed.
Theorem exact_omega_sound lp m n nu A b Q Vnu x : (nu < n)%nat -> zero_free n nu Q -> (forall s, s = sgn (rl Vnu) \/ s = sgn (rh Vnu) -> lp_good lp m n nu A b Q s) ->
  united m n A b x -> covers n nu Q x -> inI Vnu (x nu) -> Rabs (x nu) <= 10 ^ 15 -> below (exact_omega lp m n nu A b Q Vnu) (x nu).
Proof.
  intros Hn Z G U C HV B. unfold exact_omega.
  assert (F := fun s => solution_feasible m n nu A b Q x s Z U C B).
  assert (P1 := pss_lp_spec lp m n nu A b Q (sgn (rl Vnu)) Hn (G _ (or_introl eq_refl))). assert (P2 := pss_lp_spec lp m n nu A b Q (sgn (rh Vnu)) Hn (G _ (or_intror eq_refl))). unfold inI in HV.
  destruct (pss_lp lp m n nu A b Q (sgn (rl Vnu))) as [r|].
  - destruct P1 as (y & Fy & Er & O). cbn [below].
    assert (Y : 0 <= y nu) by (apply pss_rows in Fy; destruct Fy as (_ & _ & _ & _ & H5); now apply H5).
    unfold sgn in *. destruct (Rlt_dec 0 (rl Vnu)) as [P|P].
    + assert (O1 := O (vabs x) (F 1 ltac:(unfold same_sign; rewrite Rabs_right by lra; ring))). unfold vabs in O1. rewrite Rabs_right in O1 by lra. lra.
    + destruct (Rlt_dec (rl Vnu) 0) as [N|N]; [|lra]. destruct (Rle_dec (x nu) 0) as [L|L]; [|lra].
      assert (O1 := O (vabs x) (F (-1) ltac:(unfold same_sign; rewrite Rabs_left1 by lra; ring))). unfold vabs in O1. rewrite Rabs_left1 in O1 by lra. lra.
  - assert (X : sgn (rh Vnu) = 1 /\ 0 < x nu \/ False).
    { left. unfold sgn in *. destruct (Rlt_dec 0 (rl Vnu)) as [P|P]; [exfalso; apply (P1 (vabs x)), F; unfold same_sign; rewrite Rabs_right by lra; ring|].
      assert (XP : 0 < x nu).
      { destruct (Rlt_dec (rl Vnu) 0) as [N|N].
        - destruct (Rle_dec (x nu) 0) as [L|L]; [|lra]. exfalso. apply (P1 (vabs x)), F. unfold same_sign. rewrite Rabs_left1 by lra. ring.
        - destruct (Req_dec (x nu) 0) as [E|E]; [|lra]. exfalso. apply (P1 (vabs x)), F. unfold same_sign. rewrite E. ring. }
      split; [|exact XP]. destruct (Rlt_dec 0 (rh Vnu)); [reflexivity | lra]. }
    destruct X as [[X1 X2]|[]]. rewrite X1 in *. destruct (pss_lp lp m n nu A b Q 1) as [r|].
    + destruct P2 as (y & _ & _ & O). cbn [below]. assert (O1 := O (vabs x) (F 1 ltac:(unfold same_sign; rewrite Rabs_right by lra; ring))). unfold vabs in O1. rewrite Rabs_right in O1 by lra. lra.
    + exfalso. apply (P2 (vabs x)), F. unfold same_sign. rewrite Rabs_right by lra. ring.
Qed.
