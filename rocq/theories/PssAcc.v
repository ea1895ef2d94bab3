(** PSS: the splitting ends by its tolerance, and what it returns then. *)
From Coq Require Import Reals List Arith Bool ZArith Lia Lra Psatz Sorting.Sorted.
From Verif Require Import Exact SpecExact ExactProofs Estim SpecEstim EstimProofs RecogProofs Pss SpecPss PssProofs PssLoop PssMore.
Import ListNotations.
Open Scope R_scope.

(** ** The quotients contain quotients only *)
Lemma prod_meets d a t : proper d -> proper a -> Rmin (rl d * t) (rh d * t) <= rh a -> rl a <= Rmax (rl d * t) (rh d * t) -> exists s r, inI d s /\ inI a r /\ s * t = r.
Proof.
  intros Pd Pa H1 H2. unfold proper, inI in *.
  set (u := Rmin (rl d * t) (rh d * t)) in *. set (v := Rmax (rl d * t) (rh d * t)) in *.
  set (r := Rmax u (rl a)). 
  assert (R1 : u <= r <= v).
  { unfold r. assert (u <= v) by (unfold u, v, Rmin, Rmax; destruct Rle_dec; lra). unfold Rmax; destruct Rle_dec; lra. }
  assert (R2 : rl a <= r <= rh a) by (unfold r, Rmax; destruct Rle_dec; lra).
  clearbody r. destruct (Req_dec t 0) as [->|T].
  - exists (rl d), r. assert (r = 0) by (unfold u, v in R1; rewrite !Rmult_0_r in R1; rewrite Rmin_left, Rmax_left in R1 by lra; lra). subst. split; [lra|]. split; [lra | ring].
  - exists (r / t), r. split; [|split; [exact R2 | field; exact T]].
    destruct (Rlt_dec 0 t) as [P|P].
    + assert (E : u = rl d * t /\ v = rh d * t) by (unfold u, v; rewrite Rmin_left, Rmax_right by (apply Rmult_le_compat_r; lra); auto). destruct E as [-> ->].
      split; [apply div_ge_pos | apply div_le_pos]; lra.
    + assert (E : u = rh d * t /\ v = rl d * t) by (unfold u, v; assert (rh d * t <= rl d * t) by (apply mul_anti; lra); rewrite Rmin_right, Rmax_left by lra; auto). destruct E as [-> ->].
      split; [apply div_ge_neg | apply div_le_neg]; lra.
Qed.
Definition in_pieces (q : quot) (t : R) : Prop :=
  match q with
  | QOne lo hi => in_ends lo hi t
  | QTwo l1 h1 l2 h2 => in_ends l1 h1 t \/ in_ends l2 h2 t
  | QFail => False
  end.
Lemma ray_pos p q t : 0 < p -> 0 < q -> p / q <= t -> 0 < t /\ p <= q * t.
Proof. intros Hp Hq H. assert (E : p = p / q * q) by (field; lra). assert (0 < p / q) by (apply Rdiv_lt_0_compat; lra). split; [lra|]. rewrite E. rewrite (Rmult_comm q t). apply Rmult_le_compat_r; lra. Qed.
Lemma kdiv_only a d t : proper a -> proper d -> classic_row d = false -> in_pieces (kdiv a d) t -> exists s r, inI d s /\ inI a r /\ s * t = r.
Proof.
  intros Pa Pd C H. assert (C' : rl d * rh d <= 0) by (unfold classic_row in C; destruct Rlt_dec; [discriminate | lra]). clear C.
  assert (D : rl d <= 0 <= rh d) by (unfold proper in Pd; split; nra).
  unfold kdiv in H. destruct (has0 a) eqn:Z.
  { apply has0_spec in Z. exists 0, 0. unfold inI in *. split; [lra|]. split; [lra | ring]. }
  assert (LO : forall u, in_ends (Some u) None t -> u <= t) by (intros u [Q _]; now apply Q).
  assert (HI : forall u, in_ends None (Some u) t -> t <= u) by (intros u [_ Q]; now apply Q).
  assert (MX1 := Rmax_l (rl d * t) (rh d * t)). assert (MX2 := Rmax_r (rl d * t) (rh d * t)). assert (MN1 := Rmin_l (rl d * t) (rh d * t)). assert (MN2 := Rmin_r (rl d * t) (rh d * t)).
  apply prod_meets; [exact Pd | exact Pa | |]; unfold proper in *.
  - destruct (Rlt_dec (rh a) 0) as [N|N].
    + assert (G : forall q, rl d = q \/ rh d = q -> q <> 0 -> (0 < q -> t <= rh a / q) -> (q < 0 -> rh a / q <= t) -> Rmin (rl d * t) (rh d * t) <= rh a).
      { intros q Hq Q0 A1 A2. assert (q * t <= rh a); [|destruct Hq as [<-|<-]; lra]. destruct (Rlt_dec 0 q) as [P|P].
        - assert (B := A1 P). replace (rh a) with (q * (rh a / q)) by (field; lra). apply Rmult_le_compat_l; lra.
        - assert (B := A2 ltac:(lra)). replace (rh a) with (q * (rh a / q)) by (field; lra). rewrite !(Rmult_comm q). apply mul_anti; lra. }
      destruct (Req_EM_T (rl d) 0) as [E1|E1]; [destruct (Req_EM_T (rh d) 0) as [E2|E2]; [destruct H|]|destruct (Req_EM_T (rh d) 0) as [E2|E2]]; cbn [in_pieces] in H.
      * apply (G (rh d)); auto; intros; first [lra | now apply HI | now apply LO].
      * apply (G (rl d)); auto; intros; first [lra | now apply HI | now apply LO].
      * destruct H as [H|H]; [apply (G (rh d)) | apply (G (rl d))]; auto; intros; first [lra | now apply HI | now apply LO].
    + assert (0 <= rh a) by lra. destruct (Rle_dec 0 t); [assert (rl d * t <= 0) by nra | assert (rh d * t <= 0) by nra]; lra.
  - destruct (Rlt_dec (rh a) 0) as [N|N]; [destruct (Rle_dec 0 t); [assert (0 <= rh d * t) by nra | assert (0 <= rl d * t) by nra]; lra|].
    destruct (Rlt_dec 0 (rl a)) as [P0|P0]; [|destruct H].
    assert (G : forall q, rl d = q \/ rh d = q -> q <> 0 -> (0 < q -> rl a / q <= t) -> (q < 0 -> t <= rl a / q) -> rl a <= Rmax (rl d * t) (rh d * t)).
    { intros q Hq Q0 A1 A2. assert (rl a <= q * t); [|destruct Hq as [<-|<-]; lra]. destruct (Rlt_dec 0 q) as [P|P].
      - assert (B := A1 P). replace (rl a) with (q * (rl a / q)) by (field; lra). apply Rmult_le_compat_l; lra.
      - assert (B := A2 ltac:(lra)). replace (rl a) with (q * (rl a / q)) by (field; lra). rewrite !(Rmult_comm q). apply mul_anti; lra. }
    destruct (Req_EM_T (rl d) 0) as [E1|E1]; [destruct (Req_EM_T (rh d) 0) as [E2|E2]; [destruct H|]|destruct (Req_EM_T (rh d) 0) as [E2|E2]]; cbn [in_pieces] in H.
    * apply (G (rh d)); auto; intros; first [lra | now apply HI | now apply LO].
    * apply (G (rl d)); auto; intros; first [lra | now apply HI | now apply LO].
    * destruct H as [H|H]; [apply (G (rl d)) | apply (G (rh d))]; auto; intros; first [lra | now apply HI | now apply LO].
Qed.
Lemma cdiv_only a d t : proper a -> proper d -> in_pieces (cdiv a d) t -> exists s r, inI d s /\ inI a r /\ s * t = r.
Proof.
  intros Pa Pd H. unfold cdiv, r_div in H. destruct (has0 d) eqn:Z; [destruct H|]. assert (NZ : ~ inI d 0) by (rewrite <- has0_spec; congruence). unfold inI in NZ. unfold proper in *.
  cbn [in_pieces rl rh] in H. destruct H as [H1 H2]. assert (A1 := H1 _ eq_refl). assert (A2 := H2 _ eq_refl). clear H1 H2.
  set (p := rl d) in *. set (q := rh d) in *. set (l := rl a) in *. set (h := rh a) in *.
  assert (MX1 := Rmax_l (p * t) (q * t)). assert (MX2 := Rmax_r (p * t) (q * t)). assert (MN1 := Rmin_l (p * t) (q * t)). assert (MN2 := Rmin_r (p * t) (q * t)).
  apply prod_meets; [exact Pd | exact Pa | |]; fold p q l h.
  - apply Rnot_lt_le. intro N. assert (h < p * t /\ h < q * t) by lra. clear MX1 MX2 MN1 MN2 N.
    destruct (Rlt_dec 0 p) as [P|P].
    + assert (K : forall u v, 0 < v -> v * t > h -> u <= h -> u / v < t) by (intros u v V0 K1 K2; apply (Rmult_lt_reg_r v); [exact V0|]; unfold Rdiv; rewrite Rmult_assoc, Rinv_l by lra; lra).
      revert A2. apply Rlt_not_le. repeat apply Rmax_lub_lt; apply K; lra.
    + assert (K : forall u v, v < 0 -> v * t > h -> u <= h -> t < u / v) by (intros u v V0 K1 K2; replace (u / v) with ((- u) / (- v)) by (field; lra); apply (Rmult_lt_reg_r (- v)); [lra|]; unfold Rdiv; rewrite Rmult_assoc, Rinv_l by lra; lra).
      revert A1. apply Rlt_not_le. repeat apply Rmin_glb_lt; apply K; lra.
  - apply Rnot_lt_le. intro N. assert (p * t < l /\ q * t < l) by lra. clear MX1 MX2 MN1 MN2 N.
    destruct (Rlt_dec 0 p) as [P|P].
    + assert (K : forall u v, 0 < v -> v * t < l -> l <= u -> t < u / v) by (intros u v V0 K1 K2; apply (Rmult_lt_reg_r v); [exact V0|]; unfold Rdiv; rewrite Rmult_assoc, Rinv_l by lra; lra).
      revert A1. apply Rlt_not_le. repeat apply Rmin_glb_lt; apply K; lra.
    + assert (K : forall u v, v < 0 -> v * t < l -> l <= u -> u / v < t) by (intros u v V0 K1 K2; replace (u / v) with ((- u) / (- v)) by (field; lra); apply (Rmult_lt_reg_r (- v)); [lra|]; unfold Rdiv; rewrite Rmult_assoc, Rinv_l by lra; lra).
      revert A2. apply Rlt_not_le. repeat apply Rmax_lub_lt; apply K; lra.
Qed.
Lemma seg_meets d y r : proper d -> (rl d * y <= r <= rh d * y \/ rh d * y <= r <= rl d * y) -> exists x, inI d x /\ x * y = r.
Proof.
  intros P H. destruct (prod_meets d (mkr r r) y P) as (s & r' & H1 & H2 & E); [unfold proper; simpl; lra | | |exists s; unfold inI in H2; simpl in H2; split; [exact H1 | lra]]; cbn [rl rh].
  - assert (A := Rmin_l (rl d * y) (rh d * y)). assert (B := Rmin_r (rl d * y) (rh d * y)). lra.
  - assert (A := Rmax_l (rl d * y) (rh d * y)). assert (B := Rmax_r (rl d * y) (rh d * y)). lra.
Qed.
Lemma mul_only X Y r : proper X -> proper Y -> inI (r_mul X Y) r -> exists x y, inI X x /\ inI Y y /\ x * y = r.
Proof.
  intros PX PY H. unfold inI, r_mul in H. cbn [rl rh] in H.
  assert (EX : forall y, inI Y y -> (rl X * y <= r <= rh X * y \/ rh X * y <= r <= rl X * y) -> exists x y, inI X x /\ inI Y y /\ x * y = r).
  { intros y Hy S. destruct (seg_meets X y r PX S) as (x & Hx & E). exists x, y. auto. }
  assert (EY : forall x, inI X x -> (rl Y * x <= r <= rh Y * x \/ rh Y * x <= r <= rl Y * x) -> exists x y, inI X x /\ inI Y y /\ x * y = r).
  { intros x Hx S. destruct (seg_meets Y x r PY S) as (y & Hy & E). exists x, y. split; [exact Hx|]. split; [exact Hy|]. lra. }
  unfold proper in *.
  destruct (Rle_dec (rl X * rl Y) r) as [A1|A1], (Rle_dec (rh X * rl Y) r) as [A2|A2], (Rle_dec (rh X * rh Y) r) as [A3|A3], (Rle_dec (rl X * rh Y) r) as [A4|A4];
    try (apply (EX (rl Y)); [unfold inI; lra | lra]); try (apply (EX (rh Y)); [unfold inI; lra | lra]); try (apply (EY (rl X)); [unfold inI; lra | lra]); try (apply (EY (rh X)); [unfold inI; lra | lra]).
  - assert (B : r <= rl X * rl Y \/ r <= rh X * rl Y \/ r <= rh X * rh Y \/ r <= rl X * rh Y).
    { destruct H as [_ H]. unfold Rmax in H. repeat destruct Rle_dec; lra. }
    destruct B as [B|[B|[B|B]]]; [apply (EX (rl Y)) | apply (EX (rl Y)) | apply (EX (rh Y)) | apply (EX (rh Y))]; unfold inI; lra.
  - exfalso. destruct H as [H _]. unfold Rmin in H. repeat destruct Rle_dec; lra.
Qed.
Lemma rest_only idx A Q i r : (forall j, In j idx -> proper (A i j) /\ proper (Q j)) -> NoDup idx -> inI (rest idx A Q i) r ->
  exists a y, (forall j, In j idx -> inI (A i j) (a j) /\ inI (Q j) (y j)) /\ lsum (fun j => a j * y j) idx = r.
Proof.
  unfold rest, lsum. revert r. induction idx as [|k idx IH]; intros r P N H; cbn [fold_right] in *.
  - exists (fun _ => 0), (fun _ => 0). split; [intros j []|]. unfold inI, r_point in H. simpl in H. lra.
  - inversion N as [|? ? N1 N2]; subst. set (T := fold_right (fun j s => r_add (r_mul (A i j) (Q j)) s) (r_point 0) idx) in *. destruct (P k ltac:(now left)) as [PA PQ].
    set (M := r_mul (A i k) (Q k)) in *.
    assert (PM : proper M) by (unfold M, proper, r_mul; cbn [rl rh]; eapply Rle_trans; [apply Rmin_l|]; eapply Rle_trans; [apply Rmin_l|]; eapply Rle_trans; [|apply Rmax_l]; apply Rmax_l).
    assert (PT : proper T).
    { unfold T. clear - P. assert (P' : forall j, In j idx -> proper (A i j) /\ proper (Q j)) by (intros; apply P; now right). clear P. induction idx as [|k0 idx IH0]; cbn [fold_right]; [unfold proper, r_point; simpl; lra|].
      assert (Q0 := IH0 ltac:(intros; apply P'; now right)). unfold proper, r_add in *. cbn [rl rh]. apply Rplus_le_compat; [|exact Q0]. unfold r_mul; cbn [rl rh]; eapply Rle_trans; [apply Rmin_l|]; eapply Rle_trans; [apply Rmin_l|]; eapply Rle_trans; [|apply Rmax_l]; apply Rmax_l. }
    unfold inI, r_add in H. cbn [rl rh] in H. unfold proper in PM, PT.
    set (u := Rmax (rl M) (r - rh T)).
    assert (U : inI M u /\ inI T (r - u)) by (unfold u, inI, Rmax; destruct Rle_dec; lra). destruct U as [U1 U2].
    destruct (mul_only _ _ _ PA PQ U1) as (x & y & Hx & Hy & E). destruct (IH (r - u) ltac:(intros; apply P; now right) N2 U2) as (a & z & Haz & Es).
    exists (fun j => if (j =? k)%nat then x else a j), (fun j => if (j =? k)%nat then y else z j). split.
    + intros j Hj. destruct (Nat.eqb_spec j k) as [->|D]; [auto|]. destruct Hj as [->|Hj]; [contradiction | now apply Haz].
    + rewrite Nat.eqb_refl, E. transitivity (u + (r - u)); [f_equal | ring]. rewrite <- Es.
      clear - N1. induction idx as [|j idx IH]; [reflexivity|]. cbn [fold_right]. destruct (Nat.eqb_spec j k) as [->|D]; [exfalso; apply N1; now left|]. f_equal. apply IH. intro; apply N1; now right.
Qed.

(** ** Omega is nearly exact *)
Definition eps : R := / 10 ^ 15.
Definition near (e : R) (P : R -> Prop) (t : R) : Prop := exists t', P t' /\ Rabs (t - t') <= e.
Lemma near_le e e' P t : e <= e' -> near e P t -> near e' P t.
Proof. intros H (t' & H1 & H2). exists t'. split; [exact H1 | lra]. Qed.
Lemma near_step e P t u : near e P u -> Rabs (t - u) <= eps -> near (e + eps) P t.
Proof. intros (t' & H1 & H2) H. exists t'. split; [exact H1|]. replace (t - t') with ((t - u) + (u - t')) by ring. eapply Rle_trans; [apply Rabs_triang | lra]. Qed.
Lemma near_self e (P : R -> Prop) t : 0 <= e -> P t -> near e P t.
Proof. intros He H. exists t. split; [exact H|]. rewrite Rminus_diag_eq by reflexivity. rewrite Rabs_R0. exact He. Qed.
Definition good_ends (lo hi : option R) : Prop := match lo, hi with Some l, Some h => l <= h | _, _ => True end.
Definition good_quot (q : quot) : Prop := match q with QOne lo hi => good_ends lo hi | QTwo l1 h1 l2 h2 => good_ends l1 h1 /\ good_ends l2 h2 | QFail => True end.
Lemma eps_pos : 0 < eps. Proof. unfold eps. apply Rinv_0_lt_compat, pow_lt. lra. Qed.
Lemma isect_only lo hi v z : good_ends lo hi -> proper v -> isect lo hi (Some v) = Some z ->
  proper z /\ forall u, inI z u -> near eps (in_ends lo hi) u /\ exists w, inI v w /\ Rabs (u - w) <= eps.
Proof.
  intros G P E. unfold isect in E. set (s := olo lo (rl v)) in *. set (i := ohi hi (rh v)) in *. fold eps in E. destruct (Rle_dec (s - i) eps) as [D|]; [|discriminate]. injection E as <-. assert (EP := eps_pos).
  split; [unfold proper; cbn [rl rh]; unfold Rmin, Rmax; repeat destruct Rle_dec; lra|].
  intros u [U1 U2]. cbn [rl rh] in U1, U2.
  assert (S1 : rl v <= s) by (unfold s, olo; destruct lo; [apply Rmax_r | lra]).
  assert (I1 : i <= rh v) by (unfold i, ohi; destruct hi; [apply Rmin_r | lra]).
  assert (S2 : forall l, lo = Some l -> l <= s) by (intros l ->; unfold s; simpl; apply Rmax_l).
  assert (I2 : forall h, hi = Some h -> i <= h) by (intros h ->; unfold i; simpl; apply Rmin_l).
  assert (UB : (s <= u <= i) \/ (i <= u <= s)) by (unfold Rmin, Rmax in U1, U2; repeat destruct Rle_dec; lra).
  unfold proper in P. destruct UB as [UB|UB].
  - split; [|exists u; split; [unfold inI; lra | rewrite Rminus_diag_eq by reflexivity; rewrite Rabs_R0; lra]].
    apply near_self; [lra|]. split; intros y Ey; [assert (A := S2 y Ey) | assert (A := I2 y Ey)]; lra.
  - split.
    + destruct lo as [l|], hi as [h|]; cbn [good_ends] in G.
      * assert (A1 := S2 l eq_refl). assert (A2 := I2 h eq_refl). exists (Rmax l (Rmin u h)). split.
        -- split; intros y Ey; injection Ey as <-; [apply Rmax_l|]. apply Rmax_lub; [exact G | apply Rmin_r].
        -- unfold Rmax, Rmin. repeat destruct Rle_dec; unfold Rabs; destruct Rcase_abs; lra.
      * assert (A1 := S2 l eq_refl). exists (Rmax l u). split; [split; intros y Ey; [injection Ey as <-; apply Rmax_l | discriminate]|]. unfold Rmax. destruct Rle_dec; unfold Rabs; destruct Rcase_abs; lra.
      * assert (A2 := I2 h eq_refl). exists (Rmin h u). split; [split; intros y Ey; [discriminate | injection Ey as <-; apply Rmin_l]|]. unfold Rmin. destruct Rle_dec; unfold Rabs; destruct Rcase_abs; lra.
      * apply near_self; [lra | apply ends_all].
    + exists (Rmax (rl v) (Rmin u (rh v))). split; [split; [apply Rmax_l | apply Rmax_lub; [exact P | apply Rmin_r]]|]. unfold Rmax, Rmin. repeat destruct Rle_dec; unfold Rabs; destruct Rcase_abs; lra.
Qed.
Definition holds (v : option rit) (e : R) (qs : list quot) : Prop := forall z, v = Some z -> proper z /\ forall u, inI z u -> forall q, In q qs -> near e (in_pieces q) u.
Definition holds_inter (s : inter) (e : R) (qs : list quot) : Prop :=
  match s with IOne v => holds v e qs | ITwo v1 v2 => holds v1 e qs /\ holds v2 e qs | IFail => True end.
Lemma isect_holds lo hi v e qs q : 0 <= e -> good_ends lo hi -> (forall t, in_ends lo hi t -> in_pieces q t) -> holds v e qs -> holds (isect lo hi v) (e + eps) (q :: qs).
Proof.
  intros He G S H z E. destruct v as [v|]; [|discriminate]. destruct (H v eq_refl) as [P Q]. destruct (isect_only lo hi v z G P E) as [PZ K]. split; [exact PZ|]. intros u Hu q' [<-|Hq].
  - destruct (K u Hu) as [(t & T1 & T2) _]. exists t. split; [now apply S | assert (EP := eps_pos); lra].
  - destruct (K u Hu) as [_ (w & W1 & W2)]. apply (near_step e _ u w); [now apply Q | exact W2].
Qed.
Lemma meet_holds s q e qs : 0 <= e -> good_quot q -> holds_inter s e qs -> holds_inter (meet s q) (e + eps) (q :: qs).
Proof.
  intros He G H. destruct s as [v|v1 v2|]; destruct q as [lo hi|l1 h1 l2 h2|]; cbn [meet holds_inter good_quot] in *; try exact I; try (destruct G as [G1 G2]); try (destruct H as [H1 H2]); first [apply isect_holds | split; apply isect_holds]; auto; intros t Ht; cbn [in_pieces]; tauto.
Qed.
Lemma fold_holds qs : forall s e done, 0 <= e -> (forall q, In q qs -> good_quot q) -> holds_inter s e done -> holds_inter (fold_left meet qs s) (e + INR (length qs) * eps) (rev qs ++ done).
Proof.
  induction qs as [|q qs IH]; intros s e done He G H; cbn [fold_left length rev app]; [simpl; rewrite Rmult_0_l, Rplus_0_r; exact H|].
  assert (EP := eps_pos). rewrite <- app_assoc. cbn [app]. rewrite S_INR. replace (e + (INR (length qs) + 1) * eps) with ((e + eps) + INR (length qs) * eps) by ring.
  apply IH; [lra | intros; apply G; now right|]. apply meet_holds; auto. apply G. now left.
Qed.
Lemma answer_holds s e qs r : holds_inter s e qs -> answer s = Val r -> forall q, In q qs -> near e (in_pieces q) r.
Proof.
  assert (K : forall v z, v = Some z -> holds v e qs -> forall q, In q qs -> near e (in_pieces q) (rl z)).
  { intros v z E H. destruct (H z E) as [P Q]. apply Q. unfold inI, proper in *. lra. }
  destruct s as [[v|]|[v1|] [v2|]|]; cbn [answer holds_inter]; intros H E; try discriminate.
  - injection E as <-. exact (K _ v eq_refl H).
  - destruct H as [H1 H2]. injection E as <-. unfold Rmin. destruct Rle_dec; [exact (K _ v1 eq_refl H1) | exact (K _ v2 eq_refl H2)].
  - destruct H as [H1 H2]. injection E as <-. exact (K _ v1 eq_refl H1).
  - destruct H as [H1 H2]. injection E as <-. exact (K _ v2 eq_refl H2).
Qed.
Lemma kdiv_good a d : good_quot (kdiv a d).
Proof. unfold kdiv. destruct (has0 a); [exact I|]. repeat (destruct Rlt_dec || destruct Req_EM_T); cbn; auto. Qed.
Lemma cdiv_good a d : good_quot (cdiv a d).
Proof.
  unfold cdiv, r_div. destruct (has0 d); [exact I|]. cbn [good_quot good_ends rl rh]. eapply Rle_trans; [apply Rmin_l|]. eapply Rle_trans; [apply Rmin_l|]. eapply Rle_trans; [|apply Rmax_l]. apply Rmax_l.
Qed.
Theorem omega_only m bAr Anu Vnu r : (forall i, (i < m)%nat -> proper (bAr i) /\ proper (Anu i)) -> proper Vnu -> omega_of m bAr Anu Vnu = Val r ->
  forall i, (i < m)%nat -> exists t s c, Rabs (r - t) <= INR (m + 1) * eps /\ inI (Anu i) s /\ inI (bAr i) c /\ s * t = c.
Proof.
  intros P PV E i Hi. unfold omega_of in E.
  set (cl := map (fun i => cdiv (bAr i) (Anu i)) _) in E. set (ka := map (fun i => kdiv (bAr i) (Anu i)) _) in E.
  set (all := match cl, ka with [], [] => [QFail] | [], q :: qs => q :: q :: qs | _, _ => cl ++ ka end) in E.
  assert (GA : forall q, In q (cl ++ ka) -> good_quot q).
  { intros q H. apply in_app_or in H. destruct H as [H|H]; unfold cl, ka in H; apply in_map_iff in H; destruct H as (k & <- & _); [apply cdiv_good | apply kdiv_good]. }
  assert (IA : forall q, In q all -> good_quot q).
  { intros q H. unfold all in H. destruct cl as [|q0 cl']; [|now apply GA]. destruct ka as [|q1 ka']; [destruct H as [<-|[]]; exact I|]. destruct H as [<-|H]; apply GA; [now left | exact H]. }
  assert (SUB : forall q, In q (cl ++ ka) -> In q all).
  { intros q H. unfold all. destruct cl as [|q0 cl']; [|exact H]. destruct ka as [|q1 ka']; [destruct H|]. right. exact H. }
  assert (LEN : (length all <= m + 1)%nat).
  { assert (L : (length cl + length ka = m)%nat).
    { unfold cl, ka. rewrite !map_length. rewrite <- (seq_length m 0) at 3. generalize (seq 0 m). clear. induction l as [|k l IH]; [reflexivity|]. cbn [filter]. destruct (classic_row (Anu k)); cbn [negb length]; lia. }
    unfold all. destruct cl as [|q0 cl']; [destruct ka as [|q1 ka']|]; cbn [length] in *; rewrite ?app_length; cbn [length] in *; lia. }
  assert (H0 : holds_inter (IOne (Some Vnu)) 0 []) by (intros z Ez; injection Ez as <-; split; [exact PV | intros u _ q []]).
  assert (H := fold_holds all _ 0 [] (Rle_refl 0) IA H0). rewrite app_nil_r, Rplus_0_l in H.
  assert (EP := eps_pos). assert (LE : INR (length all) * eps <= INR (m + 1) * eps) by (apply Rmult_le_compat_r; [lra | now apply le_INR]).
  assert (N := fun q Hq => near_le _ _ _ _ LE (answer_holds _ _ _ _ H E q (proj1 (in_rev _ _) Hq))).
  destruct (P i Hi) as [P1 P2]. destruct (classic_row (Anu i)) eqn:C.
  - destruct (N (cdiv (bAr i) (Anu i))) as (t & T1 & T2).
    { apply SUB, in_or_app. left. unfold cl. apply in_map_iff. exists i. split; [reflexivity|]. apply filter_In. split; [apply in_seq; lia | exact C]. }
    destruct (cdiv_only _ _ _ P1 P2 T1) as (s & c & S1 & S2 & S3). exists t, s, c. auto.
  - destruct (N (kdiv (bAr i) (Anu i))) as (t & T1 & T2).
    { apply SUB, in_or_app. right. unfold ka. apply in_map_iff. exists i. split; [reflexivity|]. apply filter_In. split; [apply in_seq; lia | now rewrite C]. }
    destruct (kdiv_only _ _ _ P1 P2 C T1) as (s & c & S1 & S2 & S3). exists t, s, c. auto.
Qed.
