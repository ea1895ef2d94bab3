(** The faces of a set in space, plane by plane. *)
From Coq Require Import Reals List Bool Arith Lia Lra Psatz Sorted.
From Verif Require Import Exact SpecExact Boundary SpecBoundary BoundaryProofs BoundaryMore BoundaryPath BoundaryWindow Boundary3 SpecBoundary3.
Import ListNotations.
Open Scope R_scope.

Notation idr := (fun t : R => t).
Ltac unf3 := unfold sub3, cross3, dot3, x1, x2, x3 in *; cbn [fst snd] in *.
Lemma v3_ext (u v : v3) : x1 u = x1 v -> x2 u = x2 v -> x3 u = x3 v -> u = v.
Proof. destruct u as [[? ?] ?], v as [[? ?] ?]. unf3. intros -> -> ->. reflexivity. Qed.
Lemma y1_cases a : cv_y1 a = (0, x3 a, - x2 a) \/ cv_y1 a = (- x3 a, 0, x1 a) \/ cv_y1 a = (x2 a, - x1 a, 0).
Proof. unfold cv_y1. destruct (cv_l a) as [|[|l]]; tauto. Qed.
Lemma plane_norm a c : (dot3 c (cv_y1 a)) ^ 2 * dot3 a a + (dot3 c (cv_y2 a)) ^ 2 = dot3 (cross3 a c) (cross3 a c) * dot3 (cv_y1 a) (cv_y1 a).
Proof. unfold cv_y2. destruct (y1_cases a) as [-> | [-> | ->]]; destruct a as [[a b] d], c as [[p q] s]; unf3; ring. Qed.
Lemma plane_det a c d : dot3 c (cv_y1 a) * dot3 d (cv_y2 a) - dot3 c (cv_y2 a) * dot3 d (cv_y1 a) = dot3 (cv_y1 a) (cv_y1 a) * dot3 a (cross3 c d).
Proof. unfold cv_y2. destruct (y1_cases a) as [-> | [-> | ->]]; destruct a as [[a b] e], c as [[p q] s], d as [[u v] w]; unf3; ring. Qed.
Lemma y1_half a : dot3 a a <= 2 * dot3 (cv_y1 a) (cv_y1 a) /\ dot3 (cv_y1 a) (cv_y1 a) <= dot3 a a.
Proof.
  assert (K : forall p q, Rabs p <= Rabs q -> p * p <= q * q) by (intros p q H; apply Rsqr_le_abs_1 in H; unfold Rsqr in H; exact H).
  unfold cv_y1, cv_l. destruct a as [[a b] c]. unf3.
  destruct (Rle_dec (Rabs a) (Rabs b)) as [H1|H1]; [destruct (Rle_dec (Rabs a) (Rabs c)) as [H2|H2] | destruct (Rle_dec (Rabs b) (Rabs c)) as [H2|H2]]; cbn [fst snd];
    repeat match goal with H : Rabs _ <= Rabs _ |- _ => apply K in H | H : ~ Rabs _ <= Rabs _ |- _ => apply Rnot_le_lt, Rlt_le, K in H end; split; nra.
Qed.
Lemma y2_norm a : dot3 (cv_y2 a) (cv_y2 a) = dot3 a a * dot3 (cv_y1 a) (cv_y1 a).
Proof. unfold cv_y2. destruct (y1_cases a) as [-> | [-> | ->]]; destruct a as [[a b] c]; unf3; ring. Qed.
Lemma cross_zero_norm a c : dot3 (cross3 a c) (cross3 a c) = 0 -> cross3 a c = (0, 0, 0).
Proof. intro H. destruct (v3_eq_dec (cross3 a c) (0, 0, 0)) as [E|N]; [exact E|]. apply dot3_pos in N. lra. Qed.
Lemma parallel_zero a c : a <> (0, 0, 0) -> cross3 a c = (0, 0, 0) -> dot3 c (cv_y1 a) = 0 /\ dot3 c (cv_y2 a) = 0.
Proof.
  intros Na E. assert (H := plane_norm a c). rewrite E in H. assert (P := dot3_pos a Na). replace (dot3 (0, 0, 0) (0, 0, 0)) with 0 in H by (unf3; ring). rewrite Rmult_0_l in H.
  assert (T1 := pow2_ge_0 (dot3 c (cv_y1 a))). assert (T2 := pow2_ge_0 (dot3 c (cv_y2 a))). assert (0 <= dot3 c (cv_y1 a) ^ 2 * dot3 a a) by (apply Rmult_le_pos; lra).
  assert (Z2 : dot3 c (cv_y2 a) ^ 2 = 0) by lra. assert (Z1 : dot3 c (cv_y1 a) ^ 2 * dot3 a a = 0) by lra. apply Rmult_integral in Z1. destruct Z1 as [Z1|Z1]; [|lra].
  split; apply Rsqr_0_uniq; unfold Rsqr; simpl in *; lra.
Qed.
Lemma big_entry a c : a <> (0, 0, 0) -> 2 * / 1000000000000 ^ 2 * (1 + dot3 a a) < dot3 a a * dot3 (cross3 a c) (cross3 a c) ->
  ~ (Rabs (dot3 c (cv_y1 a)) <= / 1000000000000 /\ Rabs (dot3 c (cv_y2 a)) <= / 1000000000000).
Proof.
  intros Na Ap [H1 H2]. set (e := / 1000000000000) in *. assert (Ee : / 1000000000000 ^ 2 = e * e) by (unfold e; field). rewrite Ee in Ap. clearbody e.
  assert (Sq : forall t, Rabs t <= e -> t ^ 2 <= e * e). { intros t Ht. assert (P := Rabs_pos t). rewrite <- (pow2_abs t). simpl. nra. }
  apply Sq in H1. apply Sq in H2. assert (H := plane_norm a c). destruct (y1_half a) as [Yh _]. assert (P := dot3_pos a Na).
  assert (W : 0 <= dot3 (cross3 a c) (cross3 a c)) by (generalize (cross3 a c); intros [[u v] w]; unf3; nra).
  set (q := dot3 a a) in *. set (w := dot3 (cross3 a c) (cross3 a c)) in *. set (y := dot3 (cv_y1 a) (cv_y1 a)) in *. clearbody q w y.
  assert (dot3 c (cv_y1 a) ^ 2 * q <= e * e * q) by (apply Rmult_le_compat_r; lra). assert (w * q <= w * (2 * y)) by (apply Rmult_le_compat_l; lra). lra.
Qed.
Definition phi (r : row3) (p : pt) : v3 := cv_point (nrm r) (off r) (fst p) (snd p).
Lemma phi_sub r u v : sub3 (phi r u) (phi r v) = (let s := fst u - fst v in let t := snd u - snd v in
  (x1 (cv_y1 (nrm r)) * s + x1 (cv_y2 (nrm r)) * t, x2 (cv_y1 (nrm r)) * s + x2 (cv_y2 (nrm r)) * t, x3 (cv_y1 (nrm r)) * s + x3 (cv_y2 (nrm r)) * t)).
Proof. unfold phi, cv_point, sub3. cbv zeta. apply v3_ext; unfold x1, x2, x3; cbn [fst snd]; ring. Qed.
Lemma phi_dist r u v : dot3 (sub3 (phi r u) (phi r v)) (sub3 (phi r u) (phi r v)) =
  dot3 (cv_y1 (nrm r)) (cv_y1 (nrm r)) * (fst u - fst v) ^ 2 + dot3 (nrm r) (nrm r) * dot3 (cv_y1 (nrm r)) (cv_y1 (nrm r)) * (snd u - snd v) ^ 2.
Proof.
  rewrite phi_sub. rewrite <- y2_norm. destruct (cv_orth (nrm r)) as (_ & _ & O3). set (y := cv_y1 (nrm r)) in *. set (z := cv_y2 (nrm r)) in *. cbv zeta. set (s := fst u - fst v). set (t := snd u - snd v).
  assert (E : dot3 (x1 y * s + x1 z * t, x2 y * s + x2 z * t, x3 y * s + x3 z * t) (x1 y * s + x1 z * t, x2 y * s + x2 z * t, x3 y * s + x3 z * t) = dot3 y y * s ^ 2 + dot3 z z * t ^ 2 + 2 * s * t * dot3 y z) by (unf3; ring).
  rewrite E, O3. ring.
Qed.
Lemma phi_side r u v x : dot3 (nrm r) (cross3 (sub3 (phi r v) (phi r u)) (sub3 (phi r x) (phi r u))) =
  dot3 (nrm r) (nrm r) * dot3 (cv_y1 (nrm r)) (cv_y1 (nrm r)) * ((fst v - fst u) * (snd x - snd u) - (snd v - snd u) * (fst x - fst u)).
Proof.
  rewrite !phi_sub. cbv zeta. unfold cv_y2. destruct (y1_cases (nrm r)) as [-> | [-> | ->]]; destruct (nrm r) as [[a b] c]; unf3; ring.
Qed.
Lemma phi_between r u v x : nrm r <> (0, 0, 0) -> between u v x <-> between3 (phi r u) (phi r v) (phi r x).
Proof.
  intro Na. destruct (change_variable (nrm r) (off r) Na) as (_ & _ & Inj & _).
  assert (K : forall l, (x1 (phi r u) + l * (x1 (phi r v) - x1 (phi r u)), x2 (phi r u) + l * (x2 (phi r v) - x2 (phi r u)), x3 (phi r u) + l * (x3 (phi r v) - x3 (phi r u))) =
    phi r (fst u + l * (fst v - fst u), snd u + l * (snd v - snd u))).
  { intro l. unfold phi, cv_point. apply v3_ext; unfold x1, x2, x3; cbn [fst snd]; ring. }
  split; intros (l & Hl & E).
  - exists l. split; [exact Hl|]. rewrite K. destruct E as [E1 E2]. rewrite <- E1, <- E2. destruct x; reflexivity.
  - exists l. split; [exact Hl|]. rewrite K in E. apply Inj in E. cbn [fst snd] in E. tauto.
Qed.
Lemma between3_phi r u v x : between3 (phi r u) (phi r v) x -> exists p, x = phi r p.
Proof.
  intros (l & _ & ->). exists (fst u + l * (fst v - fst u), snd u + l * (snd v - snd u)). unfold phi, cv_point. apply v3_ext; unfold x1, x2, x3; cbn [fst snd]; ring.
Qed.
Lemma lift_fin r p : lift r (fin p) = fin3 (phi r p).
Proof. unfold lift, fin, fin3, phi, cv_point. cbn [fst snd ext_scale ext_shift ext_add]. unfold x1, x2, x3; cbn [fst snd]. reflexivity. Qed.
Lemma clear_id rows : clear_zero_rows idr rows = (filter (fun r => negb (zero_row r)) rows, negb (existsb (fun r => zero_row r && (if Rlt_dec 0 (rhs r) then true else false)) rows)).
Proof.
  unfold clear_zero_rows. assert (E : map (around_row idr) rows = rows); [|now rewrite E]. rewrite <- (map_id rows) at 2. apply map_ext. intros []. reflexivity.
Qed.
Lemma drop_in_k {T} k (l : list T) a x : nth_error l k = Some a -> In x l -> x = a \/ In x (drop_nth k l).
Proof. intros Hk Hx. destruct (drop_keeps k l x Hx) as [H|H]; [now right|left; congruence]. Qed.

Section Plane.
Context (rows : list row3) (k : nat) (r : row3).
Hypothesis Hk : nth_error rows k = Some r.
Hypothesis Ap : all_apart rows.
Let a := nrm r.
Let rs := fst (plane idr rows k r).
Let ok := snd (plane idr rows k r).
Lemma Hr : In r rows.
Proof. eapply nth_error_In; exact Hk. Qed.
Lemma Na : a <> (0, 0, 0).
Proof. apply (Ap r r Hr Hr). Qed.
Lemma zero_cross s : In s rows -> zero_row (cv_row a (off r) (nrm s) (off s)) = true <-> cross3 a (nrm s) = (0, 0, 0).
Proof.
  intro Hs. unfold zero_row. cbn [a0 a1 cv_row]. split.
  - intro Z. apply andb_true_iff in Z. destruct Z as [Z1 Z2]. unfold tiny in Z1, Z2. destruct (Rle_dec (Rabs (dot3 (nrm s) (cv_y1 a))) _) as [T1|]; [|discriminate]. destruct (Rle_dec (Rabs (dot3 (nrm s) (cv_y2 a))) _) as [T2|]; [|discriminate].
    destruct (proj2 (Ap r s Hr Hs)) as [E|E]; [exact E|]. exfalso. apply (big_entry a (nrm s) Na E). split; assumption.
  - intro E. destruct (parallel_zero a (nrm s) Na E) as [E1 E2]. rewrite !tiny_zero by assumption. reflexivity.
Qed.
Lemma rs_in q : In q rs <-> exists s, In s (drop_nth k rows) /\ q = cv_row a (off r) (nrm s) (off s) /\ cross3 a (nrm s) <> (0, 0, 0).
Proof.
  unfold rs, plane. rewrite clear_id. cbn [fst]. rewrite filter_In. unfold plane_rows. rewrite in_map_iff. split.
  - intros [(s & <- & Hs) Z]. exists s. split; [exact Hs|]. split; [reflexivity|]. intro E. apply zero_cross in E; [|now apply drop_nth_in with k]. unfold a in E. rewrite E in Z. discriminate.
  - intros (s & Hs & -> & N). split; [exists s; auto|]. destruct (zero_row (cv_row a (off r) (nrm s) (off s))) eqn:Z; [|reflexivity]. apply zero_cross in Z; [contradiction|now apply drop_nth_in with k].
Qed.
Lemma rs_nonzero q : In q rs -> nonzero q.
Proof. apply cleared_nonzero. Qed.
Lemma holds_row s p : holds (cv_row a (off r) (nrm s) (off s)) p <-> holds3 s (phi r p).
Proof. destruct (change_variable a (off r) Na) as (_ & _ & _ & H). destruct p as [u v]. apply H. Qed.
Lemma tight_row s p : tight (cv_row a (off r) (nrm s) (off s)) p <-> tight3 s (phi r p).
Proof. unfold tight, tight3, phi, cv_row; cbn [a0 a1 rhs]. rewrite dot3_point. fold a. lra. Qed.
Lemma phi_tight p : tight3 r (phi r p).
Proof. destruct (change_variable a (off r) Na) as (H & _). apply H. Qed.
Lemma phi_onto x : tight3 r x -> exists p, x = phi r p.
Proof. intro T. destruct (change_variable a (off r) Na) as (_ & H & _). destruct (H x T) as (s & t & ->). exists (s, t). reflexivity. Qed.
Lemma phi_inj p q : phi r p = phi r q -> p = q.
Proof. intro E. destruct (change_variable a (off r) Na) as (_ & _ & H & _). apply H in E. destruct p, q; cbn [fst snd] in E. destruct E as [-> ->]. reflexivity. Qed.
Lemma in_plane p : ok = true -> in_set rs p <-> in_set3 rows (phi r p).
Proof.
  intro Ok. split.
  - intros H s Hs. destruct (drop_in_k k rows r s Hk Hs) as [->|Hd]; [unfold holds3; rewrite (phi_tight p); lra|].
    destruct (v3_eq_dec (cross3 a (nrm s)) (0, 0, 0)) as [E|N].
    + apply holds_row. destruct (parallel_zero a (nrm s) Na E) as [E1 E2]. unfold holds. cbn [a0 a1 rhs cv_row]. rewrite E1, E2.
      destruct (Rle_dec (off s - dot3 (nrm s) (cv_xi a (off r))) 0) as [L|L]; [lra|]. exfalso. unfold ok, plane in Ok. rewrite clear_id in Ok. cbn [snd] in Ok. apply negb_true_iff in Ok.
      rewrite <- not_true_iff_false in Ok. apply Ok. apply existsb_exists. exists (cv_row a (off r) (nrm s) (off s)). split; [apply in_map_iff; exists s; auto|].
      rewrite (proj2 (zero_cross s Hs) E). cbn [rhs cv_row]. destruct Rlt_dec; [reflexivity|lra].
    + apply holds_row. apply H. apply rs_in. exists s. auto.
  - intros H q Hq. apply rs_in in Hq. destruct Hq as (s & Hs & -> & _). apply holds_row. apply H. now apply drop_nth_in with k.
Qed.
Lemma not_ok x : ok = false -> ~ face3 rows r x.
Proof.
  intros Nok [Ix Tx]. destruct (phi_onto x Tx) as (p & ->). unfold ok, plane in Nok. rewrite clear_id in Nok. cbn [snd] in Nok. apply negb_false_iff, existsb_exists in Nok. destruct Nok as (q & Hq & Z).
  apply in_map_iff in Hq. destruct Hq as (s & <- & Hs). apply andb_true_iff in Z. destruct Z as [Z L]. assert (Hs' : In s rows) by now apply drop_nth_in with k. apply zero_cross in Z; [|exact Hs'].
  destruct (parallel_zero a (nrm s) Na Z) as [E1 E2]. assert (H := proj2 (holds_row s p) (Ix s Hs')). unfold holds in H. cbn [a0 a1 rhs cv_row] in *. rewrite E1, E2 in H. destruct Rlt_dec; [unfold a in *; lra|discriminate].
Qed.
Lemma face_plane p : ok = true -> face3 rows r (phi r p) <-> in_set rs p.
Proof. intro Ok. rewrite (in_plane p Ok). unfold face3. split; [tauto|]. intro H. split; [exact H|apply phi_tight]. Qed.
Lemma det_rows s t : dot3 a (cross3 (nrm s) (nrm t)) <> 0 <-> ~ parallel (cv_row a (off r) (nrm s) (off s)) (cv_row a (off r) (nrm t) (off t)).
Proof.
  unfold parallel. cbn [a0 a1 cv_row]. assert (H := plane_det a (nrm s) (nrm t)). assert (P := cv_y1_nz a Na). split; intros N E; apply N.
  - assert (E2 : dot3 (cv_y1 a) (cv_y1 a) * dot3 a (cross3 (nrm s) (nrm t)) = 0) by lra. apply Rmult_integral in E2. destruct E2; [lra|assumption].
  - rewrite E, Rmult_0_r in H. lra.
Qed.
Lemma det_in s t : In s rows -> dot3 a (cross3 (nrm s) (nrm t)) <> 0 \/ dot3 a (cross3 (nrm t) (nrm s)) <> 0 -> In (cv_row a (off r) (nrm s) (off s)) rs.
Proof.
  intros Hs D. apply rs_in. exists s.
  assert (N : cross3 a (nrm s) <> (0, 0, 0)).
  { intro E. assert (E1 : dot3 a (cross3 (nrm s) (nrm t)) = dot3 (cross3 a (nrm s)) (nrm t)) by (unf3; ring). assert (E2 : dot3 a (cross3 (nrm t) (nrm s)) = - dot3 (cross3 a (nrm s)) (nrm t)) by (unf3; ring).
    rewrite E in *. assert (Z : dot3 (0, 0, 0) (nrm t) = 0) by (unf3; ring). rewrite Z in *. destruct D as [D|D]; apply D; lra. }
  split; [|split; [reflexivity|exact N]]. destruct (drop_in_k k rows r s Hk Hs) as [->|Hd]; [|exact Hd]. exfalso. apply N. apply v3_ext; unf3; unfold a; ring.
Qed.
Lemma vertex_corner p : ok = true -> vertex rs p <-> corner3 rows r (phi r p).
Proof.
  intro Ok. unfold vertex, corner3. rewrite (face_plane p Ok). split; intros [Ip (s & t & Hs & Ht & Ts & Tt & N)]; split; try exact Ip.
  - apply rs_in in Hs. apply rs_in in Ht. destruct Hs as (s' & Hs & -> & _). destruct Ht as (t' & Ht & -> & _). exists s', t'. split; [now apply drop_nth_in with k|]. split; [now apply drop_nth_in with k|].
    split; [now apply tight_row|]. split; [now apply tight_row|]. now apply det_rows.
  - exists (cv_row a (off r) (nrm s) (off s)), (cv_row a (off r) (nrm t) (off t)). split; [apply det_in with t; auto|]. split; [apply det_in with s; auto|].
    split; [now apply tight_row|]. split; [now apply tight_row|]. now apply det_rows.
Qed.
Lemma edge_edge3 u v : ok = true -> edge rs u v -> edge3 rows r (phi r u) (phi r v).
Proof.
  intros Ok [(i & Hi) Sd]. assert (Fu : face rs i u) by (apply Hi; exists 0; split; [lra|split; ring]). destruct Fu as (_ & q & Hq & _).
  assert (Iq := nth_error_In _ _ Hq). apply rs_in in Iq. destruct Iq as (s & Hs & Eq & _). split.
  - exists s. split; [now apply drop_nth_in with k|]. intro x. split.
    + intros [Fx Tx]. destruct (phi_onto x (proj2 Fx)) as (p & ->). apply (phi_between r u v p Na). apply Hi. split; [now apply face_plane|]. exists q. split; [exact Hq|]. subst q. now apply tight_row.
    + intro Bx. destruct (between3_phi r u v x Bx) as (p & ->). apply (phi_between r u v p Na) in Bx. apply Hi in Bx. destruct Bx as (Ip & q' & Hq' & Tq). assert (q' = q) by congruence. subst q'. split; [now apply face_plane|]. subst q. now apply tight_row.
  - intros x Fx. destruct (phi_onto x (proj2 Fx)) as (p & ->). rewrite phi_side. apply (face_plane p Ok) in Fx. specialize (Sd p Fx).
    assert (P1 := dot3_pos _ Na). assert (P2 := cv_y1_nz _ Na). unfold a in *. assert (0 < dot3 (nrm r) (nrm r) * dot3 (cv_y1 (nrm r)) (cv_y1 (nrm r))) by now apply Rmult_lt_0_compat. nra.
Qed.
Lemma polygon_polygon3 V : ok = true -> polygon rs V -> polygon3 rows r (map (phi r) V).
Proof.
  intros Ok (Nd & Iff & Ed). split; [|split].
  - apply FinFun.Injective_map_NoDup; [intros p q; apply phi_inj|exact Nd].
  - intro x. rewrite in_map_iff. split.
    + intros (p & <- & Hp). apply vertex_corner; [exact Ok|]. now apply Iff.
    + intro Cx. destruct (phi_onto x (proj2 (proj1 Cx))) as (p & ->). exists p. split; [reflexivity|]. apply Iff. now apply vertex_corner.
  - intros j u v Hu Hv. rewrite map_length in Hv. rewrite nth_error_map in Hu, Hv. destruct (nth_error V j) as [u'|] eqn:Eu; [|discriminate]. destruct (nth_error V (S j mod length V)) as [v'|] eqn:Ev; [|discriminate].
    cbn in Hu, Hv. injection Hu as <-. injection Hv as <-. apply edge_edge3; [exact Ok|]. now apply (Ed j).
Qed.
Lemma plane_separated : ok = true -> separated3 rows -> separated (/ 100000000) rs.
Proof.
  intros Ok Sp p q Vp Vq. destruct (Sp r _ _ Hr (proj1 (vertex_corner p Ok) Vp) (proj1 (vertex_corner q Ok) Vq)) as [E|D]; [left; now apply phi_inj|right].
  rewrite phi_dist in D. destruct (y1_half a) as [_ Y]. assert (P := dot3_pos a Na). assert (P1 := cv_y1_nz a Na). fold a in D.
  destruct (Rlt_dec (/ 100000000) (Rabs (fst p - fst q))) as [L|L]; [now left|]. destruct (Rlt_dec (/ 100000000) (Rabs (snd p - snd q))) as [L2|L2]; [now right|]. exfalso.
  set (e := / 100000000) in *. assert (Ee : / 100000000 ^ 2 = e * e) by (unfold e; field). rewrite Ee in D. clearbody e.
  assert (Sq : forall t, ~ e < Rabs t -> t ^ 2 <= e * e). { intros t Ht. assert (T := Rabs_pos t). rewrite <- (pow2_abs t). simpl. nra. }
  apply Sq in L. apply Sq in L2. set (y := dot3 (cv_y1 a) (cv_y1 a)) in *. set (n := dot3 a a) in *. set (s := (fst p - fst q) ^ 2) in *. set (t := (snd p - snd q) ^ 2) in *.
  assert (0 <= s) by apply pow2_ge_0. assert (0 <= t) by apply pow2_ge_0. clearbody y n s t.
  assert (y * s <= n * (e * e)) by (apply Rmult_le_compat; lra). assert (n * y * t <= n * n * (e * e)) by (apply Rmult_le_compat; [apply Rmult_le_pos; lra|lra|apply Rmult_le_compat_l; lra|lra]).
  assert (0 <= n * (e * e)) by (apply Rmult_le_pos; nra). assert (0 <= n * n * (e * e)) by (apply Rmult_le_pos; nra). nra.
Qed.
Lemma plane_bounded : ok = true -> bounded3 rows -> bounded rs.
Proof.
  intros Ok (B & HB). assert (P1 := cv_y1_nz a Na). assert (P2 := y2_norm a). assert (P := dot3_pos a Na). assert (P3 : 0 < dot3 (cv_y2 a) (cv_y2 a)) by (rewrite P2; now apply Rmult_lt_0_compat).
  destruct (cv_orth a) as (_ & _ & O3).
  assert (K : forall c x, Rabs (x1 x) <= B /\ Rabs (x2 x) <= B /\ Rabs (x3 x) <= B -> Rabs (dot3 c x) <= (Rabs (x1 c) + Rabs (x2 c) + Rabs (x3 c)) * B).
  { intros c x (X1 & X2 & X3). unfold dot3. eapply Rle_trans; [apply Rabs_triang|]. eapply Rle_trans; [apply Rplus_le_compat_r, Rabs_triang|]. rewrite !Rabs_mult.
    assert (T1 := Rabs_pos (x1 c)). assert (T2 := Rabs_pos (x2 c)). assert (T3 := Rabs_pos (x3 c)). nra. }
  assert (Q : forall y s c0 d n, 0 < n -> y = c0 + n * s -> Rabs y <= d -> Rabs s <= (d + Rabs c0) / n).
  { intros y s c0 d n Hn E Hy. apply Rmult_le_reg_r with n; [exact Hn|]. unfold Rdiv. rewrite Rmult_assoc, Rinv_l, Rmult_1_r by lra. rewrite <- (Rabs_pos_eq n) at 1 by lra. rewrite <- Rabs_mult.
    replace (s * n) with (y - c0) by lra. unfold Rminus. eapply Rle_trans; [apply Rabs_triang|]. rewrite Rabs_Ropp. lra. }
  set (y1 := cv_y1 a) in *. set (y2 := cv_y2 a) in *.
  exists (Rmax (((Rabs (x1 y1) + Rabs (x2 y1) + Rabs (x3 y1)) * B + Rabs (dot3 y1 (cv_xi a (off r)))) / dot3 y1 y1) (((Rabs (x1 y2) + Rabs (x2 y2) + Rabs (x3 y2)) * B + Rabs (dot3 y2 (cv_xi a (off r)))) / dot3 y2 y2)).
  intros p Ip. apply (in_plane p Ok) in Ip. apply HB in Ip. split.
  - eapply Rle_trans; [|apply Rmax_l]. apply (Q (dot3 y1 (phi r p))); [exact P1| |now apply K]. unfold phi. rewrite dot3_point. fold a y1 y2. rewrite O3. ring.
  - eapply Rle_trans; [|apply Rmax_r]. apply (Q (dot3 y2 (phi r p))); [exact P3| |now apply K]. unfold phi. rewrite dot3_point. fold a y1 y2. replace (dot3 y2 y1) with (dot3 y1 y2) by (unfold dot3; ring). rewrite O3. ring.
Qed.
Lemma polygon_of_spec : bounded3 rows -> separated3 rows ->
  exists L, polygon_of 0 idr rows k r = Some L /\ ((exists x, face3 rows r x) /\ (exists P, L = [P] /\ shows rows r P) \/ (forall x, ~ face3 rows r x) /\ L = []).
Proof.
  intros Bd Sp. unfold polygon_of. rewrite (surjective_pairing (plane idr rows k r)). fold rs ok. case_eq ok; intro Eo.
  - assert (Br := plane_bounded Eo Bd). assert (Sr := plane_separated Eo Sp). assert (Nz := rs_nonzero).
    case_eq (boundary_intervals 0 rs).
    + intro ES. exists []. split; [reflexivity|]. right. split; [|reflexivity]. intros x Fx. destruct (phi_onto x (proj2 Fx)) as (p & ->). apply (face_plane p Eo) in Fx. apply (boundary_empty 0 rs Nz (bounded_nonempty _ Br) ES p Fx).
    + intros s0 S0 ES. assert (exists p, in_set rs p) as (p & Ip).
      { destruct (boundary_indices 0 rs Nz) as [_ H]. destruct (proj1 (H (s_idx s0))) as (p & Ip & _); [exists s0; rewrite ES; split; [now left|reflexivity]|]. exists p. exact Ip. }
      destruct (boundary_path_polygon rs p Nz Br Sr Ip) as (V & C & EP & Pg & HC). rewrite ES in EP. rewrite EP. eexists. split; [reflexivity|]. left. split.
      * exists (phi r p). now apply face_plane.
      * eexists. split; [reflexivity|]. exists (map (phi r) V), (map (phi r) C). split; [|split].
        -- rewrite <- map_app, !map_map. apply map_ext. intro q. apply lift_fin.
        -- now apply polygon_polygon3.
        -- destruct HC as [->|(b & -> & Hb)]; [now left|right]. exists (phi r b). split; [reflexivity|]. now apply in_map.
  - exists []. split; [reflexivity|]. right. split; [|reflexivity]. intro x. now apply not_ok.
Qed.
End Plane.
