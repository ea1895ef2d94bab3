(** A bounded set is the convex hull of its corners. *)
From Coq Require Import Reals List Bool Arith Lia Lra Psatz Classical.
From Verif Require Import Exact SpecExact Boundary SpecBoundary BoundaryProofs BoundaryMore BoundaryPath BoundaryWindow Boundary3 SpecBoundary3 Boundary3Plane Boundary3Proofs.
Import ListNotations.
Open Scope R_scope.

Lemma between_param r t0 t1 t : t0 <= t <= t1 -> between (param r t0) (param r t1) (param r t).
Proof.
  intro H. destruct (Req_dec t0 t1) as [E|N].
  - exists 0. split; [lra|]. assert (t = t0) by lra. subst. split; ring.
  - exists ((t - t0) / (t1 - t0)). assert (D : 0 < t1 - t0) by lra. split; [split|].
    + apply Rmult_le_reg_r with (t1 - t0); [lra|]. unfold Rdiv. rewrite Rmult_assoc, Rinv_l by lra. lra.
    + apply Rmult_le_reg_r with (t1 - t0); [lra|]. unfold Rdiv. rewrite Rmult_assoc, Rinv_l by lra. lra.
    + unfold param; cbn [fst snd]. split; field; lra.
Qed.
Lemma in_set_convex rows : convex (in_set rows).
Proof.
  intros u v x Hu Hv (l & Hl & E1 & E2) r Hr. specialize (Hu r Hr). specialize (Hv r Hr). unfold holds in *. rewrite E1, E2.
  replace (a0 r * (fst u + l * (fst v - fst u)) + a1 r * (snd u + l * (snd v - snd u))) with ((1 - l) * (a0 r * fst u + a1 r * snd u) + l * (a0 r * fst v + a1 r * snd v)) by ring.
  assert ((1 - l) * rhs r <= (1 - l) * (a0 r * fst u + a1 r * snd u)) by (apply Rmult_le_compat_l; lra). assert (l * rhs r <= l * (a0 r * fst v + a1 r * snd v)) by (apply Rmult_le_compat_l; lra). lra.
Qed.
Lemma between_ends c d x : 0 <= c -> 0 <= d -> between (fst x + -1 * c, snd x) (fst x + 1 * d, snd x) x.
Proof.
  intros Hc Hd. destruct (Req_dec (c + d) 0) as [E|N].
  - exists 0. cbn [fst snd]. split; [lra|]. assert (c = 0) by lra. subst. split; ring.
  - exists (c / (c + d)). assert (D : 0 < c + d) by lra. split; [split|].
    + apply Rmult_le_reg_r with (c + d); [lra|]. unfold Rdiv. rewrite Rmult_assoc, Rinv_l by lra. lra.
    + apply Rmult_le_reg_r with (c + d); [lra|]. unfold Rdiv. rewrite Rmult_assoc, Rinv_l by lra. lra.
    + cbn [fst snd]. split; field; lra.
Qed.
Theorem bounded_hull rows : (forall r, In r rows -> nonzero r) -> bounded rows -> forall x, in_set rows x <-> hull_of (vertex rows) x.
Proof.
  intros Nz Bd x. split.
  - intros Ix C Cc CV. assert (F : forall p r, In r rows -> in_set rows p -> tight r p -> C p).
    { intros p r Hr Ip Tp. apply In_nth_error in Hr. destruct Hr as (i & Hi). destruct (bi_spec 0 rows Nz) as (_ & H2 & _). destruct (H2 i p) as (s & Hs & Es); [split; [exact Ip|eauto]|].
      destruct (bounded_segs rows Nz Bd s Hs) as (r' & t0 & t1 & Sg). assert (r' = r) by (destruct Sg as (Sg & _); congruence). subst r'. destruct (seg_on rows s r t0 t1 p Sg Ip Tp) as (t & -> & Ht).
      destruct (seg_vertices rows Nz s r t0 t1 Sg) as [V0 V1]. apply (Cc (param r t0) (param r t1)); [now apply CV|now apply CV|now apply between_param]. }
    destruct Bd as (B & HB). assert (End : forall sg, sg = 1 \/ sg = -1 -> exists c, 0 <= c /\ C (fst x + sg * c, snd x)).
    { intros sg Hsg. destruct (HB x Ix) as [X1 X2]. assert (P0 := Rabs_pos (fst x)). destruct (last_point rows x (fst x + sg * (2 * B + 1), snd x) Ix) as (l & Hl & Il & [->|(q & Hq & Tq)]).
      - exfalso. apply HB in Il. unfold towards in Il; cbn [fst snd] in Il. destruct Il as [Il _]. replace (fst x + 1 * (fst x + sg * (2 * B + 1) - fst x)) with (fst x + sg * (2 * B + 1)) in Il by ring.
        assert (Y := Rle_abs (fst x + sg * (2 * B + 1))). assert (Z := Rle_abs (- (fst x + sg * (2 * B + 1)))). rewrite Rabs_Ropp in Z. assert (Y1 := Rle_abs (fst x)). assert (Z1 := Rle_abs (- fst x)). rewrite Rabs_Ropp in Z1. destruct Hsg as [-> | ->]; lra.
      - exists (l * (2 * B + 1)). split; [apply Rmult_le_pos; lra|]. replace (fst x + sg * (l * (2 * B + 1)), snd x) with (towards x (fst x + sg * (2 * B + 1), snd x) l) by (unfold towards; cbn [fst snd]; f_equal; ring). exact (F _ q Hq Il Tq). }
    destruct (End 1 ltac:(now left)) as (d & Hd & C1). destruct (End (-1) ltac:(now right)) as (c & Hc & C2). exact (Cc _ _ x C2 C1 (between_ends c d x Hc Hd)).
  - intro H. apply H; [apply in_set_convex|]. intros p [Ip _]. exact Ip.
Qed.

(** ** In space *)
Definition go3 (x y : v3) (l : R) : v3 := (x1 x + l * (x1 y - x1 x), x2 x + l * (x2 y - x2 x), x3 x + l * (x3 y - x3 x)).
Lemma dot_go3 c x y l : dot3 c (go3 x y l) = dot3 c x + l * (dot3 c y - dot3 c x).
Proof. unfold go3. unf3. ring. Qed.
Lemma last_point3 rows x y : in_set3 rows x -> exists l, 0 <= l <= 1 /\ in_set3 rows (go3 x y l) /\ (l = 1 \/ exists r, In r rows /\ tight3 r (go3 x y l)).
Proof.
  intro Ix. set (f := fun s : row3 => mkrow (dot3 (nrm s) y - dot3 (nrm s) x) 0 (off s - dot3 (nrm s) x)).
  assert (Hh : forall s l, holds (f s) (towards (0, 0) (1, 0) l) <-> holds3 s (go3 x y l)) by (intros s l; unfold holds, holds3, f, towards; rewrite dot_go3; cbn [a0 a1 rhs fst snd]; split; intro; lra).
  assert (Ht : forall s l, tight (f s) (towards (0, 0) (1, 0) l) <-> tight3 s (go3 x y l)) by (intros s l; unfold tight, tight3, f, towards; rewrite dot_go3; cbn [a0 a1 rhs fst snd]; split; intro; lra).
  destruct (last_point (map f rows) (0, 0) (1, 0)) as (l & Hl & Il & T).
  - intros q Hq. apply in_map_iff in Hq. destruct Hq as (s & <- & Hs). specialize (Ix s Hs). unfold holds, holds3, f in *. cbn [a0 a1 rhs fst snd]. lra.
  - exists l. split; [exact Hl|]. split; [intros s Hs; apply Hh, Il; now apply in_map|]. destruct T as [T|(q & Hq & Tq)]; [now left|]. right. apply in_map_iff in Hq. destruct Hq as (s & <- & Hs). exists s. split; [exact Hs|now apply Ht].
Qed.
Lemma in_set3_convex rows : convex3 (in_set3 rows).
Proof.
  intros u v x Hu Hv (l & Hl & ->) r Hr. specialize (Hu r Hr). specialize (Hv r Hr). unfold holds3 in *. change (off r <= dot3 (nrm r) (go3 u v l)). rewrite dot_go3.
  replace (dot3 (nrm r) u + l * (dot3 (nrm r) v - dot3 (nrm r) u)) with ((1 - l) * dot3 (nrm r) u + l * dot3 (nrm r) v) by ring.
  assert ((1 - l) * off r <= (1 - l) * dot3 (nrm r) u) by (apply Rmult_le_compat_l; lra). assert (l * off r <= l * dot3 (nrm r) v) by (apply Rmult_le_compat_l; lra). lra.
Qed.
Lemma between_ends3 c d x : 0 <= c -> 0 <= d -> between3 (x1 x + -1 * c, x2 x, x3 x) (x1 x + 1 * d, x2 x, x3 x) x.
Proof.
  intros Hc Hd. destruct (between_ends c d (x1 x, x2 x) Hc Hd) as (l & Hl & E1 & _). cbn [fst snd] in E1. exists l. split; [exact Hl|]. apply v3_ext; unfold x1 at 1 2, x2 at 1 2, x3 at 1 2; cbn [fst snd]; unfold x1, x2, x3 in *; cbn [fst snd] in *; lra.
Qed.
Lemma face_hull rows k r : nth_error rows k = Some r -> all_apart rows -> bounded3 rows -> forall x, face3 rows r x -> hull3 (corner3 rows r) x.
Proof.
  intros Hk Ap Bd x Fx C Cc CV. assert (Ok : snd (plane idr rows k r) = true) by (destruct (snd (plane idr rows k r)) eqn:E; [reflexivity|]; destruct (not_ok rows k r Hk Ap x E Fx)).
  destruct (phi_onto rows k r Hk Ap x (proj2 Fx)) as (p & ->). apply (face_plane rows k r Hk Ap p Ok) in Fx. apply (bounded_hull _ (rs_nonzero rows k r) (plane_bounded rows k r Hk Ap Ok Bd)) in Fx.
  apply (Fx (fun p => C (phi r p))).
  - intros u v y Cu Cv By. apply (Cc (phi r u) (phi r v)); [exact Cu|exact Cv|]. apply phi_between; [now apply (Na rows k r Hk Ap)|exact By].
  - intros v Hv. apply CV. now apply (vertex_corner rows k r Hk Ap v Ok).
Qed.
Theorem bounded_hull3 rows : all_apart rows -> bounded3 rows -> forall x, in_set3 rows x <-> hull3 (fun v => exists r, In r rows /\ corner3 rows r v) x.
Proof.
  intros Ap Bd x. split.
  - intros Ix C Cc CV. assert (F : forall p r, In r rows -> face3 rows r p -> C p).
    { intros p r Hr Fp. destruct (In_nth_error _ _ Hr) as (k & Hk). apply (face_hull rows k r Hk Ap Bd p Fp C Cc). intros q Hq. apply CV. eauto. }
    destruct Bd as (B & HB). assert (End : forall sg, sg = 1 \/ sg = -1 -> exists c, 0 <= c /\ C (x1 x + sg * c, x2 x, x3 x)).
    { intros sg Hsg. destruct (HB x Ix) as (X1 & X2 & _). assert (P0 := Rabs_pos (x1 x)). destruct (last_point3 rows x (x1 x + sg * (2 * B + 1), x2 x, x3 x) Ix) as (l & Hl & Il & [->|(q & Hq & Tq)]).
      - exfalso. apply HB in Il. destruct Il as [Il _]. unfold go3 in Il. unfold x1 at 1 3 in Il. cbn [fst snd] in Il. replace (x1 x + 1 * (x1 x + sg * (2 * B + 1) - x1 x)) with (x1 x + sg * (2 * B + 1)) in Il by ring.
        assert (Y := Rle_abs (x1 x + sg * (2 * B + 1))). assert (Z := Rle_abs (- (x1 x + sg * (2 * B + 1)))). rewrite Rabs_Ropp in Z. assert (Y1 := Rle_abs (x1 x)). assert (Z1 := Rle_abs (- x1 x)). rewrite Rabs_Ropp in Z1. destruct Hsg as [-> | ->]; lra.
      - exists (l * (2 * B + 1)). split; [apply Rmult_le_pos; lra|]. replace (x1 x + sg * (l * (2 * B + 1)), x2 x, x3 x) with (go3 x (x1 x + sg * (2 * B + 1), x2 x, x3 x) l) by (unfold go3; unf3; destruct x as [[? ?] ?]; cbn [fst snd]; apply v3_ext; unf3; ring). apply (F _ q Hq). split; assumption. }
    destruct (End 1 ltac:(now left)) as (d & Hd & C1). destruct (End (-1) ltac:(now right)) as (c & Hc & C2). exact (Cc _ _ x C2 C1 (between_ends3 c d x Hc Hd)).
  - intro H. apply H; [apply in_set3_convex|]. intros p (r & _ & [Ip _] & _). exact Ip.
Qed.
(** The listed points are the corners of the faces. *)
Lemma fin3_inj x y : fin3 x = fin3 y -> x = y.
Proof. unfold fin3. intro H. injection H as H1 H2 H3. now apply v3_ext. Qed.
Lemma all_faces_listed rows L : all_faces rows L -> forall x, listed3 L x <-> exists r, In r rows /\ corner3 rows r x.
Proof.
  intros (idx & _ & Iff & F) x. split.
  - intros (P & HP & Hx). assert (exists i r, nth_error rows i = Some r /\ shows rows r P) as (i & r & Hr & V & C & -> & (_ & Vs & _) & HC).
    { clear Iff Hx. induction F as [|i Q idx' L' (r & Hr & Sh) F IH]; [destruct HP|]. destruct HP as [->|HP]; [eauto|now apply IH]. }
    apply in_map_iff in Hx. destruct Hx as (y & E & Hy). apply fin3_inj in E. subst y. exists r. split; [eapply nth_error_In; exact Hr|]. apply Vs. apply in_app_or in Hy. destruct Hy as [Hy|Hy]; [exact Hy|]. destruct HC as [->|(b & -> & Hb)]; [destruct Hy|]. destruct Hy as [<-|[]]. exact Hb.
  - intros (r & Hr & Cx). apply In_nth_error in Hr. destruct Hr as (i & Hi). assert (In i idx) by (apply Iff; exists r, x; split; [exact Hi|exact (proj1 Cx)]). clear Iff.
    induction F as [|j Q idx' L' (s & Hs & V & C & -> & (_ & Vs & _) & _) F IH]; [destruct H|]. destruct H as [->|H].
    + assert (s = r) by congruence. subst s. eexists. split; [now left|]. apply in_map, in_or_app. left. now apply Vs.
    + destruct (IH H) as (P & HP & I). exists P. split; [now right|exact I].
Qed.
Theorem all_faces_hull rows L : all_apart rows -> bounded3 rows -> all_faces rows L -> forall x, in_set3 rows x <-> hull3 (listed3 L) x.
Proof.
  intros Ap Bd F x. rewrite (bounded_hull3 rows Ap Bd x). split; intros H C Cc CV; apply (H C Cc); intros p Hp; apply CV; now apply (all_faces_listed rows L F).
Qed.
Theorem polygon_hull rows V : (forall r, In r rows -> nonzero r) -> bounded rows -> polygon rows V -> forall x, in_set rows x <-> hull_of (fun v => In v V) x.
Proof.
  intros Nz Bd (_ & Vs & _) x. rewrite (bounded_hull rows Nz Bd x). split; intros H C Cc CV; apply (H C Cc); intros p Hp; apply CV; now apply Vs.
Qed.
