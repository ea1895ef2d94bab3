(** IntLinIncR3: the eight slices, a stale window, and a dropped inequality. *)
From Coq Require Import Reals ZArith List Bool Arith Lia Lra Psatz Classical.
From Flocq Require Import Core.
From Verif Require Import Exact SpecExact ExactProofs Boundary SpecBoundary BoundaryProofs BoundaryMore BoundaryPath BoundaryWindow BoundaryState BoundaryStateProofs Boundary3 SpecBoundary3 Boundary3Plane Boundary3Proofs Boundary3Cases BoundaryHull Boundary3Sound Boundary3State SpecBoundary3State Boundary3StateProofs.
Import ListNotations.
Open Scope R_scope.

(** ** The rows describe the slice *)
Lemma wl_rows3_sat d uni m sg A b x : in_set3 (wl_rows3 d uni m sg A b) x <-> satisfies (2 * m + 3) 3 (neg_mat (wl_A uni m sg A)) (neg_vec (wl_b3 d uni m b)) (vec3 x).
Proof.
  unfold in_set3, wl_rows3, satisfies. split.
  - intros H i Hi. assert (Hin : In i (seq 0 (2 * m + 3))) by (apply in_seq; lia). specialize (H _ (in_map _ _ i Hin)). unfold holds3 in H; cbn [nrm off] in H. unfold times; cbn [total vec3]. unf3. lra.
  - intros H r Hr. apply in_map_iff in Hr. destruct Hr as (i & <- & Hi). apply in_seq in Hi. specialize (H i ltac:(lia)). unfold holds3; cbn [nrm off]. unfold times in H; cbn [total vec3] in H. unf3. lra.
Qed.
Lemma slice_rows d uni m sg A b x : 0 <= d -> proper_mat m 3 A -> proper_vec m b ->
  (in_set3 (wl_rows3 d uni m sg A b) x -> in_orthant 3 sg (vec3 x) /\ solution3 uni m A (widen d b) x) /\
  (in_orthant 3 sg (vec3 x) /\ solution3 uni m A (widen (- d) b) x -> in_set3 (wl_rows3 d uni m sg A b) x).
Proof.
  intros Hd PA Pb. rewrite wl_rows3_sat. unfold solution3. destruct uni; [now apply orthant_united_3d|now apply orthant_tolerable_3d].
Qed.
Lemma some_orthant3 x : exists sg, In sg orthants3 /\ in_orthant 3 sg (vec3 x).
Proof.
  assert (G : forall a b c, In (sign3 a b c) orthants3) by (intros [] [] []; simpl; tauto).
  destruct (Rle_dec 0 (x1 x)) as [H0|H0], (Rle_dec 0 (x2 x)) as [H1|H1], (Rle_dec 0 (x3 x)) as [H2|H2];
  match type of H0 with ?P => match P with ~ _ => exists (sign3 true (if Rle_dec 0 (x2 x) then false else true) (if Rle_dec 0 (x3 x) then false else true)) | _ => exists (sign3 false (if Rle_dec 0 (x2 x) then false else true) (if Rle_dec 0 (x3 x) then false else true)) end end;
  (split; [apply G|]); intros [|[|[|j]]] Hj; cbn [sign3 vec3]; try lia; repeat destruct Rle_dec; lra.
Qed.

(** ** Slices that are fine *)
Lemma direction_nonzero r : has_direction r -> nrm r <> (0, 0, 0).
Proof. unfold has_direction. intros H E. rewrite E in H. unf3. rewrite Rabs_R0 in H. lra. Qed.
Section Kept.
Variable rows : list row3.
Hypothesis Cl : clear_rows rows.
Let kept := prepared idr rows.
Lemma kept_in r : In r kept -> In r rows /\ has_direction r.
Proof. intro H. destruct (prepared_spec rows) as ((_ & T) & I & _). split; [now apply I|now apply T]. Qed.
Lemma kept_set x : in_set3 kept x <-> in_set3 rows x.
Proof. destruct (prepared_spec rows) as (_ & _ & H). destruct Cl as [C1 C2]. now apply H. Qed.
Lemma kept_all r : In r rows -> has_direction r -> In r kept.
Proof.
  intros Hr D. unfold kept, prepared, non_repeat. rewrite around_idr. assert (F : In r (clear_zero_rows3 idr rows)) by (unfold clear_zero_rows3; rewrite around_idr; apply filter_In; split; [exact Hr|]; now rewrite (proj2 (zero_direction r) D)).
  destruct (first_keys_has (clear_zero_rows3 idr rows) [] r F ltac:(intros [])) as (q & Hq & E). assert (q = r); [|now subst]. apply Cl; [|exact Hr|exact E]. apply first_keys_in in Hq. destruct Hq as [Hq _]. unfold clear_zero_rows3 in Hq. rewrite around_idr in Hq. now apply filter_In in Hq.
Qed.
Lemma kept_apart tail : (forall r, In r tail -> nrm r <> (0, 0, 0)) -> apart_rows (rows ++ tail) -> all_apart (kept ++ tail).
Proof.
  intros Nt H r s Hr Hs. assert (K : forall q, In q (kept ++ tail) -> In q (rows ++ tail) /\ nrm q <> (0, 0, 0)).
  { intros q Hq. apply in_app_or in Hq. destruct Hq as [Hq|Hq]; [apply kept_in in Hq; split; [apply in_or_app; tauto|now apply direction_nonzero]|split; [apply in_or_app; tauto|now apply Nt]]. }
  apply K in Hr. apply K in Hs. split; [tauto|]. apply H; tauto.
Qed.
Lemma kept_corner tail r x : In r (kept ++ tail) -> corner3 (kept ++ tail) r x -> In r (rows ++ tail) /\ corner3 (rows ++ tail) r x.
Proof.
  assert (K : forall q, In q (kept ++ tail) -> In q (rows ++ tail)) by (intros q Hq; apply in_app_or in Hq; apply in_or_app; destruct Hq as [Hq|Hq]; [left; now apply kept_in|now right]).
  intros Hr ((I & T) & s & t & Hs & Ht & Ts & Tt & D). split; [now apply K|]. split; [split; [|exact T]|exists s, t; repeat split; auto].
  apply in_set3_app. apply in_set3_app in I. rewrite <- kept_set. exact I.
Qed.
Lemma kept_separated tail : separated3 (rows ++ tail) -> separated3 (kept ++ tail).
Proof. intros H r x y Hr Cx Cy. destruct (kept_corner tail r x Hr Cx) as [I Kx]. destruct (kept_corner tail r y Hr Cy) as [_ Ky]. exact (H r x y I Kx Ky). Qed.
Lemma kept_bounded : bounded3 kept <-> bounded3 rows.
Proof. unfold bounded3. split; intros (B & H); exists B; intros x Hx; apply H; now apply kept_set. Qed.
End Kept.
Lemma box3_nonzero w r : In r (box3 w) -> nrm r <> (0, 0, 0).
Proof. unfold box3. intro H. repeat (destruct H as [<-|H]; [cbn [nrm]; ne3|]). destruct H. Qed.
Theorem fine_call bounds rows st : clear_rows rows -> (exists r s, In r rows /\ In s rows /\ has_direction r /\ has_direction s /\ r <> s) -> fine bounds rows ->
  exists L, lineqs3_call 0 idr rows bounds st = (Some L, st) /\
    ((bounded3 rows /\ forall x, hull3 (listed3 L) x <-> in_set3 rows x) \/
     (~ bounded3 rows /\ exists w, bounds = Some w /\ forall x, hull3 (listed3 L) x <-> in_set3 rows x /\ in_window w x)).
Proof.
  intros Cl (r & s & Hr & Hs & Dr & Ds & Ne) (_ & [(Bd & Ap & Sp)|(Nb & w & -> & Ap & Sp)]).
  - assert (Ak : all_apart (prepared idr rows)). { rewrite <- (app_nil_r (prepared idr rows)). apply kept_apart; [intros q []|]. now rewrite app_nil_r. }
    assert (Sk : separated3 (prepared idr rows)). { rewrite <- (app_nil_r (prepared idr rows)). apply kept_separated; [exact Cl|]. now rewrite app_nil_r. }
    assert (Bk : bounded3 (prepared idr rows)) by now apply (kept_bounded rows Cl). destruct (lineqs3_bounded rows bounds Ak Bk Sk) as (L & E & F). exists L. split.
    + unfold lineqs3_call. rewrite E, (probes_bounded _ Ak Bk). destruct (length _ =? 1)%nat, bounds; reflexivity.
    + left. split; [exact Bd|]. intro x. rewrite <- (all_faces_hull _ L Ak Bk F x). now apply kept_set.
  - assert (Ak := kept_apart rows (box3 w) (box3_nonzero w) Ap). assert (Sk := kept_separated rows Cl (box3 w) Sp).
    assert (L2 : (2 <= length (prepared idr rows))%nat).
    { assert (I1 := kept_all rows Cl r Hr Dr). assert (I2 := kept_all rows Cl s Hs Ds). destruct (prepared idr rows) as [|p [|q l]]; [destruct I1| |cbn [length]; lia]. destruct I1 as [<-|[]], I2 as [<-|[]]. congruence. }
    assert (Nk : ~ bounded3 (prepared idr rows)) by (intro H; apply Nb; now apply (kept_bounded rows Cl)). destruct (lineqs3_window rows w L2 Nk Ak Sk) as (L & E & F). exists L. split.
    + unfold lineqs3_call. rewrite E. destruct (length _ =? 1)%nat; reflexivity.
    + right. split; [exact Nb|]. exists w. split; [reflexivity|]. intro x. rewrite <- (all_faces_hull _ L Ak (box3_bounded _ _) F x), in_set3_app, box3_in, (kept_set rows Cl x). reflexivity.
Qed.
(** The sign rows make every slice a system of at least three inequalities. *)
Lemma sign_rows3 d uni m (sg : nat -> bool) A b k : (k < 3)%nat -> In (mkrow3 (if (k =? 0)%nat then (if sg 0%nat then -1 else 1) else 0, if (k =? 1)%nat then (if sg 1%nat then -1 else 1) else 0, if (k =? 2)%nat then (if sg 2%nat then -1 else 1) else 0) 0) (wl_rows3 d uni m sg A b).
Proof.
  intro Hk. unfold wl_rows3. apply in_map_iff. exists (2 * m + k)%nat. split; [|apply in_seq; lia]. unfold neg_mat, neg_vec. rewrite wl_b3_tail, Ropp_0. unfold wl_A. rewrite (proj2 (Nat.ltb_ge (2 * m + k) m)) by lia. rewrite (proj2 (Nat.ltb_ge (2 * m + k) (2 * m))) by lia. replace (2 * m + k - 2 * m)%nat with k by lia.
  f_equal. f_equal; [f_equal|]; destruct Nat.eqb; try destruct (sg _); lra.
Qed.
Lemma two_rows d uni m sg A b : exists r s, In r (wl_rows3 d uni m sg A b) /\ In s (wl_rows3 d uni m sg A b) /\ has_direction r /\ has_direction s /\ r <> s.
Proof.
  assert (I0 := sign_rows3 d uni m sg A b 0 ltac:(lia)). assert (I1 := sign_rows3 d uni m sg A b 1 ltac:(lia)). cbn [Nat.eqb] in *. eexists. eexists. split; [exact I0|]. split; [exact I1|]. unfold has_direction; cbn [nrm]; unf3.
  assert (S : forall t : bool, / 1000000000000 < Rabs (if t then -1 else 1)) by (intros []; [rewrite Rabs_left|rewrite Rabs_pos_eq]; lra). split; [left; apply S|]. split; [right; left; apply S|]. intro E. injection E as E _ . destruct (sg 0%nat); lra.
Qed.
Theorem slices_fine d uni m A b bounds : 0 <= d -> proper_mat m 3 A -> proper_vec m b ->
  (forall sg, In sg orthants3 -> fine bounds (wl_rows3 d uni m sg A b)) ->
  exists V, r3_call 0 idr d uni m A b bounds [] = (Some V, []) /\
    Forall2 (fun sg L => forall x,
      (hull3 (listed3 L) x -> in_orthant 3 sg (vec3 x) /\ solution3 uni m A (widen d b) x) /\
      (in_orthant 3 sg (vec3 x) -> solution3 uni m A (widen (- d) b) x -> (forall w, bounds = Some w -> in_window w x) -> hull3 (listed3 L) x) /\
      (hull3 (listed3 L) x -> bounded3 (wl_rows3 d uni m sg A b) \/ exists w, bounds = Some w /\ in_window w x)) orthants3 V.
Proof.
  intros Hd PA Pb Fs. set (Q := fun sg (L : list (list ev3)) => forall x, _).
  assert (G : forall sgs, (forall sg, In sg sgs -> fine bounds (wl_rows3 d uni m sg A b)) -> exists V, r3_pass 0 idr d uni m A b bounds sgs [] = (Some V, []) /\ Forall2 Q sgs V).
  { induction sgs as [|sg sgs IH]; intro H; [exists []; split; [reflexivity|constructor]|]. cbn [r3_pass].
    assert (F := H sg ltac:(now left)). destruct (fine_call bounds _ [] (proj1 F) (two_rows d uni m sg A b) F) as (L & -> & HL). destruct (IH ltac:(intros q Hq; apply H; now right)) as (V & -> & HV). exists (L :: V). split; [reflexivity|]. constructor; [|exact HV].
    intro x. destruct (slice_rows d uni m sg A b x Hd PA Pb) as [S1 S2]. destruct HL as [(Bd & HL)|(Nb & w & Ew & HL)]; specialize (HL x).
    - split; [intro X; apply S1; tauto|]. split; [intros; apply HL; tauto|]. intros _. now left.
    - split; [intro X; apply S1; tauto|]. split; [intros O1 O2 W; apply HL; split; [tauto|now apply W]|]. intro X. right. exists w. tauto. }
  destruct (G orthants3 Fs) as (V & E & HV). exists V. split; [|exact HV]. unfold r3_call. rewrite E. reflexivity.
Qed.
(** Together: the set asked for, up to the shift [d]. *)
Theorem slices_union d uni m A b bounds : 0 <= d -> proper_mat m 3 A -> proper_vec m b ->
  (forall sg, In sg orthants3 -> fine bounds (wl_rows3 d uni m sg A b)) ->
  exists V, r3_call 0 idr d uni m A b bounds [] = (Some V, []) /\ length V = 8%nat /\ forall x,
    ((exists L, In L V /\ hull3 (listed3 L) x) -> solution3 uni m A (widen d b) x) /\
    (solution3 uni m A (widen (- d) b) x -> (forall w, bounds = Some w -> in_window w x) -> exists L, In L V /\ hull3 (listed3 L) x).
Proof.
  intros Hd PA Pb Fs. destruct (slices_fine d uni m A b bounds Hd PA Pb Fs) as (V & E & F). exists V. split; [exact E|]. split; [clear -F; change 8%nat with (length orthants3); symmetry; revert F; generalize orthants3; induction 1; cbn [length]; congruence|]. intro x. split.
  - intros (L & HL & HX). apply In_nth_error in HL. destruct HL as (k & Hk). revert k Hk HX. clear -F. revert F. generalize orthants3. intros l F. induction F as [|sg L' l V' H F IH]; intros [|k] Hk HX; try discriminate; [injection Hk as ->; destruct (H x) as (K & _); exact (proj2 (K HX))|exact (IH k Hk HX)].
  - intros S W. destruct (some_orthant3 x) as (sg & Hs & Ho). revert sg Hs Ho. clear -F S W. revert F. generalize orthants3. intros l F. induction F as [|sg L' l V' H F IH]; intros sg' Hs Ho; [destruct Hs|]. destruct Hs as [-> |Hs]; [exists L'; split; [now left|]; destruct (H x) as (_ & K & _); now apply K|]. destruct (IH sg' Hs Ho) as (L & HL & HX). exists L. split; [now right|exact HX].
Qed.
