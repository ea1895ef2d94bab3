(** IntLinIncR3: examples and refutations. *)
From Coq Require Import Reals ZArith List Bool Arith Lia Lra Psatz Classical.
From Flocq Require Import Core.
From Verif Require Import Exact SpecExact ExactProofs Boundary SpecBoundary BoundaryProofs BoundaryMore BoundaryPath BoundaryWindow BoundaryState BoundaryStateProofs Boundary3 SpecBoundary3 Boundary3Plane Boundary3Proofs Boundary3Cases BoundaryHull Boundary3Sound Boundary3State SpecBoundary3State Boundary3StateProofs Boundary3Slices.
Import ListNotations.
Open Scope R_scope.

(** ** Rows along the axes *)
Definition ax (k : nat) (c : R) : v3 := match k with 0%nat => (c, 0, 0) | 1%nat => (0, c, 0) | _ => (0, 0, c) end.
Definition coord (k : nat) (x : v3) : R := match k with 0%nat => x1 x | 1%nat => x2 x | _ => x3 x end.
Definition along (r : row3) (k : nat) (c : R) : Prop := (k < 3)%nat /\ 1 <= c * c <= 4 /\ nrm r = ax k c.
Lemma along_nonzero r k c : along r k c -> nrm r <> (0, 0, 0) /\ has_direction r.
Proof.
  intros (Hk & Hc & E). assert (H : has_direction r); [|split; [now apply direction_nonzero|exact H]]. unfold has_direction. rewrite E. assert (/ 1000000000000 < Rabs c) by (apply Rnot_le_lt; intro X; assert (Y := Rsqr_abs c); unfold Rsqr in Y; assert (Z := Rabs_pos c); nra).
  destruct k as [|[|[|k]]]; cbn [ax]; unf3; auto; lia.
Qed.
Lemma along_key r s k c l e : along r k c -> along s l e -> row_minus_off r = row_minus_off s -> r = s.
Proof.
  intros (Hk & Hc & Er) (Hl & He & Es) H. assert (c <> 0) by nra. assert (e <> 0) by nra. destruct r as [n o], s as [n' o']. cbn [nrm] in *. subst. unfold row_minus_off in H. cbn [nrm off] in H.
  destruct k as [|[|[|k]]], l as [|[|[|l]]]; try lia; cbn [ax] in *; unf3; injection H as J1 J2 J3; try (exfalso; lra); (assert (o = o') by lra; assert (c = e) by lra; subst; reflexivity).
Qed.
Lemma along_apart r s k c l e : along r k c -> along s l e -> apart (nrm r) (nrm s).
Proof.
  intros (Hk & Hc & Er) (Hl & He & Es). unfold apart. rewrite Er, Es. assert (C := small_square 1000000000000 ltac:(lra)). assert (C2 : / 1000000000000 ^ 2 < / 20). { apply Rinv_lt_contravar; [|]; simpl; lra. } set (t := / 1000000000000 ^ 2) in *. clearbody t.
  assert (P : 1 <= (c * c) * (e * e)) by nra.
  destruct k as [|[|[|k]]], l as [|[|[|l]]]; try lia; cbn [ax]; unfold cross3, dot3, x1, x2, x3; cbn [fst snd]; first [left; f_equal; [f_equal|]; ring | right; nra].
Qed.
Lemma along_separated (G : R -> Prop) rows : (forall s t, G s -> G t -> s = t \/ / 16 <= (s - t) * (s - t)) ->
  (forall r x, In r rows -> in_set3 rows x -> tight3 r x -> exists k c, along r k c /\ G (coord k x)) -> separated3 rows.
Proof.
  intros Gap H. assert (K : forall r x, In r rows -> corner3 rows r x -> G (x1 x) /\ G (x2 x) /\ G (x3 x) /\ exists k c, along r k c).
  { intros r x Hr ((Ix & Tr) & s & t & Hs & Ht & Ts & Tt & D). destruct (H r x Hr Ix Tr) as (k & c & (Hk & Hc & Er) & Gr). destruct (H s x Hs Ix Ts) as (k' & c' & (Hk' & Hc' & Es) & Gs). destruct (H t x Ht Ix Tt) as (k'' & c'' & (Hk'' & Hc'' & Et) & Gt).
    revert D. rewrite Er, Es, Et. intro D. assert (Al : exists k c, along r k c) by (exists k, c; split; [exact Hk|split; assumption]).
    destruct k as [|[|[|k]]], k' as [|[|[|k']]], k'' as [|[|[|k'']]]; try lia; cbn [ax coord] in *; try (exfalso; apply D; unf3; ring); auto. }
  intros r x y Hr Cx Cy. destruct (K r x Hr Cx) as (G1 & G2 & G3 & k & c & (Hk & Hc & Er)). destruct (K r y Hr Cy) as (K1 & K2 & K3 & _).
  assert (N : dot3 (nrm r) (nrm r) = c * c) by (rewrite Er; destruct k as [|[|[|k]]]; try lia; cbn [ax]; unf3; ring). rewrite N. change (dot3 (sub3 x y) (sub3 x y)) with ((x1 x - x1 y) * (x1 x - x1 y) + (x2 x - x2 y) * (x2 x - x2 y) + (x3 x - x3 y) * (x3 x - x3 y)).
  assert (C : 0 < / 100000000 ^ 2 < / 1000) by (split; [apply Rinv_0_lt_compat; simpl; lra|apply Rinv_lt_contravar; simpl; lra]). set (t := / 100000000 ^ 2) in *. clearbody t.
  assert (Sm : 2 * t * (c * c) * (1 + c * c) < / 16). { set (u := c * c) in *. clearbody u. assert (u * (1 + u) <= 20) by nra. assert (0 <= u * (1 + u)) by nra. replace (2 * t * u * (1 + u)) with (2 * t * (u * (1 + u))) by ring. set (q := u * (1 + u)) in *. clearbody q. nra. }
  assert (Sq1 := Rle_0_sqr (x1 x - x1 y)). assert (Sq2 := Rle_0_sqr (x2 x - x2 y)). assert (Sq3 := Rle_0_sqr (x3 x - x3 y)). unfold Rsqr in *.
  destruct (Gap _ _ G1 K1) as [E1|E1]; [destruct (Gap _ _ G2 K2) as [E2|E2]; [destruct (Gap _ _ G3 K3) as [E3|E3]; [left; now apply v3_ext|]|]|]; right; lra.
Qed.
Lemma all_along_apart rows : (forall r, In r rows -> nrm r <> (0, 0, 0) -> exists k c, along r k c) -> apart_rows rows.
Proof. intros H r s Hr Hs Nr Ns. destruct (H r Hr Nr) as (k & c & A1). destruct (H s Hs Ns) as (l & e & A2). exact (along_apart r s k c l e A1 A2). Qed.

(** ** [1, 2] x_k = [-1, 1], k = 1, 2, 3, with the shift 1e-15 *)
Definition d15 : R := / 1000000000000000.
Definition twoA : imat := fun i j => if (i =? j)%nat then mkr 1 2 else mkr 0 0.
Definition oneb : ivec := fun _ => mkr (-1) 1.
Definition unit_or_half (e t : R) : Prop := t = 0 \/ t = e \/ t = - e \/ t = e / 2 \/ t = - (e / 2).
Lemma half_gap e s t : 3 / 4 <= e -> unit_or_half e s -> unit_or_half e t -> s = t \/ / 16 <= (s - t) * (s - t).
Proof.
  intros He S T. assert (9 / 16 <= e * e) by nra. destruct S as [-> |[-> |[-> |[-> | ->]]]], T as [-> |[-> |[-> |[-> | ->]]]]; first [left; reflexivity | right; nra].
Qed.
Lemma two_rows3 sg r : In r (wl_rows3 d15 true 3 sg twoA oneb) -> exists k c, along r k c /\ (c = 1 \/ c = -1 \/ c = 2 \/ c = -2) /\ (off r = 0 \/ off r = - (1 - d15)).
Proof.
  unfold wl_rows3. intro H. apply in_map_iff in H. destruct H as (i & <- & Hi). apply in_seq in Hi. cbn [nrm off]. unfold neg_mat, neg_vec, wl_b3, wl_b, wl_A, wl_tmp, oneb, twoA. cbn [rl rh].
  assert (Z : - 0 = 0) by lra. assert (Z2 : - -1 = 1) by lra. assert (Z3 : - - (2) = 2) by lra. assert (Z4 : - - (1) = 1) by lra. assert (Z5 : - (1) = -1) by lra. assert (Z6 : - (2) = -2) by lra.
  destruct i as [|[|[|[|[|[|[|[|[|i]]]]]]]]]; try lia; cbn [Nat.ltb Nat.leb Nat.eqb Nat.mul Nat.add Nat.sub rl rh];
    repeat match goal with |- context [if sg ?k then _ else _] => destruct (sg k) end; cbn [rl rh]; rewrite ?Z2, ?Z3, ?Z4, ?Z5, ?Z6; repeat rewrite Z;
    try (destruct (Rle_dec 0 1) as [_|X]; [|exfalso; apply X; lra]);
    match goal with |- exists k c, along (mkrow3 (?a, ?b, ?e) _) k c /\ _ => first [unify b 0; unify e 0; exists 0%nat, a | unify a 0; unify e 0; exists 1%nat, b | unify a 0; unify b 0; exists 2%nat, e] end;
    (split; [split; [lia|split; [lra|reflexivity]]|split; [auto|auto]]).
Qed.
Lemma d15_small : 0 < d15 < / 4.
Proof. unfold d15. lra. Qed.
Lemma two_bounded sg : bounded3 (wl_rows3 d15 true 3 sg twoA oneb).
Proof.
  assert (D := d15_small). exists 2. intros x H. apply slice_rows in H; [|lra|intros i j _ _; unfold proper, twoA; destruct Nat.eqb; simpl; lra|intros i _; unfold proper, oneb; simpl; lra].
  destruct H as [_ (M & v & HM & Hv & E)]. assert (G : forall k, (k < 3)%nat -> Rabs (vec3 x k) <= 2).
  { intros k Hk. specialize (Hv k Hk). rewrite <- (E k Hk) in Hv. assert (M0 := HM k 0%nat Hk ltac:(lia)). assert (M1 := HM k 1%nat Hk ltac:(lia)). assert (M2 := HM k 2%nat Hk ltac:(lia)). unfold times, inI, widen, oneb, twoA in *. cbn [total rl rh] in *.
    destruct k as [|[|[|k]]]; try lia; cbn [Nat.eqb rl rh] in *;
    [replace (M 0%nat 1%nat) with 0 in Hv by lra; replace (M 0%nat 2%nat) with 0 in Hv by lra|replace (M 1%nat 0%nat) with 0 in Hv by lra; replace (M 1%nat 2%nat) with 0 in Hv by lra|replace (M 2%nat 0%nat) with 0 in Hv by lra; replace (M 2%nat 1%nat) with 0 in Hv by lra];
    apply Rabs_le; split; nra. }
  exact (conj (G 0%nat ltac:(lia)) (conj (G 1%nat ltac:(lia)) (G 2%nat ltac:(lia)))).
Qed.
Theorem two_fine sg bounds : fine bounds (wl_rows3 d15 true 3 sg twoA oneb).
Proof.
  assert (D := d15_small). split; [split|left; split; [apply two_bounded|split]].
  - intros r s Hr Hs. apply two_rows3 in Hr. apply two_rows3 in Hs. destruct Hr as (k & c & A1 & _), Hs as (l & e & A2 & _). exact (along_key r s k c l e A1 A2).
  - intros r Hr. apply two_rows3 in Hr. destruct Hr as (k & c & A1 & _). left. exact (proj2 (along_nonzero r k c A1)).
  - apply all_along_apart. intros r Hr _. apply two_rows3 in Hr. destruct Hr as (k & c & A1 & _). eauto.
  - apply (along_separated (unit_or_half (1 - d15))); [intros s t; apply half_gap; lra|]. intros r x Hr _ T. apply two_rows3 in Hr. destruct Hr as (k & c & A1 & Hc & Ho). exists k, c. split; [exact A1|]. destruct A1 as (Hk & _ & E). unfold tight3 in T. rewrite E in T.
    assert (X : c * coord k x = off r) by (rewrite <- T; destruct k as [|[|[|k]]]; try lia; cbn [ax coord]; unf3; ring). set (u := coord k x) in *. clearbody u. unfold unit_or_half.
    destruct Ho as [Ho|Ho]; rewrite Ho in X; destruct Hc as [-> |[-> |[-> | ->]]]; lra.
Qed.

(** ** A window left over by lineqs3D *)
Lemma wedge_history : history3 0 idr [CallLineqs3 corner_wedge None] = [1].
Proof.
  unfold history3. cbn [fold_left after3]. unfold lineqs3_call. cbn [snd]. rewrite (prepared_told_apart _ wedge_told). cbn [length corner_wedge Nat.eqb].
  assert (Ep : probes 0 idr corner_wedge = [([Points [(2, -2, 0)]], true); ([Points [(2, -2, 0)]], true)]).
  { change (probes 0 idr corner_wedge) with [probe 0 idr corner_wedge 0 (mkrow3 (1, 0, 0) 2); probe 0 idr corner_wedge 1 (mkrow3 (0, -1, 0) 2)]. rewrite !wedge_probe by reflexivity. reflexivity. }
  fold corner_wedge. rewrite Ep. cbn [flat_map fst snd app existsb orb all_points].
  assert (E : default3 [(2, -2, 0); (2, -2, 0)] = (0, 1)).
  { unfold default3, mean. cbv zeta. unf3. cbn [map fst snd fold_right length mins maxs fold_left]. f_equal; [simpl; lra|]. unfold Rmax, Rmin. repeat destruct Rle_dec; lra. }
  match goal with |- context [default3 ?l] => change (default3 l) with (default3 [(2, -2, 0); (2, -2, 0)]) end. rewrite E, Rabs_R0. f_equal. lra.
Qed.
Lemma zero_rows3 sg r : In r (wl_rows3 d15 true 1 sg zeroA oneb) -> (nrm r = (0, 0, 0) /\ off r = - (1 - d15)) \/ exists k c, along r k c /\ c = (if sg k then -1 else 1) /\ off r = 0.
Proof.
  unfold wl_rows3. intro H. apply in_map_iff in H. destruct H as (i & <- & Hi). apply in_seq in Hi. cbn [nrm off]. unfold neg_mat, neg_vec, wl_b3, wl_b, wl_A, wl_tmp, oneb, zeroA. cbn [rl rh].
  assert (Z : - 0 = 0) by lra. assert (Z2 : - -1 = 1) by lra. assert (Z5 : - (1) = -1) by lra.
  destruct i as [|[|[|[|[|i]]]]]; try lia; cbn [Nat.ltb Nat.leb Nat.eqb Nat.mul Nat.add Nat.sub rl rh].
  - left; rewrite ?Z2; (destruct (Rle_dec 0 1) as [_|X]; [|exfalso; apply X; lra]); split; [|reflexivity]; repeat match goal with |- context [if sg ?k then _ else _] => destruct (sg k) end; cbn [rl rh]; rewrite ?Z; reflexivity.
  - left; rewrite ?Z2; (destruct (Rle_dec 0 1) as [_|X]; [|exfalso; apply X; lra]); split; [|reflexivity]; repeat match goal with |- context [if sg ?k then _ else _] => destruct (sg k) end; cbn [rl rh]; rewrite ?Z; reflexivity.
  - right. exists 0%nat, (if sg 0%nat then -1 else 1). rewrite Z. split; [split; [lia|split; [destruct (sg 0%nat); lra|cbn [nrm ax]; destruct (sg 0%nat); rewrite ?Z2, ?Z5; reflexivity]]|split; reflexivity].
  - right. exists 1%nat, (if sg 1%nat then -1 else 1). rewrite Z. split; [split; [lia|split; [destruct (sg 1%nat); lra|cbn [nrm ax]; destruct (sg 1%nat); rewrite ?Z2, ?Z5; reflexivity]]|split; reflexivity].
  - right. exists 2%nat, (if sg 2%nat then -1 else 1). rewrite Z. split; [split; [lia|split; [destruct (sg 2%nat); lra|cbn [nrm ax]; destruct (sg 2%nat); rewrite ?Z2, ?Z5; reflexivity]]|split; reflexivity].
Qed.
Definition ball (t : R) : v3 * v3 := ((- t, - t, - t), (t, t, t)).
Lemma zero_unbounded sg : ~ bounded3 (wl_rows3 d15 true 1 sg zeroA oneb).
Proof.
  assert (D := d15_small). intros (B & HB). set (f := fun k : nat => if sg k then - (Rabs B + 1) else Rabs B + 1). assert (P := Rabs_pos B). destruct (HB (f 0%nat, f 1%nat, f 2%nat)) as [X _].
  - intros r Hr. apply zero_rows3 in Hr. unfold holds3. destruct Hr as [[E O]|(k & c & (Hk & _ & E) & Hc & O)]; rewrite E, O; [unf3; lra|]. rewrite Hc. destruct k as [|[|[|k]]]; try lia; cbn [ax]; unf3; unfold f; [destruct (sg 0%nat)|destruct (sg 1%nat)|destruct (sg 2%nat)]; lra.
  - unf3. unfold f in X. assert (Q := Rle_abs B). destruct (sg 0%nat); [rewrite Rabs_Ropp in X|]; rewrite Rabs_pos_eq in X by lra; lra.
Qed.
Lemma zero_fine sg t : t = 1 \/ t = 2 -> fine (Some (ball t)) (wl_rows3 d15 true 1 sg zeroA oneb).
Proof.
  intro Ht. assert (D := d15_small). assert (Bx : forall r, In r (box3 (ball t)) -> exists k c, along r k c /\ (c = 1 \/ c = -1) /\ off r = - t).
  { intros r Hr. unfold box3, ball in Hr. unf3. repeat (destruct Hr as [<-|Hr]; [cbn [nrm off]; first [exists 0%nat, 1; split; [split; [lia|split; [lra|reflexivity]]|auto]; fail | exists 0%nat, (-1); split; [split; [lia|split; [lra|reflexivity]]|auto]; fail | exists 1%nat, 1; split; [split; [lia|split; [lra|reflexivity]]|auto]; fail | exists 1%nat, (-1); split; [split; [lia|split; [lra|reflexivity]]|auto]; fail | exists 2%nat, 1; split; [split; [lia|split; [lra|reflexivity]]|auto]; fail | exists 2%nat, (-1); split; [split; [lia|split; [lra|reflexivity]]|auto]]|]). destruct Hr. }
  split; [split|right; split; [apply zero_unbounded|exists (ball t); split; [reflexivity|split]]].
  - intros r s Hr Hs K. apply zero_rows3 in Hr. apply zero_rows3 in Hs. destruct Hr as [[E O]|(k & c & A1 & _ & O)], Hs as [[E' O']|(l & e & A2 & _ & O')].
    + destruct r as [n o], s as [n1 o1]. cbn [nrm off] in *. congruence.
    + exfalso. unfold row_minus_off in K. rewrite E, O, O' in K. destruct A2 as (Hl & Hc & E'). rewrite E' in K. injection K as K1 K2 K3. destruct l as [|[|[|l]]]; try lia; cbn [ax] in *; unf3; lra.
    + exfalso. unfold row_minus_off in K. rewrite E', O, O' in K. destruct A1 as (Hl & Hc & E). rewrite E in K. injection K as K1 K2 K3. destruct k as [|[|[|l]]]; try lia; cbn [ax] in *; unf3; lra.
    + exact (along_key r s k c l e A1 A2 K).
  - intros r Hr. apply zero_rows3 in Hr. destruct Hr as [[E O]|(k & c & A1 & _ & O)]; [right; split; [exact E|lra]|left; exact (proj2 (along_nonzero r k c A1))].
  - apply all_along_apart. intros r Hr N. apply in_app_or in Hr. destruct Hr as [Hr|Hr]; [apply zero_rows3 in Hr; destruct Hr as [[E _]|(k & c & A1 & _)]; [contradiction|eauto]|destruct (Bx r Hr) as (k & c & A1 & _); eauto].
  - apply (along_separated (fun u => u = 0 \/ u = t \/ u = - t)); [intros u v U V; destruct U as [-> |[-> | ->]], V as [-> |[-> | ->]]; first [left; reflexivity|right; destruct Ht; subst t; lra]|].
    intros r x Hr _ T. unfold tight3 in T. apply in_app_or in Hr. destruct Hr as [Hr|Hr].
    + apply zero_rows3 in Hr. destruct Hr as [[E O]|(k & c & A1 & Hc & O)]; [exfalso; rewrite E, O in T; unf3; lra|]. exists k, c. split; [exact A1|]. destruct A1 as (Hk & Hcc & E). rewrite E, O in T. left. assert (X : c * coord k x = 0) by (rewrite <- T; destruct k as [|[|[|k]]]; try lia; cbn [ax coord]; unf3; ring). destruct (sg k); subst c; lra.
    + destruct (Bx r Hr) as (k & c & A1 & Hc & O). exists k, c. split; [exact A1|]. destruct A1 as (Hk & Hcc & E). rewrite E, O in T. assert (X : c * coord k x = - t) by (rewrite <- T; destruct k as [|[|[|k]]]; try lia; cbn [ax coord]; unf3; ring). destruct Hc as [-> | ->]; lra.
Qed.
Lemma zero_proper : proper_mat 1 3 zeroA /\ proper_vec 1 oneb.
Proof. split; [intros i j _ _|intros i _]; unfold proper; simpl; lra. Qed.
Theorem stale3_refuted : exists A b w V V' x, history3 0 idr [CallLineqs3 corner_wedge None] <> [] /\
  r3_call 0 idr d15 true 1 A b (Some w) [] = (Some V, []) /\ r3_call 0 idr d15 true 1 A b (Some w) (history3 0 idr [CallLineqs3 corner_wedge None]) = (Some V', []) /\
  (exists L, In L V /\ hull3 (listed3 L) x) /\ ~ (exists L, In L V' /\ hull3 (listed3 L) x).
Proof.
  assert (D := d15_small). destruct zero_proper as [PA Pb]. exists zeroA, oneb, (ball 2).
  destruct (slices_union d15 true 1 zeroA oneb (Some (ball 2)) ltac:(lra) PA Pb (fun sg _ => zero_fine sg 2 ltac:(now right))) as (V & E & _ & Un).
  destruct (slices_fine d15 true 1 zeroA oneb (Some (ball 1)) ltac:(lra) PA Pb (fun sg _ => zero_fine sg 1 ltac:(now left))) as (V' & E' & F').
  exists V, V', (2, 2, 2). rewrite wedge_history. split; [discriminate|]. split; [exact E|]. split; [|split].
  - apply (r3_given_window 0 idr d15 true 1 zeroA oneb) in E. apply (r3_given_window 0 idr d15 true 1 zeroA oneb) in E'. unfold r3_call.
    destruct (pass3_given 0 idr d15 true 1 zeroA oneb (ball 2) orthants3 [1]) as [Q1 Q2]. specialize (Q2 _ E). destruct (r3_pass _ _ _ _ _ _ _ _ _ _) as [W st1]. cbn [fst snd] in Q1, Q2. subst W st1. cbv zeta. change (maxs [1]) with 1.
    destruct (pass3_given 0 idr d15 true 1 zeroA oneb (ball 1) orthants3 [1]) as [R1 R2]. specialize (R2 _ E'). change (- (1), - (1), - (1), (1, 1, 1)) with (ball 1). destruct (r3_pass _ _ _ _ _ _ _ _ _ _) as [W st1]. cbn [fst snd] in R1, R2. subst W st1. reflexivity.
  - apply Un.
    + exists (fun _ _ => 0), (fun _ => 0). split; [intros i j _ _; unfold inI; simpl; lra|]. split; [intros i _; unfold inI; simpl; lra|]. intros i _. unfold times. cbn [total]. ring.
    + intros w Ew. injection Ew as <-. unfold in_window, ball. unf3. lra.
  - intros (L & HL & HX). apply In_nth_error in HL. destruct HL as (k & Hk). revert k Hk. revert F'. clear E'. generalize orthants3. intros l F'. induction F' as [|sg L' l V'' H F IH]; intros [|k] Hk; try discriminate; [injection Hk as ->|exact (IH k Hk)].
    destruct (H (2, 2, 2)) as (_ & _ & K). destruct (K HX) as [Bd|(w & Ew & W)]; [exact (zero_unbounded sg Bd)|]. injection Ew as <-. unfold in_window, ball in W. unf3. lra.
Qed.

(** ** An inequality dropped by the program's own rounding and comparison *)
Lemma int_gap s : int s -> s = 0 \/ 1 <= s * s.
Proof.
  intros (z & ->). destruct (Z.eq_dec z 0) as [-> |N]; [now left|]. right. rewrite <- mult_IZR. apply IZR_le. nia.
Qed.
Lemma int_apart rows : (forall r, In r rows -> int3 (nrm r) /\ nrm r <> (0, 0, 0)) -> all_apart rows.
Proof.
  intros H r s Hr Hs. destruct (H r Hr) as [I1 N1]. destruct (H s Hs) as [I2 N2]. split; [exact N1|]. unfold apart. assert (C := int_cross (nrm r) (nrm s) I1 I2). set (z := cross3 (nrm r) (nrm s)) in *. clearbody z.
  assert (Sq : forall u, int3 u -> u = (0, 0, 0) \/ 1 <= dot3 u u).
  { intros u (U1 & U2 & U3). assert (Q1 := Rle_0_sqr (x1 u)). assert (Q2 := Rle_0_sqr (x2 u)). assert (Q3 := Rle_0_sqr (x3 u)). unfold Rsqr in *. change (dot3 u u) with (x1 u * x1 u + x2 u * x2 u + x3 u * x3 u).
    destruct (int_gap _ U1) as [E1|E1]; [|right; lra]. destruct (int_gap _ U2) as [E2|E2]; [|right; lra]. destruct (int_gap _ U3) as [E3|E3]; [|right; lra]. left. now apply v3_ext. }
  destruct (Sq z C) as [E|G]; [now left|]. right. destruct (Sq _ I1) as [E|G1]; [contradiction|]. set (p := dot3 (nrm r) (nrm r)) in *. set (q := dot3 z z) in *. clearbody p q. assert (T := small_square 1000000000000 ltac:(lra)). set (t := / 1000000000000 ^ 2) in *. clearbody t.
  assert (p * 1 <= p * q) by (apply Rmult_le_compat_l; lra). nra.
Qed.
Lemma first_keys_drop r l1 l2 : NoDup (map key (l1 ++ l2)) -> In (key r) (map key l1) -> first_keys [] (l1 ++ r :: l2) = l1 ++ l2.
Proof.
  intros Nd I. assert (G : forall l1 seen, NoDup (map key (l1 ++ l2)) -> (forall q, In q (l1 ++ l2) -> ~ In (key q) seen) -> In (key r) seen \/ In (key r) (map key l1) -> first_keys seen (l1 ++ r :: l2) = l1 ++ l2).
  { clear. induction l1 as [|q l IH]; intros seen Nd Ns I; cbn [app first_keys].
    - destruct I as [I|[]]. destruct in_dec; [|contradiction]. now apply first_keys_id.
    - cbn [app map] in Nd. inversion Nd as [|? ? N1 N2]; subst. destruct in_dec as [B|B]; [destruct (Ns q ltac:(now left) B)|]. f_equal. apply IH; [exact N2| |].
      + intros p Hp [E|E]; [apply N1; rewrite E; now apply in_map|exact (Ns p ltac:(now right) E)].
      + destruct I as [I|[I|I]]; [left; now right|left; now left|now right]. }
  apply G; auto.
Qed.
Definition sumA : imat := fun i j => if (i =? 3)%nat then mkr 1 1 else if (i =? j)%nat then mkr 1 1 else mkr 0 0.
Definition sumb : ivec := fun i => if (i =? 3)%nat then mkr (-1) 3 else mkr (-5) (-1).
Definition sgn (t : bool) : R := if t then -1 else 1.
Definition sum_head : list row3 := [mkrow3 (-1, 0, 0) 1; mkrow3 (0, -1, 0) 1; mkrow3 (0, 0, -1) 1; mkrow3 (-1, -1, -1) (-3); mkrow3 (1, 0, 0) (-5); mkrow3 (0, 1, 0) (-5); mkrow3 (0, 0, 1) (-5)].
Definition sum_tail (sg : nat -> bool) : list row3 := [mkrow3 (sgn (sg 0%nat), 0, 0) 0; mkrow3 (0, sgn (sg 1%nat), 0) 0; mkrow3 (0, 0, sgn (sg 2%nat)) 0].
Definition sum_rows (sg : nat -> bool) : list row3 := sum_head ++ sum_tail sg.
Definition sum_full (sg : nat -> bool) : list row3 := sum_head ++ mkrow3 (1, 1, 1) (-1) :: sum_tail sg.
Lemma sum_int sg r : In r (sum_rows sg) -> int3 (nrm r) /\ int (off r) /\ int3 (cv_xi (nrm r) (off r)) /\ nrm r <> (0, 0, 0) /\ has_direction r.
Proof.
  assert (G : forall z t, t = IZR z -> int t) by (intros z t E; now exists z).
  unfold sum_rows, sum_head, sum_tail, sgn. intro H. cbn [app In] in H.
  repeat (destruct H as [<-|H]; [cbn [nrm off]; unfold int3, cv_xi, has_direction; cbn [nrm]; unf3; cbn [fst snd];
    repeat match goal with |- context [if ?c then -1 else 1] => destruct c end;
    (split; [repeat split; eexists; reflexivity|]); (split; [eexists; reflexivity|]);
    (split; [repeat split; first [apply (G 0%Z); field | apply (G 1%Z); field | apply (G (-1)%Z); field | apply (G 5%Z); field | apply (G (-5)%Z); field | apply (G 3%Z); field | apply (G (-3)%Z); field]|]);
    (split; [ne3|]); unfold Rabs; repeat destruct Rcase_abs; lra|]). destruct H.
Qed.
Lemma round_list rows rows' : Forall2 (fun r q => exists z1 z2 z3 z4, q = mkrow3 (IZR z1, IZR z2, IZR z3) (IZR z4) /\ x1 (nrm r) = IZR z1 /\ x2 (nrm r) = IZR z2 /\ x3 (nrm r) = IZR z3 /\ Rabs (off r - IZR z4) < / 2000000000000) rows rows' -> map (around_row3 around12) rows = rows' /\ map (around_row3 around12) rows' = rows'.
Proof.
  induction 1 as [|r q rows rows' (z1 & z2 & z3 & z4 & -> & E1 & E2 & E3 & E4) F [I1 I2]]; [split; reflexivity|]. cbn [map]. rewrite I1, I2. unfold around_row3. cbn [nrm off]. unf3. cbn [fst snd] in *. rewrite E1, E2, E3, !around12_int, (around12_close z4 _ E4). split; reflexivity.
Qed.
Lemma sum_prepared sg : prepared around12 (wl_rows3 d15 true 4 sg sumA sumb) = sum_rows sg.
Proof.
  assert (D := d15_small). assert (D2 : d15 < / 2000000000000) by (unfold d15; lra).
  assert (R0 : map (around_row3 around12) (wl_rows3 d15 true 4 sg sumA sumb) = sum_full sg /\ map (around_row3 around12) (sum_full sg) = sum_full sg).
  { apply round_list. unfold wl_rows3. cbn [seq map Nat.mul Nat.add]. unfold neg_mat, neg_vec, wl_b3, wl_b, wl_A, wl_tmp, sumb, sumA, sum_full, sum_head, sum_tail, sgn. cbn [app Nat.ltb Nat.leb Nat.eqb Nat.mul Nat.add Nat.sub rl rh].
    repeat match goal with |- context [sg ?k] => destruct (sg k) end; cbn [rl rh];
    repeat (constructor; [do 4 eexists; split; [reflexivity|]; cbn [nrm off]; unf3; cbn [fst snd]; (split; [lra|split; [lra|split; [lra|]]]); try destruct Rle_dec; try (exfalso; lra); apply Rabs_def1; lra|]); constructor. }
  destruct R0 as [R1 R2]. assert (F : clear_zero_rows3 around12 (wl_rows3 d15 true 4 sg sumA sumb) = sum_full sg).
  { unfold clear_zero_rows3. rewrite R1. assert (Dir : forall r, In r (sum_full sg) -> has_direction r).
    { intros r Hr. unfold sum_full in Hr. apply in_app_or in Hr. destruct Hr as [Hr|[<-|Hr]]; [apply (sum_int sg), in_or_app; now left|left; cbn [nrm]; unf3; rewrite Rabs_pos_eq; lra|apply (sum_int sg), in_or_app; now right]. }
    revert Dir. generalize (sum_full sg). induction l as [|r l IH]; intro Dir; [reflexivity|]. cbn [filter]. rewrite (proj2 (zero_direction r) (Dir r ltac:(now left))). cbn [negb]. f_equal. apply IH. intros q Hq. apply Dir. now right. }
  unfold prepared, non_repeat. rewrite F, R2. unfold sum_full. apply first_keys_drop.
  - change key with row_minus_off. unfold sum_head, sum_tail, sgn, row_minus_off. cbn [app map nrm off]. unf3. cbn [fst snd]. repeat match goal with |- context [sg ?k] => destruct (sg k) end; repeat (constructor; [cbn [In]; intro H; repeat (destruct H as [H|H]; [revert H; ne3|]); exact H|]); constructor.
  - right. right. right. left. unfold key. cbn [nrm off]. unf3. apply v3_ext; unf3; lra.
Qed.
Lemma sum_in sg x : in_set3 (sum_rows sg) x -> -5 <= x1 x <= -1 /\ -5 <= x2 x <= -1 /\ -5 <= x3 x <= -1.
Proof.
  intro H. assert (G : forall k r, nth_error sum_head k = Some r -> holds3 r x) by (intros k r Hk; apply H, in_or_app; left; eapply nth_error_In; exact Hk).
  assert (G0 := G 0%nat _ eq_refl). assert (G1 := G 1%nat _ eq_refl). assert (G2 := G 2%nat _ eq_refl). assert (G4 := G 4%nat _ eq_refl). assert (G5 := G 5%nat _ eq_refl). assert (G6 := G 6%nat _ eq_refl). unfold holds3 in *. cbn [nrm off] in *. unf3. lra.
Qed.
Lemma sum_bounded sg : bounded3 (sum_rows sg).
Proof. exists 5. intros x H. apply sum_in in H. repeat split; apply Rabs_le; lra. Qed.
Lemma sum_separated sg : separated3 (sum_rows sg).
Proof.
  apply (along_separated (fun u => u = -1 \/ u = -5)); [intros u v [-> | ->] [-> | ->]; first [left; reflexivity|right; lra]|]. intros r x Hr I T. apply sum_in in I. unfold tight3 in T. unfold sum_rows, sum_head, sum_tail, sgn in Hr. cbn [app In] in Hr.
  repeat (destruct Hr as [<-|Hr]; [cbn [nrm off] in T; unf3;
    first [ exfalso; repeat match type of T with context [sg ?k] => destruct (sg k) end; lra
          | exists 0%nat, 1; split; [split; [lia|split; [lra|reflexivity]]|cbn [coord]; unf3; lra]
          | exists 0%nat, (-1); split; [split; [lia|split; [lra|reflexivity]]|cbn [coord]; unf3; lra]
          | exists 1%nat, 1; split; [split; [lia|split; [lra|reflexivity]]|cbn [coord]; unf3; lra]
          | exists 1%nat, (-1); split; [split; [lia|split; [lra|reflexivity]]|cbn [coord]; unf3; lra]
          | exists 2%nat, 1; split; [split; [lia|split; [lra|reflexivity]]|cbn [coord]; unf3; lra]
          | exists 2%nat, (-1); split; [split; [lia|split; [lra|reflexivity]]|cbn [coord]; unf3; lra]]|]). destruct Hr.
Qed.
Lemma sum_told sg : told_apart (sum_rows sg).
Proof. rewrite <- (sum_prepared sg). apply prepared_fixed. exact around12_idem. Qed.
Lemma sum_call sg bounds st : exists L, lineqs3_call 0 around12 (wl_rows3 d15 true 4 sg sumA sumb) bounds st = (Some L, st) /\ all_faces (sum_rows sg) L.
Proof.
  assert (Ap : all_apart (sum_rows sg)) by (apply int_apart; intros r Hr; destruct (sum_int sg r Hr); tauto).
  assert (X := lineqs3_fixed_bounded around12 (wl_rows3 d15 true 4 sg sumA sumb) bounds st around12_idem). cbv zeta in X. rewrite sum_prepared in X. rewrite X; [|apply int_fixes; intros r Hr; destruct (sum_int sg r Hr); tauto|exact Ap|apply sum_bounded].
  destruct (faces_of_bounded (sum_rows sg) bounds (sum_told sg) Ap (sum_bounded sg) (sum_separated sg)) as (L & -> & F). now exists L.
Qed.
Theorem dropped_refuted : exists A b, proper_mat 4 3 A /\ proper_vec 4 b /\ (forall x, ~ solution3 true 4 A (widen (/ 4) b) x) /\
  forall bounds, exists V L, r3_call 0 around12 d15 true 4 A b bounds [] = (Some V, []) /\ nth_error V 6 = Some L /\ listed3 L (-1, -1, -1).
Proof.
  exists sumA, sumb. split; [|split; [|split]].
  - intros i j _ _. unfold proper, sumA. destruct Nat.eqb; [simpl; lra|]. destruct Nat.eqb; simpl; lra.
  - intros i _. unfold proper, sumb. destruct Nat.eqb; simpl; lra.
  - intros x (M & v & HM & Hv & E). assert (G : forall k, (k < 4)%nat -> inI (widen (/ 4) sumb k) (times 3 M (vec3 x) k)) by (intros k Hk; rewrite (E k Hk); now apply Hv).
    assert (G0 := G 0%nat ltac:(lia)). assert (G1 := G 1%nat ltac:(lia)). assert (G2 := G 2%nat ltac:(lia)). assert (G3 := G 3%nat ltac:(lia)). unfold times, inI, widen, sumb in *. cbn [total Nat.eqb rl rh vec3] in *.
    assert (C : forall i j, (i < 4)%nat -> (j < 3)%nat -> M i j = rl (sumA i j)). { intros i j Hi Hj. specialize (HM i j Hi Hj). unfold inI, sumA in *. destruct Nat.eqb; [simpl in *; lra|]. destruct Nat.eqb; simpl in *; lra. }
    rewrite !C in G0 by lia. rewrite !C in G1 by lia. rewrite !C in G2 by lia. rewrite !C in G3 by lia. unfold sumA in *. cbn [Nat.eqb rl rh] in *. lra.
  - intro bounds. assert (G : forall sgs, exists V, r3_pass 0 around12 d15 true 4 sumA sumb bounds sgs [] = (Some V, []) /\ Forall2 (fun sg L => all_faces (sum_rows sg) L) sgs V).
    { induction sgs as [|sg sgs IH]; [exists []; split; [reflexivity|constructor]|]. cbn [r3_pass]. destruct (sum_call sg bounds []) as (L & -> & F). destruct IH as (V & -> & FV). exists (L :: V). split; [reflexivity|now constructor]. }
    destruct (G orthants3) as (V & E & F). unfold orthants3 in F. do 6 (inversion F as [|? ? ? ? _ F' EA EB]; clear F; rename F' into F; subst). inversion F as [|? L ? ? FL _]; subst. eexists. exists L. split; [unfold r3_call; rewrite E; reflexivity|]. split; [reflexivity|].
    apply (all_faces_listed _ L FL). exists (mkrow3 (-1, 0, 0) 1). split; [apply in_or_app; left; now left|]. split; [split|].
    + intros r Hr. unfold sum_rows, sum_head, sum_tail, sgn in Hr. cbn [app In sign3] in Hr. unfold holds3. repeat (destruct Hr as [<-|Hr]; [cbn [nrm off]; unf3; lra|]). destruct Hr.
    + unfold tight3. cbn [nrm off]. unf3. lra.
    + exists (mkrow3 (0, -1, 0) 1), (mkrow3 (0, 0, -1) 1). unfold tight3. cbn [nrm off]. unf3. repeat split; try lra; apply in_or_app; left; simpl; auto.
Qed.
