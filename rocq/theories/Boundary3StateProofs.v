(** Proofs about IntLinIncR3 and the shared module variable. *)
From Coq Require Import Reals ZArith List Bool Arith Lia Lra Psatz Classical.
From Flocq Require Import Core.
From Verif Require Import Exact SpecExact ExactProofs Boundary SpecBoundary BoundaryProofs BoundaryMore BoundaryPath BoundaryWindow BoundaryState BoundaryStateProofs Boundary3 SpecBoundary3 Boundary3Plane Boundary3Proofs Boundary3Cases BoundaryHull Boundary3Sound Boundary3State SpecBoundary3State.
Import ListNotations.
Open Scope R_scope.

(** ** One window for all slices *)
Section State.
Variables (eps : R) (around : R -> R) (d : R) (uni : bool) (m : nat) (A : imat) (b : ivec).
Let slices w := map (fun sg => lineqs3 eps around (wl_rows3 d uni m sg A b) w).
Lemma pass3_spec w sgs st : forall V st', r3_pass eps around d uni m A b w sgs st = (Some V, st') -> slices w sgs = map Some V.
Proof.
  revert st. induction sgs as [|sg sgs IH]; intros st V st' H; cbn [r3_pass] in H.
  - injection H as <- <-. reflexivity.
  - unfold lineqs3_call in H. cbv zeta in H. destruct (lineqs3 eps around (wl_rows3 d uni m sg A b) w) as [p|] eqn:E; [|discriminate].
    destruct (r3_pass eps around d uni m A b w sgs _) as [[ps|] st2] eqn:E2; [|discriminate]. injection H as <- <-. cbn [slices map]. rewrite E. f_equal. exact (IH _ _ _ E2).
Qed.
Lemma call3_given rows w st : snd (lineqs3_call eps around rows (Some w) st) = st.
Proof. unfold lineqs3_call. cbn [snd]. destruct (length _ =? 1)%nat; reflexivity. Qed.
Lemma pass3_given w sgs : forall st, snd (r3_pass eps around d uni m A b (Some w) sgs st) = st /\
  (forall V, slices (Some w) sgs = map Some V -> fst (r3_pass eps around d uni m A b (Some w) sgs st) = Some V).
Proof.
  induction sgs as [|sg sgs IH]; intro st; cbn [r3_pass].
  - split; [reflexivity|]. intros V E. destruct V; [reflexivity|discriminate].
  - assert (X := call3_given (wl_rows3 d uni m sg A b) w st). rewrite (surjective_pairing (lineqs3_call _ _ _ _ _)), X. change (fst (lineqs3_call eps around (wl_rows3 d uni m sg A b) (Some w) st)) with (lineqs3 eps around (wl_rows3 d uni m sg A b) (Some w)).
    destruct (IH st) as [I1 I2]. destruct (r3_pass eps around d uni m A b (Some w) sgs st) as [ps st2] eqn:E2. cbn [fst snd] in *. subst st2.
    destruct (lineqs3 eps around (wl_rows3 d uni m sg A b) (Some w)) as [p|] eqn:E; cbn [fst snd].
    + split; [reflexivity|]. intros [|v V] H; [discriminate|]. cbn [slices map] in H. rewrite E in H. injection H as -> H. now rewrite (I2 V H).
    + split; [reflexivity|]. intros [|v V] H; [discriminate|]. cbn [slices map] in H. rewrite E in H. discriminate.
Qed.
(** lineqs3D looks at the window only for an unbounded set *)
Lemma lineqs3_no_window rows w w' : existsb snd (probes eps around (prepared around rows)) = false -> lineqs3 eps around rows w = lineqs3 eps around rows w'.
Proof. intro H. unfold lineqs3. cbv zeta. rewrite H. reflexivity. Qed.
(** Without bounds a call either leaves the variable and would have given the
    same answer with any window, or raises, or appends. *)
Lemma call3_none rows st P st' : lineqs3_call eps around rows None st = (Some P, st') -> st' = st /\ (forall w, lineqs3 eps around rows w = Some P) \/ exists c, st' = st ++ [c].
Proof.
  unfold lineqs3_call. cbv zeta. intro H. injection H as H1 H2. destruct (length (prepared around rows) =? 1)%nat eqn:L1; [unfold lineqs3 in H1; rewrite L1 in H1; discriminate|].
  destruct (existsb snd (probes eps around (prepared around rows))) eqn:U.
  - destruct (all_points _) as [ps|] eqn:EA.
    + destruct (default3 ps) as [c rm]. right. eauto.
    + left. split; [auto|]. intro w. unfold lineqs3 in *. rewrite L1, U in *. cbv zeta in *. destruct (flat_map fst (probes eps around (prepared around rows))) as [|e l]; [discriminate|]. rewrite EA in H1. discriminate.
  - left. split; [auto|]. intro w. rewrite (lineqs3_no_window rows w None U). exact H1.
Qed.
Lemma pass3_state sgs : forall st V st', r3_pass eps around d uni m A b None sgs st = (Some V, st') -> exists add, st' = st ++ add /\ (add = [] -> forall w, slices w sgs = map Some V).
Proof.
  induction sgs as [|sg sgs IH]; intros st V st' H; cbn [r3_pass] in H.
  - injection H as <- <-. exists []. split; [now rewrite app_nil_r|reflexivity].
  - destruct (lineqs3_call eps around (wl_rows3 d uni m sg A b) None st) as [[p|] st1] eqn:E1; [|discriminate]. destruct (r3_pass eps around d uni m A b None sgs st1) as [[ps|] st2] eqn:E2; [|discriminate]. injection H as <- <-.
    destruct (IH st1 ps st2 E2) as (add & -> & K). apply call3_none in E1. destruct E1 as [[-> W]|(c & ->)].
    + exists add. split; [reflexivity|]. intros Z w. cbn [slices map]. rewrite (W w). f_equal. now apply K.
    + exists (c :: add). split; [now rewrite <- app_assoc|discriminate].
Qed.
Theorem r3_one_window bounds st V st' : r3_call eps around d uni m A b bounds st = (Some V, st') -> st' = [] /\ exists w, int_lin_inc_r3 eps around d uni m A b w = map Some V.
Proof.
  unfold r3_call. intro H. destruct (r3_pass eps around d uni m A b bounds orthants3 st) as [[V1|] st1] eqn:E1; [|discriminate].
  destruct st1 as [|c st1].
  - injection H as <- <-. split; [reflexivity|]. destruct bounds as [w|].
    + exists w. exact (pass3_spec _ _ _ _ _ E1).
    + destruct (pass3_state orthants3 st V1 [] E1) as (add & S1 & S2). symmetry in S1. apply app_eq_nil in S1. destruct S1 as [_ ->].
      exists ((0, 0, 0), (0, 0, 0)). exact (S2 eq_refl (Some _)).
  - set (M := maxs (c :: st1)) in *. destruct (r3_pass eps around d uni m A b (Some ((- M, - M, - M), (M, M, M))) orthants3 (c :: st1)) as [[V2|] st2] eqn:E2; [|discriminate].
    injection H as <- <-. split; [reflexivity|]. exists ((- M, - M, - M), (M, M, M)). exact (pass3_spec _ _ _ _ _ E2).
Qed.
Theorem r3_given_window w V : int_lin_inc_r3 eps around d uni m A b w = map Some V <-> r3_call eps around d uni m A b (Some w) [] = (Some V, []).
Proof.
  unfold r3_call. destruct (pass3_given w orthants3 []) as [P1 P2]. split.
  - intro H. specialize (P2 V H). destruct (r3_pass eps around d uni m A b (Some w) orthants3 []) as [V1 st1]. cbn [fst snd] in *. subst. reflexivity.
  - intro H. destruct (r3_pass eps around d uni m A b (Some w) orthants3 []) as [V1 st1] eqn:E. cbn [fst snd] in *. subst st1. destruct V1 as [V1|]; [|discriminate]. injection H as ->. exact (pass3_spec _ _ _ _ _ E).
Qed.
End State.
Theorem r3_history eps around cs c : returns3 eps around c (history3 eps around cs) -> history3 eps around (cs ++ [c]) = [].
Proof.
  unfold history3. rewrite fold_left_app. cbn [fold_left]. set (st := fold_left _ cs []). destruct c as [c|rows bounds|d uni m A b bounds]; cbn [returns3 after3]; [|intros []|].
  - destruct c as [rows bounds|uni m A b bounds]; cbn [returns after]; [intros []|]. intro H. destruct (r2_call eps around uni m A b bounds st) as [[V|] st'] eqn:E; [|destruct (H eq_refl)]. cbn [snd]. exact (proj1 (r2_one_window _ _ _ _ _ _ _ _ _ _ E)).
  - intro H. destruct (r3_call eps around d uni m A b bounds st) as [[V|] st'] eqn:E; [|destruct (H eq_refl)]. cbn [snd]. exact (proj1 (r3_one_window _ _ _ _ _ _ _ _ _ _ _ E)).
Qed.

(** ** Rounding that changes nothing *)
Definition fixes (around : R -> R) (rs : list row3) : Prop := forall r s, In r rs -> In s rs -> around_row3 around r = r /\ around_row around (cv_row (nrm r) (off r) (nrm s) (off s)) = cv_row (nrm r) (off r) (nrm s) (off s).
Section Fixed.
Variable around : R -> R.
Lemma plane_fixed rs k r : fixes around rs -> nth_error rs k = Some r -> plane around rs k r = plane idr rs k r.
Proof.
  intros F Hk. assert (Hr : In r rs) by (eapply nth_error_In; exact Hk). unfold plane, clear_zero_rows. replace (map (around_row around) (plane_rows rs k r)) with (map (around_row idr) (plane_rows rs k r)); [reflexivity|].
  apply map_ext_in. intros q Hq. unfold plane_rows in Hq. apply in_map_iff in Hq. destruct Hq as (s & <- & Hs). rewrite (proj2 (F r s Hr (drop_nth_in k rs s Hs))). reflexivity.
Qed.
Lemma each_ext {T} (f g : nat -> row3 -> T) rs : (forall k r, nth_error rs k = Some r -> f k r = g k r) -> each f rs = each g rs.
Proof.
  intro H. unfold each. assert (G : forall l s, (forall j r, nth_error l j = Some r -> f (s + j)%nat r = g (s + j)%nat r) -> map (fun p => f (fst p) (snd p)) (combine (seq s (length l)) l) = map (fun p => g (fst p) (snd p)) (combine (seq s (length l)) l)).
  { induction l as [|r l IH]; intros s K; [reflexivity|]. cbn [length seq combine map fst snd]. f_equal; [rewrite <- (Nat.add_0_r s); now apply K|]. apply IH. intros j q Hq. rewrite Nat.add_succ_comm. now apply K. }
  apply G. exact H.
Qed.
Lemma probes_fixed rs : fixes around rs -> probes 0 around rs = probes 0 idr rs.
Proof. intro F. apply each_ext. intros k r Hk. unfold probe. now rewrite (plane_fixed rs k r F Hk). Qed.
Lemma polygons_fixed rs : fixes around rs -> polygons 0 around rs = polygons 0 idr rs.
Proof. intro F. unfold polygons. f_equal. apply each_ext. intros k r Hk. unfold polygon_of. now rewrite (plane_fixed rs k r F Hk). Qed.
Lemma prepared_fixed rows : (forall t, around (around t) = around t) -> told_apart (prepared around rows).
Proof.
  intro Idem. split; [apply first_keys_nodup|]. intros r Hr. apply prepared_nonzero in Hr. destruct Hr as (q & _ & -> & D). replace (around_row3 around (around_row3 around q)) with (around_row3 around q); [exact D|]. unfold around_row3; cbn [nrm off]; unf3; now rewrite !Idem.
Qed.
Theorem lineqs3_fixed rows w : (forall t, around (around t) = around t) -> let rs := prepared around rows in fixes around (rs ++ box3 w) -> lineqs3 0 around rows (Some w) = lineqs3 0 idr rs (Some w).
Proof.
  intros Idem rs F. assert (F0 : fixes around rs) by (intros r s Hr Hs; apply F; apply in_or_app; now left). unfold lineqs3. rewrite (prepared_told_apart rs (prepared_fixed rows Idem)). fold rs. rewrite (probes_fixed rs F0), (polygons_fixed rs F0), (polygons_fixed _ F). reflexivity.
Qed.
Theorem lineqs3_fixed_bounded rows bounds st : (forall t, around (around t) = around t) -> let rs := prepared around rows in fixes around rs -> all_apart rs -> bounded3 rs ->
  lineqs3_call 0 around rows bounds st = (lineqs3 0 idr rs bounds, st).
Proof.
  intros Idem rs F Ap Bd. assert (U : existsb snd (probes 0 idr rs) = false) by now apply probes_bounded. unfold lineqs3_call. fold rs. rewrite (probes_fixed rs F), U. f_equal.
  - unfold lineqs3. rewrite (prepared_told_apart rs (prepared_fixed rows Idem)). fold rs. rewrite (probes_fixed rs F), U, (polygons_fixed rs F). reflexivity.
  - destruct (length rs =? 1)%nat, bounds; reflexivity.
Qed.
End Fixed.

(** ** numpy.around with twelve decimals *)
Lemma around12_near x : Rabs (around12 x - x) <= / 2000000000000.
Proof.
  unfold around12. assert (H := Znearest_half (fun x => negb (Z.even x)) (x * 1000000000000)). fold ZnearestE in H.
  replace (IZR (ZnearestE (x * 1000000000000)) / 1000000000000 - x) with (- ((x * 1000000000000 - IZR (ZnearestE (x * 1000000000000))) * / 1000000000000)) by field.
  rewrite Rabs_Ropp, Rabs_mult, (Rabs_pos_eq (/ 1000000000000)) by lra. lra.
Qed.
Lemma around12_grid z : around12 (IZR z / 1000000000000) = IZR z / 1000000000000.
Proof. unfold around12. replace (IZR z / 1000000000000 * 1000000000000) with (IZR z) by field. f_equal. f_equal. apply Znearest_imp. rewrite Rminus_diag_eq, Rabs_R0 by reflexivity. lra. Qed.
Lemma around12_idem x : around12 (around12 x) = around12 x.
Proof. unfold around12 at 2 3. apply around12_grid. Qed.
Lemma around12_close z x : Rabs (x - IZR z) < / 2000000000000 -> around12 x = IZR z.
Proof.
  intro H. unfold around12. replace (ZnearestE (x * 1000000000000)) with (z * 1000000000000)%Z; [rewrite mult_IZR; field|]. symmetry. apply Znearest_imp. rewrite mult_IZR. replace (x * 1000000000000 - IZR z * 1000000000000) with ((x - IZR z) * 1000000000000) by ring. rewrite Rabs_mult, (Rabs_pos_eq 1000000000000) by lra. lra.
Qed.
Lemma around12_int z : around12 (IZR z) = IZR z.
Proof. apply around12_close. rewrite Rminus_diag_eq, Rabs_R0 by reflexivity. lra. Qed.
Definition int (t : R) : Prop := exists z, t = IZR z.
Lemma int_fixed t : int t -> around12 t = t.
Proof. intros (z & ->). apply around12_int. Qed.
Lemma int_add s t : int s -> int t -> int (s + t).
Proof. intros (a & ->) (c & ->). exists (a + c)%Z. now rewrite plus_IZR. Qed.
Lemma int_mul s t : int s -> int t -> int (s * t).
Proof. intros (a & ->) (c & ->). exists (a * c)%Z. now rewrite mult_IZR. Qed.
Lemma int_opp t : int t -> int (- t).
Proof. intros (a & ->). exists (- a)%Z. now rewrite opp_IZR. Qed.
Definition int3 (x : v3) : Prop := int (x1 x) /\ int (x2 x) /\ int (x3 x).
Lemma int_dot x y : int3 x -> int3 y -> int (dot3 x y).
Proof. intros (A & B & C) (D & E & F). unfold dot3. repeat apply int_add; now apply int_mul. Qed.
Lemma int_y1 a : int3 a -> int3 (cv_y1 a).
Proof. intros (A & B & C). destruct (y1_cases a) as [->|[->| ->]]; (split; [|split]); unfold x1, x2, x3 in *; cbn [fst snd]; try assumption; try (now apply int_opp); exists 0%Z; reflexivity. Qed.
Lemma int_cross a c : int3 a -> int3 c -> int3 (cross3 a c).
Proof. intros (A & B & C) (D & E & F). unfold cross3. split; [|split]; [unfold x1 at 1|unfold x2 at 1|unfold x3 at 1]; cbn [fst snd]; unfold Rminus; apply int_add; try apply int_opp; now apply int_mul. Qed.
Lemma int_fixes rs : (forall r, In r rs -> int3 (nrm r) /\ int (off r) /\ int3 (cv_xi (nrm r) (off r))) -> fixes around12 rs.
Proof.
  intros H r s Hr Hs. destruct (H r Hr) as (A & B & C). destruct (H s Hs) as (D & E & _). split.
  - unfold around_row3. destruct A as (A1 & A2 & A3). rewrite !int_fixed by assumption. destruct r as [[[a c] e] o]. reflexivity.
  - unfold around_row, cv_row. cbn [a0 a1 rhs]. rewrite !int_fixed; [reflexivity| | |].
    + unfold Rminus. apply int_add; [exact E|]. apply int_opp. now apply int_dot.
    + apply int_dot; [exact D|]. unfold cv_y2. apply int_cross; [exact A|now apply int_y1].
    + apply int_dot; [exact D|]. now apply int_y1.
Qed.
