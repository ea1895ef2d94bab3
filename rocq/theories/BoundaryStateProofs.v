(** Proofs about the slices of IntLinIncR2 and the module variable. *)
From Coq Require Import Reals List Arith Bool Lia Lra Psatz Classical.
From Verif Require Import Exact SpecExact ExactProofs Boundary SpecBoundary BoundaryProofs BoundaryMore BoundaryPath BoundaryWindow BoundaryState.
Import ListNotations.
Open Scope R_scope.

Section Slices.
Variable around : R -> R.
Hypothesis Har : forall x, Rabs (around x - x) <= / 1000000000000.
Lemma exact_rows rows : (forall r, In r rows -> around_row around r = r /\ zero_row r = false) -> fst (clear_zero_rows around rows) = rows.
Proof.
  intro H. unfold clear_zero_rows. cbv zeta. cbn [fst]. induction rows as [|r rows IH]; [reflexivity|]. cbn [map filter]. destruct (H r ltac:(now left)) as [-> Z]. rewrite Z. cbn [negb]. f_equal. apply IH. intros q Hq. apply H. now right.
Qed.
Lemma wl_rows_nonempty uni m sg A b : wl_rows uni m sg A b <> [].
Proof. unfold wl_rows. intro E. apply map_eq_nil in E. assert (L := f_equal (@length nat) E). rewrite seq_length in L. simpl in L. lia. Qed.
Theorem r2_bounded_slice uni m A b bounds k sg : nth_error orthants2 k = Some sg -> let rs := wl_rows uni m sg A b in
  (forall r, In r rs -> around_row around r = r /\ zero_row r = false) -> bounded rs -> separated (/ 100000000) rs -> (exists x, in_set rs x) ->
  exists V, polygon rs V /\ nth_error (int_lin_inc_r2 0 around uni m A b bounds) k = Some (Some (map (listed around) V)).
Proof.
  intros Hk rs Ex Bd Sp I. destruct (lineqs_polygon around Har rs (Some bounds)) as (V & Pg & E); rewrite ?(exact_rows rs Ex) in *; auto.
  exists V. split; [exact Pg|]. unfold int_lin_inc_r2. erewrite map_nth_error by exact Hk. f_equal. exact E.
Qed.
Theorem r2_cut_slice uni m A b w k sg : nth_error orthants2 k = Some sg -> let rs := wl_rows uni m sg A b in
  (forall r, In r rs -> around_row around r = r /\ zero_row r = false) -> ~ bounded rs -> separated (/ 100000000) (rs ++ box_rows w) -> (exists x, in_set (rs ++ box_rows w) x) ->
  exists V, polygon (rs ++ box_rows w) V /\ nth_error (int_lin_inc_r2 0 around uni m A b w) k = Some (Some (map (listed around) V)).
Proof.
  intros Hk rs Ex Bd Sp I. destruct (lineqs_window around Har rs (Some w)) as (V & Pg & E); rewrite ?(exact_rows rs Ex) in *; auto; [apply wl_rows_nonempty|].
  exists V. split; [exact Pg|]. unfold int_lin_inc_r2. erewrite map_nth_error by exact Hk. f_equal. exact E.
Qed.
End Slices.

Section State.
Variables (eps : R) (around : R -> R) (uni : bool) (m : nat) (A : imat) (b : ivec).
Let slices w := map (fun sg => lineqs eps around (wl_rows uni m sg A b) w).
Lemma pass_spec w sgs st : forall V st', r2_pass eps around uni m A b w sgs st = (Some V, st') -> slices w sgs = map Some V.
Proof.
  revert st. induction sgs as [|sg sgs IH]; intros st V st' H; cbn [r2_pass] in H.
  - injection H as <- <-. reflexivity.
  - unfold lineqs_call in H. destruct (lineqs eps around (wl_rows uni m sg A b) w) as [p|] eqn:E; [|discriminate].
    destruct (r2_pass eps around uni m A b w sgs _) as [[ps|] st2] eqn:E2; [|discriminate]. injection H as <- <-. cbn [slices map]. rewrite E. f_equal. exact (IH _ _ _ E2).
Qed.
Lemma pass_given w sgs : forall st, snd (r2_pass eps around uni m A b (Some w) sgs st) = st /\
  (forall V, slices (Some w) sgs = map Some V -> fst (r2_pass eps around uni m A b (Some w) sgs st) = Some V).
Proof.
  induction sgs as [|sg sgs IH]; intro st; cbn [r2_pass].
  - split; [reflexivity|]. intros V E. destruct V; [reflexivity|discriminate].
  - unfold lineqs_call. assert (X : (if unbounded (boundary_intervals eps (fst (clear_zero_rows around (wl_rows uni m sg A b)))) then st else st) = st) by (destruct unbounded; reflexivity). cbv zeta. rewrite X.
    destruct (IH st) as [I1 I2]. destruct (r2_pass eps around uni m A b (Some w) sgs st) as [ps st2] eqn:E2. cbn [fst snd] in *. subst st2.
    destruct (lineqs eps around (wl_rows uni m sg A b) (Some w)) as [p|] eqn:E; cbn [fst snd].
    + split; [reflexivity|]. intros [|v V] H; [discriminate|]. cbn [slices map] in H. rewrite E in H. injection H as -> H. now rewrite (I2 V H).
    + split; [reflexivity|]. intros [|v V] H; [discriminate|]. cbn [slices map] in H. rewrite E in H. discriminate.
Qed.
(** lineqs looks at the window only for an unbounded set *)
Lemma lineqs_no_window rows w w' : unbounded (boundary_intervals eps (fst (clear_zero_rows around rows))) = false -> lineqs eps around rows w = lineqs eps around rows w'.
Proof. intro H. unfold lineqs. cbv zeta. rewrite H. reflexivity. Qed.
Lemma pass_state sgs : forall st, exists add, snd (r2_pass eps around uni m A b None sgs st) = st ++ add /\
  (add = [] -> forall V, fst (r2_pass eps around uni m A b None sgs st) = Some V -> forall w, slices w sgs = slices None sgs).
Proof.
  induction sgs as [|sg sgs IH]; intro st; cbn [r2_pass].
  - exists []. split; [now rewrite app_nil_r|reflexivity].
  - unfold lineqs_call. cbv zeta. destruct (unbounded _) eqn:U.
    + set (c := center_rm _). destruct (lineqs eps around (wl_rows uni m sg A b) None) as [p|].
      * destruct (IH (st ++ [c])) as (add & E & _). destruct (r2_pass _ _ _ _ _ _ _ _ _) as [ps st2]. cbn [fst snd] in *. exists (c :: add). split; [rewrite E, <- app_assoc; reflexivity|discriminate].
      * exists [c]. split; [reflexivity|discriminate].
    + destruct (lineqs eps around (wl_rows uni m sg A b) None) as [p|] eqn:E.
      * destruct (IH st) as (add & E2 & K). destruct (r2_pass _ _ _ _ _ _ _ _ _) as [ps st2] eqn:E3. cbn [fst snd] in *. exists add. split; [exact E2|]. intros Z V HV w. cbn [slices map]. f_equal; [now apply lineqs_no_window|].
        destruct ps as [l|]; [|discriminate]. now apply (K Z l).
      * exists []. cbn [fst snd]. split; [now rewrite app_nil_r|discriminate].
Qed.
(** An answer: four slices cut by one window; the variable is empty after it. *)
Theorem r2_one_window bounds st V st' : r2_call eps around uni m A b bounds st = (Some V, st') -> st' = [] /\ exists w, int_lin_inc_r2 eps around uni m A b w = map Some V.
Proof.
  unfold r2_call. intro H. destruct (r2_pass eps around uni m A b bounds orthants2 st) as [[V1|] st1] eqn:E1; [|discriminate].
  destruct st1 as [|c st1].
  - injection H as <- <-. split; [reflexivity|]. destruct bounds as [w|].
    + exists w. exact (pass_spec _ _ _ _ _ E1).
    + destruct (pass_state orthants2 st) as (add & S1 & S2). rewrite E1 in S1, S2. cbn [fst snd] in S1, S2. symmetry in S1. apply app_eq_nil in S1. destruct S1 as [_ ->].
      exists ((0, 0), (0, 0)). transitivity (slices None orthants2); [apply (S2 eq_refl V1 eq_refl) | exact (pass_spec _ _ _ _ _ E1)].
  - set (M := maxs (c :: st1)) in *. destruct (r2_pass eps around uni m A b (Some ((- M, - M), (M, M))) orthants2 (c :: st1)) as [[V2|] st2] eqn:E2; [|discriminate].
    injection H as <- <-. split; [reflexivity|]. exists ((- M, - M), (M, M)). exact (pass_spec _ _ _ _ _ E2).
Qed.
(** A given window is used when the variable is empty. *)
Theorem r2_given_window w V : int_lin_inc_r2 eps around uni m A b w = map Some V <-> r2_call eps around uni m A b (Some w) [] = (Some V, []).
Proof.
  unfold r2_call. destruct (pass_given w orthants2 []) as [P1 P2]. split.
  - intro H. specialize (P2 V H). destruct (r2_pass eps around uni m A b (Some w) orthants2 []) as [V1 st1]. cbn [fst snd] in *. subst. reflexivity.
  - intro H. destruct (r2_pass eps around uni m A b (Some w) orthants2 []) as [V1 st1] eqn:E. cbn [fst snd] in *. subst st1. destruct V1 as [V1|]; [|discriminate]. injection H as ->. exact (pass_spec _ _ _ _ _ E).
Qed.
End State.
(** Histories of IntLinIncR2 calls that return leave nothing behind. *)
Lemma history_snoc eps around cs c : history eps around (cs ++ [c]) = after eps around c (history eps around cs).
Proof. unfold history. now rewrite fold_left_app. Qed.
Theorem r2_history eps around cs c : returns eps around c (history eps around cs) -> history eps around (cs ++ [c]) = [].
Proof.
  intro H. rewrite history_snoc. destruct c as [rows bounds|uni m A b bounds]; [destruct H|]. cbn [returns after] in *.
  destruct (r2_call eps around uni m A b bounds (history eps around cs)) as [[V|] st'] eqn:E; [|cbn [fst] in H; congruence]. apply (r2_one_window eps around uni m A b) in E. apply E.
Qed.
Theorem given_history eps around cs : (forall c, In c cs -> exists rows w, c = CallLineqs rows (Some w)) -> history eps around cs = [].
Proof.
  intro H. assert (K : forall cs st, (forall c, In c cs -> exists rows w, c = CallLineqs rows (Some w)) -> fold_left (fun st c => after eps around c st) cs st = st); [|now apply K].
  clear. induction cs as [|c cs IH]; intros st H; [reflexivity|]. cbn [fold_left]. destruct (H c ltac:(now left)) as (rows & w & ->). cbn [after]. unfold lineqs_call. cbn [snd]. destruct unbounded; apply IH; intros c Hc; apply H; now right.
Qed.

(** ** A given window is ignored after a call of lineqs *)
Definition zeroA : imat := fun _ _ => mkr 0 0.
Definition zerob : ivec := fun _ => mkr 0 0.
Definition unit_coord (t : R) : Prop := t = -1 \/ t = 0 \/ t = 1.
Definition axis_row (r : row) : Prop := (a1 r = 0 /\ (a0 r = 1 \/ a0 r = -1) \/ a0 r = 0 /\ (a1 r = 1 \/ a1 r = -1)) /\ unit_coord (rhs r).
Lemma axis_vertex rows x : (forall r, In r rows -> axis_row r) -> vertex rows x -> unit_coord (fst x) /\ unit_coord (snd x).
Proof.
  intros H [_ (r & s & Hr & Hs & Tr & Ts & Np)]. apply H in Hr. apply H in Hs. unfold tight, parallel in *. destruct Hr as [[[E1 E2]|[E1 E2]] Ur], Hs as [[[F1 F2]|[F1 F2]] Us]; rewrite E1, F1 in *; try (exfalso; apply Np; ring).
  - unfold unit_coord in *. destruct E2 as [E2|E2], F2 as [F2|F2]; rewrite E2 in Tr; rewrite F2 in Ts; lra.
  - unfold unit_coord in *. destruct E2 as [E2|E2], F2 as [F2|F2]; rewrite E2 in Tr; rewrite F2 in Ts; lra.
Qed.
Lemma unit_sep a c : unit_coord a -> unit_coord c -> a = c \/ / 100000000 < Rabs (a - c).
Proof. intros [-> |[-> | ->]] [-> |[-> | ->]]; try (left; reflexivity); right; unfold Rabs; destruct Rcase_abs; lra. Qed.
Lemma axis_separated rows : (forall r, In r rows -> axis_row r) -> separated (/ 100000000) rows.
Proof.
  intros H x y Hx Hy. destruct (axis_vertex rows x H Hx) as [A1 A2]. destruct (axis_vertex rows y H Hy) as [B1 B2]. destruct (unit_sep _ _ A1 B1) as [E1|]; [|auto]. destruct (unit_sep _ _ A2 B2) as [E2|]; [|auto]. left. destruct x, y; simpl in *; congruence.
Qed.
Definition sign_rows (sg : nat -> bool) : list row := [mkrow (if sg 0%nat then -1 else 1) 0 0; mkrow 0 (if sg 1%nat then -1 else 1) 0].
Lemma zero_rows sg : fst (clear_zero_rows (fun x => x) (wl_rows true 1 sg zeroA zerob)) = sign_rows sg.
Proof.
  unfold wl_rows, clear_zero_rows, around_row, neg_mat, neg_vec, wl_A, wl_b, wl_tmp, sign_rows. simpl. unfold zero_row; cbn [a0 a1].
  assert (Z : tiny (- 0) = true) by (apply tiny_zero; lra). assert (Z' : tiny (- - 0) = true) by (apply tiny_zero; lra). assert (O1 : tiny (- (1)) = false) by (apply tiny_one; lra). assert (O2 : tiny (- -1) = false) by (apply tiny_one; lra).
  destruct (sg 0%nat), (sg 1%nat); cbn [rl rh zeroA]; rewrite ?Z, ?Z', ?O1, ?O2; cbn [andb negb]; repeat match goal with |- _ :: _ = _ :: _ => f_equal end; f_equal; lra.
Qed.
Lemma sign_unbounded sg : ~ bounded (sign_rows sg).
Proof.
  intros (B & HB). set (t := (if sg 0%nat then -1 else 1) * (Rabs B + 1)). destruct (HB (t, 0)) as [X _].
  - intros r [<-|[<-|[]]]; unfold holds, t; simpl; assert (P := Rabs_pos B); destruct (sg 0%nat); lra.
  - cbn [fst] in X. assert (Q := Rle_abs B). assert (P := Rabs_pos B). unfold t in X. rewrite Rabs_mult in X. replace (Rabs (if sg 0%nat then -1 else 1)) with 1 in X by (destruct (sg 0%nat); unfold Rabs; destruct Rcase_abs; lra). rewrite (Rabs_pos_eq (Rabs B + 1)) in X by lra. lra.
Qed.
Lemma sign_slice sg t : t = 0 \/ t = 1 -> exists V, polygon (sign_rows sg ++ box_rows ((- t, - t), (t, t))) V /\ lineqs 0 (fun x => x) (wl_rows true 1 sg zeroA zerob) (Some ((- t, - t), (t, t))) = Some (map (listed (fun x => x)) V).
Proof.
  intro Ht. assert (X := lineqs_window (fun x => x) id_around (wl_rows true 1 sg zeroA zerob) (Some ((- t, - t), (t, t)))). cbv zeta in X. rewrite zero_rows in X. apply X.
  - discriminate.
  - apply sign_unbounded.
  - apply axis_separated. intros r Hr. apply in_app_or in Hr. destruct Hr as [[<-|[<-|[]]]|[<-|[<-|[<-|[<-|[]]]]]]; unfold axis_row, unit_coord; simpl; (split; [|destruct Ht as [-> | ->]; lra]); [destruct (sg 0%nat); lra|destruct (sg 1%nat); lra|lra..].
  - exists (0, 0). apply in_set_app. split; [intros r [<-|[<-|[]]]; unfold holds; simpl; lra | apply in_box; simpl; destruct Ht as [-> | ->]; lra].
Qed.
Lemma all_slices t : t = 0 \/ t = 1 -> exists Vs, int_lin_inc_r2 0 (fun x => x) true 1 zeroA zerob ((- t, - t), (t, t)) = map Some (map (map (listed (fun x => x))) Vs) /\ exists V Vs', Vs = V :: Vs' /\ polygon (sign_rows (fun _ => false) ++ box_rows ((- t, - t), (t, t))) V.
Proof.
  intro Ht. unfold int_lin_inc_r2, orthants2. destruct (sign_slice (fun _ => false) t Ht) as (V1 & P1 & E1). destruct (sign_slice (fun k => (k =? 0)%nat) t Ht) as (V2 & P2 & E2). destruct (sign_slice (fun _ => true) t Ht) as (V3 & P3 & E3). destruct (sign_slice (fun k => (k =? 1)%nat) t Ht) as (V4 & P4 & E4).
  exists [V1; V2; V3; V4]. split; [|eauto]. cbn [map] in *. repeat f_equal; assumption.
Qed.
Theorem stale_window_refuted : exists cs A b w V V', history 0 (fun x => x) cs <> [] /\
  fst (r2_call 0 (fun x => x) true 1 A b (Some w) []) = Some V /\ fst (r2_call 0 (fun x => x) true 1 A b (Some w) (history 0 (fun x => x) cs)) = Some V' /\ V <> V'.
Proof.
  exists [CallLineqs quadrant None], zeroA, zerob, ((- (1), - (1)), (1, 1)).
  assert (Hst : history 0 (fun x => x) [CallLineqs quadrant None] = [0]).
  { unfold history. cbn [fold_left after]. unfold lineqs_call. cbn [snd app]. rewrite quadrant_clear.
    rewrite (unbounded_detected quadrant) with (x0 := (1, 1)); [|intros r [<-|[<-|[]]]; unfold nonzero; simpl; lra|discriminate|apply default_window_point|apply default_window_point].
    f_equal. unfold center_rm. cbv zeta. set (PP := feet _ _).
    assert (H : forall p, In p PP -> p = (0, 0)). { intros p Hp. unfold PP, feet in Hp. apply in_map_iff in Hp. destruct Hp as (s & <- & _). destruct (s_idx s) as [|[|[|i]]]; cbn [nth quadrant]; unfold foot; simpl; f_equal; unfold Rdiv; ring. }
    assert (F1 : Forall (fun t => t = 0) (map fst PP)) by (apply Forall_forall; intros t Ht; apply in_map_iff in Ht; destruct Ht as (p & <- & Hp); now rewrite (H p Hp)). assert (F2 : Forall (fun t => t = 0) (map snd PP)) by (apply Forall_forall; intros t Ht; apply in_map_iff in Ht; destruct Ht as (p & <- & Hp); now rewrite (H p Hp)).
    destruct (mins_zero _ F1) as [-> ->]. destruct (mins_zero _ F2) as [-> ->]. replace ((0 - 0) / 2) with 0 by field. replace ((0 + 0) / 2) with 0 by field. rewrite Rabs_R0. rewrite !Rmax_left by lra. ring. }
  destruct (all_slices 1 ltac:(now right)) as (Vs & E1 & V1 & Vr & Ev & P1). destruct (all_slices 0 ltac:(now left)) as (Us & E0 & U1 & Ur & Eu & P0).
  exists (map (map (listed (fun x => x))) Vs), (map (map (listed (fun x => x))) Us). rewrite Hst. split; [discriminate|]. split; [|split].
  - apply (r2_given_window 0 (fun x => x) true 1 zeroA zerob) in E1. now rewrite E1.
  - unfold r2_call. destruct (pass_given 0 (fun x => x) true 1 zeroA zerob ((- (1), - (1)), (1, 1)) orthants2 [0]) as [Q1 Q2]. specialize (Q2 _ E1). destruct (r2_pass _ _ _ _ _ _ _ _ _) as [W st1]. cbn [fst snd] in Q1, Q2. subst W st1. cbv zeta. change (maxs [0]) with 0.
    destruct (pass_given 0 (fun x => x) true 1 zeroA zerob ((- 0, - 0), (0, 0)) orthants2 [0]) as [R1 R2]. specialize (R2 _ E0). destruct (r2_pass _ _ _ _ _ _ _ _ _) as [W st1]. cbn [fst snd] in R1, R2. subst W st1. reflexivity.
  - subst Vs Us. cbn [map]. intro E. injection E as E _. destruct P1 as (_ & H1 & _), P0 as (_ & H0 & _).
    assert (In (1, 1) V1) as I. { apply H1. split; [|exists (mkrow (-1) 0 (- (1))), (mkrow 0 (-1) (- (1))); unfold tight, parallel; simpl; repeat split; auto 10; lra]. apply in_set_app. split; [intros r [<-|[<-|[]]]; unfold holds; simpl; lra | apply in_box; simpl; lra]. }
    apply (in_map (listed (fun x => x))) in I. rewrite E in I. apply in_map_iff in I. destruct I as (p & Ep & Hp). apply H0 in Hp. destruct Hp as [Hp _]. apply in_set_app in Hp. destruct Hp as [_ Hp]. apply in_box in Hp. unfold listed in Ep. injection Ep as Ea Eb. simpl in Hp. lra.
Qed.
