(** The window IntLinIncR2 chooses when none is given. *)
From Coq Require Import Reals List Arith Bool Lia Lra.
From Verif Require Import Exact SpecExact Boundary SpecBoundary BoundaryProofs BoundaryMore BoundaryPath BoundaryWindow BoundaryState BoundaryStateProofs.
Import ListNotations.
Open Scope R_scope.

Lemma maxs_ge l t : In t l -> t <= maxs l.
Proof.
  destruct l as [|a l]; [intros []|]. cbn [maxs]. intro H.
  assert (G : forall l a, a <= fold_left Rmax l a /\ forall t, In t l -> t <= fold_left Rmax l a).
  { clear. induction l as [|b l IH]; intro a; cbn [fold_left]; [split; [lra|intros t []]|]. destruct (IH (Rmax a b)) as [I1 I2]. split; [eapply Rle_trans; [apply Rmax_l|exact I1]|].
    intros t [<-|Ht]; [eapply Rle_trans; [apply Rmax_r|exact I1]|now apply I2]. }
  destruct (G l a) as [G1 G2]. destruct H as [<-|H]; auto.
Qed.
Section Default.
Variables (around : R -> R) (uni : bool) (m : nat) (A : imat) (b : ivec).
(** A point of the answer of lineqs for an unbounded set lies in the window it chose. *)
Lemma lineqs_in_window rows P : let rs := fst (clear_zero_rows around rows) in unbounded (boundary_intervals 0 rs) = true ->
  lineqs 0 around rows None = Some P -> forall p u, In p P -> finite_at p u ->
  exists v, fst u = around (fst v) /\ snd u = around (snd v) /\ Rabs (fst v) <= center_rm (feet rs (boundary_intervals 0 rs)) /\ Rabs (snd v) <= center_rm (feet rs (boundary_intervals 0 rs)).
Proof.
  intros rs U H p u Hp Fu. unfold lineqs in H. fold rs in H. cbv zeta in H.
  assert (Nz : forall r, In r rs -> nonzero r) by apply cleared_nonzero.
  destruct (boundary_intervals 0 rs) as [|s0 S0] eqn:ES; [discriminate|]. rewrite <- ES in *. rewrite U in H.
  set (S' := boundary_intervals 0 (rs ++ _)) in H. destruct (intervals2path S') as [Q|] eqn:EQ; [|discriminate]. injection H as <-.
  apply unique_spec in Hp. destruct Hp as (q & Hq & ->). destruct (path_in S' Q q EQ Hq) as (s & Hs & E).
  assert (Fq : exists v, finite_at q v /\ fst u = around (fst v) /\ snd u = around (snd v)).
  { unfold finite_at, around_ept in Fu. destruct q as [[x| | |] [y| | |]]; simpl in Fu; try discriminate. injection Fu as U1 U2. exists (x, y). split; [reflexivity|]. simpl. auto. }
  destruct Fq as (v & Fv & V1 & V2). exists v. split; [exact V1|split; [exact V2|]].
  assert (K : in_set (rs ++ box_rows (window (feet rs (boundary_intervals 0 rs)))) v).
  { apply (seg_ends _ s q v); auto. intros r Hr. apply in_app_iff in Hr. destruct Hr as [Hr|Hr]; [auto | now apply BoundaryMore.box_nonzero in Hr]. }
  set (F := feet rs (boundary_intervals 0 rs)) in *.
  assert (K' : forall r, In r (box_rows (window F)) -> holds r v) by (intros r Hr; apply K; apply in_app_iff; now right).
  assert (K1 := K' _ (or_introl eq_refl)). assert (K2 := K' _ (or_intror (or_introl eq_refl))). assert (K3 := K' _ (or_intror (or_intror (or_introl eq_refl)))). assert (K4 := K' _ (or_intror (or_intror (or_intror (or_introl eq_refl))))).
  clear K K'. unfold center_rm. cbv zeta. unfold window, holds in *. cbv zeta in *. cbn [a0 a1 rhs fst snd] in *.
  set (cx := (mins (map fst F) + maxs (map fst F)) / 2) in *. set (cy := (mins (map snd F) + maxs (map snd F)) / 2) in *. set (rm := Rmax _ _) in *.
  assert (T1 := Rmax_l (Rabs cx + 5 * rm) (Rabs cy + 5 * rm)). assert (T2 := Rmax_r (Rabs cx + 5 * rm) (Rabs cy + 5 * rm)).
  split.
  - eapply Rle_trans; [|exact T1]. unfold Rabs. repeat destruct Rcase_abs; lra.
  - eapply Rle_trans; [|exact T2]. unfold Rabs. repeat destruct Rcase_abs; lra.
Qed.
(** What the first pass leaves: a bound for every unbounded slice. *)
Lemma pass_default sgs : forall st V st1, r2_pass 0 around uni m A b None sgs st = (Some V, st1) ->
  (forall c, In c st -> In c st1) /\
  forall sg, In sg sgs -> exists P, lineqs 0 around (wl_rows uni m sg A b) None = Some P /\
    ((forall w, lineqs 0 around (wl_rows uni m sg A b) w = Some P) \/
     exists c, In c st1 /\ forall p u, In p P -> finite_at p u -> exists v, fst u = around (fst v) /\ snd u = around (snd v) /\ Rabs (fst v) <= c /\ Rabs (snd v) <= c).
Proof.
  induction sgs as [|sg sgs IH]; intros st V st1 H; cbn [r2_pass] in H.
  - injection H as <- <-. split; [auto|intros ? []].
  - unfold lineqs_call in H. cbv zeta in H. set (rs := fst (clear_zero_rows around (wl_rows uni m sg A b))) in H. set (st0 := if unbounded _ then _ else _) in H.
    destruct (lineqs 0 around (wl_rows uni m sg A b) None) as [p|] eqn:E; [|discriminate]. destruct (r2_pass 0 around uni m A b None sgs st0) as [[ps|] st2] eqn:E2; [|discriminate].
    injection H as <- <-. destruct (IH _ _ _ E2) as [I1 I2].
    assert (Inc : forall c, In c st -> In c st0) by (intros c Hc; unfold st0; destruct unbounded; [apply in_or_app; now left|exact Hc]).
    split; [intros c Hc; apply I1, Inc, Hc|]. intros sg' [<-|Hs]; [|now apply I2]. exists p. split; [exact E|].
    destruct (unbounded (boundary_intervals 0 rs)) eqn:U.
    + right. exists (center_rm (feet rs (boundary_intervals 0 rs))). split; [apply I1; unfold st0; apply in_or_app; right; now left|]. apply lineqs_in_window; [exact U|exact E].
    + left. intro w. rewrite <- E. apply lineqs_no_window. exact U.
Qed.
Theorem r2_default_window st V st' : r2_call 0 around uni m A b None st = (Some V, st') ->
  exists M, int_lin_inc_r2 0 around uni m A b ((- M, - M), (M, M)) = map Some V /\
  forall sg, In sg orthants2 -> exists P, lineqs 0 around (wl_rows uni m sg A b) None = Some P /\
    ((forall w, lineqs 0 around (wl_rows uni m sg A b) w = Some P) \/
     forall p u, In p P -> finite_at p u -> exists v, fst u = around (fst v) /\ snd u = around (snd v) /\ Rabs (fst v) <= M /\ Rabs (snd v) <= M).
Proof.
  unfold r2_call. intro H. destruct (r2_pass 0 around uni m A b None orthants2 st) as [[V1|] st1] eqn:E1; [|discriminate]. destruct (pass_default _ _ _ _ E1) as [_ D].
  destruct st1 as [|c st1].
  - injection H as <- <-. exists 0. assert (D' : forall sg, In sg orthants2 -> exists P, lineqs 0 around (wl_rows uni m sg A b) None = Some P /\ forall w, lineqs 0 around (wl_rows uni m sg A b) w = Some P).
    { intros sg Hs. destruct (D sg Hs) as (P & EP & [L|(c & [] & _)]). eauto. }
    split; [|intros sg Hs; destruct (D' sg Hs) as (P & EP & L); eauto].
    apply (pass_spec 0 around uni m A b) in E1. rewrite <- E1. unfold int_lin_inc_r2. apply map_ext_in. intros sg Hs. destruct (D' sg Hs) as (P & EP & L). now rewrite EP, L.
  - cbv zeta in H. set (M := maxs (c :: st1)) in *. destruct (r2_pass 0 around uni m A b (Some ((- M, - M), (M, M))) orthants2 (c :: st1)) as [[V2|] st2] eqn:E2; [|discriminate].
    injection H as <- <-. exists M. split; [exact (pass_spec 0 around uni m A b _ _ _ _ _ E2)|]. intros sg Hs. destruct (D sg Hs) as (P & EP & L). exists P. split; [exact EP|]. destruct L as [L|(d & Hd & L)]; [now left|].
    right. intros p u Hp Fu. destruct (L p u Hp Fu) as (v & V3 & V4 & V5 & V6). apply maxs_ge in Hd. fold M in Hd. exists v. split; [exact V3|]. split; [exact V4|]. split; lra.
Qed.
End Default.
(** The zero system without a window. *)
Lemma sign_feet sg S p : In p (feet (sign_rows sg) S) -> p = (0, 0).
Proof.
  intro Hp. unfold feet in Hp. apply in_map_iff in Hp. destruct Hp as (s & <- & _). destruct (s_idx s) as [|[|[|i]]]; cbn [nth sign_rows]; unfold foot; simpl; f_equal; unfold Rdiv; ring.
Qed.
Lemma center_zero PP : (forall p, In p PP -> p = (0, 0)) -> center_rm PP = 0.
Proof.
  intro H. unfold center_rm. cbv zeta.
  assert (F1 : Forall (fun t => t = 0) (map fst PP)) by (apply Forall_forall; intros t Ht; apply in_map_iff in Ht; destruct Ht as (p & <- & Hp); now rewrite (H p Hp)). assert (F2 : Forall (fun t => t = 0) (map snd PP)) by (apply Forall_forall; intros t Ht; apply in_map_iff in Ht; destruct Ht as (p & <- & Hp); now rewrite (H p Hp)).
  destruct (mins_zero _ F1) as [-> ->]. destruct (mins_zero _ F2) as [-> ->]. replace ((0 - 0) / 2) with 0 by field. replace ((0 + 0) / 2) with 0 by field. rewrite Rabs_R0. rewrite !Rmax_left by lra. ring.
Qed.
Lemma sign_default sg : lineqs 0 (fun x => x) (wl_rows true 1 sg zeroA zerob) None = lineqs 0 (fun x => x) (wl_rows true 1 sg zeroA zerob) (Some ((- 0, - 0), (0, 0))).
Proof.
  unfold lineqs. rewrite zero_rows. cbv zeta. rewrite window_zero by apply sign_feet. rewrite Ropp_0. reflexivity.
Qed.
Lemma sign_call sg st : exists P, lineqs_call 0 (fun x => x) (wl_rows true 1 sg zeroA zerob) None st = (Some P, st ++ [0]) /\ lineqs 0 (fun x => x) (wl_rows true 1 sg zeroA zerob) (Some ((- 0, - 0), (0, 0))) = Some P.
Proof.
  destruct (sign_slice sg 0 ltac:(now left)) as (V & _ & E). exists (map (listed (fun x => x)) V). split; [|exact E]. unfold lineqs_call. cbv zeta. rewrite sign_default, E, zero_rows.
  assert (U : unbounded (boundary_intervals 0 (sign_rows sg)) = true).
  { apply (unbounded_detected (sign_rows sg)) with (x0 := (0, 0)); [intros r [<-|[<-|[]]]; unfold nonzero; simpl; destruct (sg 0%nat), (sg 1%nat); lra|discriminate| |apply sign_unbounded].
    intros r [<-|[<-|[]]]; unfold holds; simpl; lra. }
  rewrite U, center_zero by apply sign_feet. reflexivity.
Qed.
Theorem default_case : exists V, r2_call 0 (fun x => x) true 1 zeroA zerob None [] = (Some V, []) /\ length V = 4%nat.
Proof.
  assert (P : forall sgs st, exists V st1, r2_pass 0 (fun x => x) true 1 zeroA zerob None sgs st = (Some V, st1) /\ st1 = st ++ map (fun _ => 0) sgs /\ length V = length sgs /\
    forall st', r2_pass 0 (fun x => x) true 1 zeroA zerob (Some ((- 0, - 0), (0, 0))) sgs st' = (Some V, st')).
  { induction sgs as [|sg sgs IH]; intro st; cbn [r2_pass].
    - exists [], st. split; [reflexivity|]. split; [cbn [map]; now rewrite app_nil_r|]. split; [reflexivity|reflexivity].
    - destruct (sign_call sg st) as (p & E & L). rewrite E. destruct (IH (st ++ [0])) as (V & st1 & E1 & -> & E3 & E4). rewrite E1. exists (p :: V), ((st ++ [0]) ++ map (fun _ => 0) sgs). split; [reflexivity|]. split; [rewrite <- app_assoc; reflexivity|]. split; [cbn [length]; congruence|].
      intro st'. unfold lineqs_call. rewrite L. cbv zeta. assert (X : forall b : bool, (if b then st' else st') = st') by (intros []; reflexivity). rewrite X, E4. reflexivity. }
  destruct (P orthants2 []) as (V & st1 & E1 & E2 & E3 & E4). exists V. split; [|exact E3]. unfold r2_call. rewrite E1, E2. cbn [app map orthants2]. cbv zeta.
  replace (maxs [0; 0; 0; 0]) with 0 by (cbn [maxs fold_left]; rewrite !(Rmax_left 0 0) by lra; reflexivity). rewrite E4. reflexivity.
Qed.
