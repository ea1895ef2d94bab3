(** The values of ISPAE are exact ranges. *)
From Coq Require Import Reals List Arith Bool Lia Lra Psatz.
From Verif Require Import Exact Recog SpecExact ExactProofs Models SpecModels.
Import ListNotations.
Open Scope R_scope.

(** ** Derivatives *)
Definition smooth_at (f : R -> R) (x : R) : Prop := exists l, derivable_pt_lim f x l.
Lemma sm_const c x : smooth_at (fun _ => c) x. Proof. exists 0. apply derivable_pt_lim_const. Qed.
Lemma sm_id x : smooth_at (fun y => y) x. Proof. exists 1. apply derivable_pt_lim_id. Qed.
Lemma sm_plus f g x : smooth_at f x -> smooth_at g x -> smooth_at (fun y => f y + g y) x.
Proof. intros [a Ha] [b Hb]. exists (a + b). now apply derivable_pt_lim_plus. Qed.
Lemma sm_minus f g x : smooth_at f x -> smooth_at g x -> smooth_at (fun y => f y - g y) x.
Proof. intros [a Ha] [b Hb]. exists (a - b). now apply derivable_pt_lim_minus. Qed.
Lemma sm_mult f g x : smooth_at f x -> smooth_at g x -> smooth_at (fun y => f y * g y) x.
Proof. intros [a Ha] [b Hb]. exists (a * g x + f x * b). now apply derivable_pt_lim_mult. Qed.
Lemma sm_cont f x : smooth_at f x -> continuity_pt f x.
Proof. intros [l H]. apply derivable_continuous_pt. exists l. exact H. Qed.
Ltac sm := repeat first [apply sm_const | apply sm_id | apply sm_minus | apply sm_plus | apply sm_mult | assumption].
Lemma sm_basis2 bk d x : smooth_at (fun y => fst (basis2 bk d y)) x /\ smooth_at (fun y => snd (basis2 bk d y)) x.
Proof.
  assert (Ext : forall f g z, (forall y, f y = g y) -> smooth_at g z -> smooth_at f z).
  { intros f g z E [l H]. exists l. intros eps He. destruct (H eps He) as [dl Hd]. exists dl. intros h Hh Hl. rewrite !E. now apply Hd. }
  induction d as [|d [IH1 IH2]]; [split; cbn [basis2 fst snd]; [sm | destruct bk; sm]|].
  split.
  - apply (Ext _ (fun y => snd (basis2 bk d y))); [|exact IH2]. intro y. cbn [basis2]. now destruct (basis2 bk d y).
  - apply (Ext _ (fun y => let p := fst (basis2 bk d y) in let q := snd (basis2 bk d y) in let c := INR (S d) in
        match bk with Monom => y * q | Chebyshev => 2 * y * q - p | Hermite => 2 * y * q - 2 * c * p
        | Laguerre => ((2 * c + 1 - y) * q - c * p) * / (c + 1) | Legendre => ((2 * c + 1) * y * q - c * p) * / (c + 1) end)).
    + intro y. cbn [basis2]. destruct (basis2 bk d y). cbn [fst snd]. destruct bk; reflexivity.
    + destruct bk; cbv zeta; sm.
Qed.
Lemma sm_basis bk d x : smooth_at (basis bk d) x. Proof. exact (proj1 (sm_basis2 bk d x)). Qed.
Lemma sm_poly bk beta : forall degs x, smooth_at (poly bk beta degs) x.
Proof.
  induction beta as [|c beta IH]; intros degs x; [exact (sm_const 0 x)|]. destruct degs as [|d degs]; [exact (sm_const 0 x)|].
  apply (sm_plus (fun y => c * basis bk d y) (poly bk beta degs)); [|apply IH]. apply (sm_mult (fun _ => c) (basis bk d)); [apply sm_const | apply sm_basis].
Qed.
(** ** The extreme values over an interval *)
Lemma min_point f l u roots : l <= u -> (forall x, smooth_at f x) -> lists_roots f roots ->
  exists m, l <= m <= u /\ In m (l :: u :: roots) /\ forall x, l <= x <= u -> f m <= f x.
Proof.
  intros Hlu S Hr. destruct (continuity_ab_min f l u Hlu (fun c _ => sm_cont f c (S c))) as (m & H1 & H2).
  destruct (Req_dec m l) as [->|Nl]; [exists l; split; [lra|]; split; [left; reflexivity | exact H1]|].
  destruct (Req_dec m u) as [->|Nu]; [exists u; split; [lra|]; split; [right; left; reflexivity | exact H1]|].
  destruct (S m) as [d Hd]. assert (pr : derivable_pt f m) by (exists d; exact Hd).
  assert (Z := deriv_minimum f l u m pr ltac:(lra) ltac:(lra) ltac:(intros; apply H1; lra)).
  assert (D : derivable_pt_lim f m 0) by (rewrite <- Z; apply (proj1 (derive_pt_eq f m (derive_pt f m pr) pr)); reflexivity).
  destruct Hr as [Hr|Hc].
  - exists m. split; [lra|]. split; [right; right; now apply Hr | exact H1].
  - exists l. split; [lra|]. split; [left; reflexivity|]. intros x _. rewrite (Hc l x). lra.
Qed.
Lemma max_point f l u roots : l <= u -> (forall x, smooth_at f x) -> lists_roots f roots ->
  exists m, l <= m <= u /\ In m (l :: u :: roots) /\ forall x, l <= x <= u -> f x <= f m.
Proof.
  intros Hlu S Hr. destruct (continuity_ab_maj f l u Hlu (fun c _ => sm_cont f c (S c))) as (m & H1 & H2).
  destruct (Req_dec m l) as [->|Nl]; [exists l; split; [lra|]; split; [left; reflexivity | exact H1]|].
  destruct (Req_dec m u) as [->|Nu]; [exists u; split; [lra|]; split; [right; left; reflexivity | exact H1]|].
  destruct (S m) as [d Hd]. assert (pr : derivable_pt f m) by (exists d; exact Hd).
  assert (Z := deriv_maximum f l u m pr ltac:(lra) ltac:(lra) ltac:(intros; apply H1; lra)).
  assert (D : derivable_pt_lim f m 0) by (rewrite <- Z; apply (proj1 (derive_pt_eq f m (derive_pt f m pr) pr)); reflexivity).
  destruct Hr as [Hr|Hc].
  - exists m. split; [lra|]. split; [right; right; now apply Hr | exact H1].
  - exists l. split; [lra|]. split; [left; reflexivity|]. intros x _. rewrite (Hc l x). lra.
Qed.
Lemma fold_min vs : forall v, In (fold_left Rmin vs v) (v :: vs) /\ forall x, In x (v :: vs) -> fold_left Rmin vs v <= x.
Proof.
  induction vs as [|a vs IH]; intro v; [split; [now left | intros x [->|[]]; simpl; lra]|]. cbn [fold_left]. destruct (IH (Rmin v a)) as [I L]. split.
  - destruct I as [I|I]; [|right; now right]. rewrite <- I. unfold Rmin. destruct Rle_dec; [now left | right; now left].
  - assert (Q := L (Rmin v a) (or_introl eq_refl)). intros x [->|[->|Hx]]; [eapply Rle_trans; [exact Q | apply Rmin_l] | eapply Rle_trans; [exact Q | apply Rmin_r] | apply L; now right].
Qed.
Lemma fold_max vs : forall v, In (fold_left Rmax vs v) (v :: vs) /\ forall x, In x (v :: vs) -> x <= fold_left Rmax vs v.
Proof.
  induction vs as [|a vs IH]; intro v; [split; [now left | intros x [->|[]]; simpl; lra]|]. cbn [fold_left]. destruct (IH (Rmax v a)) as [I L]. split.
  - destruct I as [I|I]; [|right; now right]. rewrite <- I. unfold Rmax. destruct Rle_dec; [right; now left | now left].
  - assert (Q := L (Rmax v a) (or_introl eq_refl)). intros x [->|[->|Hx]]; [eapply Rle_trans; [apply Rmax_l | exact Q] | eapply Rle_trans; [apply Rmax_r | exact Q] | apply L; now right].
Qed.
Definition insideb (X : rit) (d : R) : bool := if Rle_dec (rl X) d then if Rle_dec d (rh X) then true else false else false.
Lemma insideb_iff X d : insideb X d = true <-> inI X d.
Proof. unfold insideb, inI. destruct (Rle_dec (rl X) d); [destruct (Rle_dec d (rh X))|]; split; intro H; try discriminate; try lra; auto. Qed.
Theorem column_range bk roots beta degs X : proper X -> lists_roots (poly bk beta degs) (roots beta degs) ->
  exists Z, value_of_one_col bk roots beta degs X = Some Z /\ exact_range (poly bk beta degs) X Z.
Proof.
  intros PX Hr. unfold value_of_one_col. fold (insideb X). set (f := poly bk beta degs) in *. set (dots := rl X :: rh X :: roots beta degs) in *.
  assert (S : forall x, smooth_at f x) by (intro; apply sm_poly).
  destruct (min_point f (rl X) (rh X) _ PX S Hr) as (m & M1 & M2 & M3). destruct (max_point f (rl X) (rh X) _ PX S Hr) as (q & Q1 & Q2 & Q3).
  assert (Im : In m (filter (insideb X) dots)) by (apply filter_In; split; [exact M2 | now apply insideb_iff]).
  assert (Iq : In q (filter (insideb X) dots)) by (apply filter_In; split; [exact Q2 | now apply insideb_iff]).
  assert (Back : forall z, In z (map f (filter (insideb X) dots)) -> exists x, inI X x /\ f x = z).
  { intros z Hz. apply in_map_iff in Hz. destruct Hz as (x & E & Hx). apply filter_In in Hx. exists x. split; [apply insideb_iff; tauto | exact E]. }
  apply (in_map f) in Im, Iq. destruct (map f (filter (insideb X) dots)) as [|v vs]; [destruct Im|].
  eexists. split; [reflexivity|]. destruct (fold_min vs v) as [A1 A2]. destruct (fold_max vs v) as [B1 B2]. split; [|split].
  - intros x Hx. unfold inI in *. cbn [rl rh]. assert (C1 := A2 _ Im). assert (C2 := B2 _ Iq). assert (D1 := M3 x Hx). assert (D2 := Q3 x Hx). lra.
  - exact (Back _ A1).
  - exact (Back _ B1).
Qed.
(** Without any assumption on the roots the ends are values of the polynomial. *)
Theorem column_inner bk roots beta degs X Z : value_of_one_col bk roots beta degs X = Some Z ->
  (exists x, inI X x /\ poly bk beta degs x = rl Z) /\ (exists x, inI X x /\ poly bk beta degs x = rh Z).
Proof.
  unfold value_of_one_col. fold (insideb X). set (f := poly bk beta degs). set (dots := rl X :: rh X :: roots beta degs). intro H.
  assert (Back : forall z, In z (map f (filter (insideb X) dots)) -> exists x, inI X x /\ f x = z).
  { intros z Hz. apply in_map_iff in Hz. destruct Hz as (x & E & Hx). apply filter_In in Hx. exists x. split; [apply insideb_iff; tauto | exact E]. }
  destruct (map f (filter (insideb X) dots)) as [|v vs]; [discriminate|]. injection H as <-. cbn [rl rh]. split; apply Back; [apply fold_min | apply fold_max].
Qed.
(** ** Rows *)
Lemma poly_combination bk beta : forall d o, (length beta <= o)%nat -> forall x, poly bk beta (seq d o) x = combination (basis bk) d beta x.
Proof.
  induction beta as [|c beta IH]; intros d o H x; [reflexivity|]. destruct o as [|o]; [simpl in H; lia|]. cbn [seq poly combination]. rewrite IH by (simpl in H; lia). reflexivity.
Qed.
Lemma firstn_le (o : nat) (beta : list R) : (length (firstn o beta) <= o)%nat. Proof. rewrite firstn_length. lia. Qed.
Theorem row_range bk roots cols : forall beta, Forall (fun c => proper (snd c)) cols -> roots_ok bk (map fst cols) roots ->
  exists Z, ispae_value bk roots beta cols = Some Z /\ exact_range_box (additive (basis bk) beta (map fst cols)) (map snd cols) Z.
Proof.
  induction cols as [|[o X] cols IH]; intros beta HP HR.
  - eexists. split; [reflexivity|]. split; [|split].
    + intros xs H. inversion H; subst. simpl. unfold inI, r_point; simpl; lra.
    + exists []. split; [constructor | reflexivity].
    + exists []. split; [constructor | reflexivity].
  - inversion HP as [|? ? P1 P2]; subst. cbn [map fst snd] in *.
    destruct (IH (skipn o beta) P2 ltac:(intros o' b' H; apply HR; now right)) as (Z2 & E2 & R1 & (ys & Hy & Ey) & (zs & Hz & Ez)).
    destruct (column_range bk roots (firstn o beta) (seq 1 o) X P1 ltac:(apply HR; now left)) as (Z1 & E1 & S1 & (y & Hy1 & Ey1) & (z & Hz1 & Ez1)).
    cbn [ispae_value]. rewrite E1, E2. eexists. split; [reflexivity|]. rewrite poly_combination in Ey1, Ez1 by apply firstn_le. split; [|split].
    + intros xs H. inversion H as [|? x ? xs' Hx Hxs]; subst. cbn [additive]. assert (A1 := S1 x Hx). rewrite poly_combination in A1 by apply firstn_le. assert (A2 := R1 xs' Hxs).
      unfold inI, r_add in *. cbn [rl rh]. lra.
    + exists (y :: ys). split; [now constructor|]. cbn [additive r_add rl]. rewrite Ey1, Ey. reflexivity.
    + exists (z :: zs). split; [now constructor|]. cbn [additive r_add rh]. rewrite Ez1, Ez. reflexivity.
Qed.
(** predict contains the model *)
Lemma lists_roots_ext f g r : (forall x, f x = g x) -> lists_roots f r -> lists_roots g r.
Proof.
  intros E [H|H]; [left | right; intros; rewrite <- !E; apply H]. intros x D. apply H. intros eps He. destruct (D eps He) as [dl Hd]. exists dl. intros h Hh Hl. rewrite !E. now apply Hd.
Qed.
Lemma poly_one bk d x : poly bk [1] [d] x = basis bk d x. Proof. cbn [poly]. ring. Qed.
Lemma expand_one bk roots d X : proper X -> lists_roots (basis bk d) (roots [1] [d]) -> exists Z, value_of_one_col bk roots [1] [d] X = Some Z /\ exact_range (basis bk d) X Z.
Proof.
  intros P H. destruct (column_range bk roots [1] [d] X P) as (Z & E & A & B & C); [apply (lists_roots_ext (basis bk d)); [intro; now rewrite poly_one | exact H]|].
  exists Z. split; [exact E|]. split; [|split].
  - intros x Hx. rewrite <- poly_one. auto.
  - destruct B as (x & Hx & E1). exists x. rewrite <- poly_one. auto.
  - destruct C as (x & Hx & E1). exists x. rewrite <- poly_one. auto.
Qed.
Lemma opt_all_app {T} (l1 l2 : list (option T)) r1 r2 : opt_all l1 = Some r1 -> opt_all l2 = Some r2 -> opt_all (l1 ++ l2) = Some (r1 ++ r2).
Proof.
  revert r1. induction l1 as [|[a|] l1 IH]; intros r1 H1 H2; simpl in *; [injection H1 as <-; exact H2| |discriminate].
  destruct (opt_all l1) as [r|]; [|discriminate]. injection H1 as <-. rewrite (IH r eq_refl H2). reflexivity.
Qed.
Lemma expand_col bk roots X : proper X -> forall o d, (forall e, (d <= e < d + o)%nat -> lists_roots (basis bk e) (roots [1] [e])) ->
  exists Es, opt_all (map (fun e => value_of_one_col bk roots [1] [e] X) (seq d o)) = Some Es /\ length Es = o /\
    forall i E, nth_error Es i = Some E -> exact_range (basis bk (d + i)) X E.
Proof.
  intros P o. induction o as [|o IH]; intros d H.
  - exists []. split; [reflexivity|]. split; [reflexivity|]. intros [|i] E Q; discriminate.
  - destruct (expand_one bk roots d X P (H d ltac:(lia))) as (Z & E1 & R1). destruct (IH (S d) ltac:(intros; apply H; lia)) as (Es & E2 & L & R2).
    exists (Z :: Es). cbn [seq map opt_all]. rewrite E1, E2. split; [reflexivity|]. split; [simpl; lia|]. intros [|i] E Q; cbn in Q.
    + injection Q as <-. rewrite Nat.add_0_r. exact R1.
    + replace (d + S i)%nat with (S d + i)%nat by lia. now apply R2.
Qed.
Lemma row_at_app Es beta Fs : row_at (Es ++ Fs) beta = r_add (row_at Es (firstn (length Es) beta)) (row_at Fs (skipn (length Es) beta)).
Proof.
  revert beta. induction Es as [|E Es IH]; intro beta; cbn [app length firstn skipn row_at].
  - destruct (row_at Fs beta). unfold r_add, r_point. cbn. f_equal; ring.
  - destruct beta as [|c beta].
    + cbn. destruct Fs; unfold r_add, r_point; cbn; f_equal; ring.
    + cbn [row_at firstn skipn]. rewrite IH. unfold r_add. cbn [rl rh]. f_equal; ring.
Qed.
Lemma row_at_col bk X : forall Es beta d, (forall i E, nth_error Es i = Some E -> exact_range (basis bk (d + i)) X E) -> (length beta <= length Es)%nat ->
  forall x, inI X x -> inI (row_at Es beta) (combination (basis bk) d beta x).
Proof.
  induction Es as [|E Es IH]; intros beta d H L x Hx.
  - destruct beta; [|simpl in L; lia]. cbn. unfold inI, r_point; cbn; lra.
  - destruct beta as [|c beta]; [cbn; unfold inI, r_point; cbn; lra|]. cbn [row_at combination].
    assert (H0 := H 0%nat E eq_refl). rewrite Nat.add_0_r in H0. destruct H0 as [H0 _].
    assert (A1 := scale_in c E _ (H0 x Hx)).
    assert (A2 := IH beta (S d) ltac:(intros i F Q; replace (S d + i)%nat with (d + S i)%nat by lia; now apply H) ltac:(simpl in L; lia) x Hx).
    unfold inI, r_add in *. cbn [rl rh]. lra.
Qed.
Lemma expand_ok bk roots cols : Forall (fun c => proper (snd c)) cols -> basis_roots_ok bk (map fst cols) roots ->
  exists Es, expand_row bk roots cols = Some Es /\ length Es = list_sum (map fst cols) /\
    forall beta xs, in_box (map snd cols) xs -> inI (row_at Es beta) (additive (basis bk) beta (map fst cols) xs).
Proof.
  induction cols as [|[o X] cols IH]; intros HP HR.
  - exists []. split; [reflexivity|]. split; [reflexivity|]. intros beta xs H. inversion H; subst. cbn. unfold inI, r_point; cbn; lra.
  - inversion HP as [|? ? P1 P2]; subst. destruct (IH P2 ltac:(intros o' d' H; apply HR; now right)) as (Fs & E2 & L2 & R2).
    destruct (expand_col bk roots X P1 o 1 ltac:(intros e He; apply (HR o e); [now left | lia])) as (Es & E1 & L1 & R1).
    exists (Es ++ Fs). split; [unfold expand_row in *; cbn [flat_map fst snd]; now apply opt_all_app|]. split; [cbn [map list_sum fold_right fst]; rewrite app_length, L1, L2; reflexivity|].
    intros beta xs H. inversion H as [|? x ? xs' Hx Hxs]; subst. cbn [map fst additive]. rewrite row_at_app.
    assert (A1 := row_at_col bk X Es (firstn (length Es) beta) 1 R1 ltac:(apply firstn_le) x Hx). assert (A2 := R2 (skipn (length Es) beta) xs' Hxs).
    unfold inI, r_add in *. cbn [rl rh]. lra.
Qed.
Theorem predict_encloses bk roots beta cols : Forall (fun c => proper (snd c)) cols -> basis_roots_ok bk (map fst cols) roots ->
  exists Z, ispae_predict bk roots beta cols = Some Z /\ forall xs, in_box (map snd cols) xs -> inI Z (additive (basis bk) beta (map fst cols) xs).
Proof.
  intros HP HR. destruct (expand_ok bk roots cols HP HR) as (Es & E & _ & H). unfold ispae_predict. rewrite E. eexists. split; [reflexivity|]. apply H.
Qed.
Theorem value_in_predict bk roots beta cols V Z : Forall (fun c => proper (snd c)) cols -> roots_ok bk (map fst cols) roots -> basis_roots_ok bk (map fst cols) roots ->
  ispae_value bk roots beta cols = Some V -> ispae_predict bk roots beta cols = Some Z -> rl Z <= rl V /\ rh V <= rh Z.
Proof.
  intros HP H1 H2 EV EZ. destruct (row_range bk roots cols beta HP H1) as (V' & E1 & _ & (y & Hy & Ey) & (z & Hz & Ez)). destruct (predict_encloses bk roots beta cols HP H2) as (Z' & E2 & K).
  assert (V' = V) by congruence. assert (Z' = Z) by congruence. subst V' Z'. assert (K1 := K y Hy). assert (K2 := K z Hz). unfold inI in *. lra.
Qed.
