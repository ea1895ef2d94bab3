(** Every box is drawn once. *)
From Coq Require Import Reals List Bool Arith Lia Lra Psatz Permutation.
From Verif Require Import Exact SpecExact Plot SpecPlot.
Import ListNotations.
Open Scope R_scope.

Lemma outline_hull X Y : proper X -> proper Y -> forall q, hull (outline (X, Y)) q <-> inI X (fst q) /\ inI Y (snd q).
Proof.
  destruct X as [a b], Y as [c d]. unfold proper, inI, hull, outline. cbn [rl rh]. intros HX HY [x y]. cbn [fst snd]. split.
  - intros (w & L & Nn & S1 & Ex & Ey). destruct w as [|w1 [|w2 [|w3 [|w4 [|]]]]]; try discriminate. cbn [combine map fold_right fst snd] in *.
    assert (0 <= w1) by (apply Nn; simpl; tauto). assert (0 <= w2) by (apply Nn; simpl; tauto). assert (0 <= w3) by (apply Nn; simpl; tauto). assert (0 <= w4) by (apply Nn; simpl; tauto).
    split; split; nra.
  - intros [[X1 X2] [Y1 Y2]].
    assert (Hl : exists l, 0 <= l <= 1 /\ x = a + l * (b - a)). { destruct (Req_dec a b) as [->|N]; [exists 0; split; lra|]. exists ((x - a) / (b - a)). split; [|field; lra]. split; [apply Rmult_le_pos; [lra|apply Rlt_le, Rinv_0_lt_compat; lra]|]. apply Rmult_le_reg_r with (b - a); [lra|]. unfold Rdiv. rewrite Rmult_assoc, Rinv_l by lra. lra. }
    assert (Hm : exists m, 0 <= m <= 1 /\ y = c + m * (d - c)). { destruct (Req_dec c d) as [->|N]; [exists 0; split; lra|]. exists ((y - c) / (d - c)). split; [|field; lra]. split; [apply Rmult_le_pos; [lra|apply Rlt_le, Rinv_0_lt_compat; lra]|]. apply Rmult_le_reg_r with (d - c); [lra|]. unfold Rdiv. rewrite Rmult_assoc, Rinv_l by lra. lra. }
    destruct Hl as (l & Hl & ->). destruct Hm as (m & Hm & ->).
    exists [(1 - l) * (1 - m); (1 - l) * m; l * m; l * (1 - m)]. split; [reflexivity|]. split.
    + intros e [<-|[<-|[<-|[<-|[]]]]]; apply Rmult_le_pos; lra.
    + cbn [combine map fold_right fst snd]. repeat split; ring.
Qed.
Definition shape_of (p : rit * rit) : shape :=
  if index_dot p then Dot (rl (fst p), rl (snd p)) else if full_fill p then Outline (outline p) else Area (outline p).
Lemma seen_app a b : seen (a ++ b) = seen a ++ seen b.
Proof. unfold seen. apply flat_map_app. Qed.
Lemma dots_seen ps : seen (if existsb index_dot ps then [Dots (map (fun p => (rl (fst p), rl (snd p))) (filter index_dot ps))] else []) =
  map Dot (map (fun p => (rl (fst p), rl (snd p))) (filter index_dot ps)).
Proof.
  destruct (existsb index_dot ps) eqn:E; [cbn; now rewrite app_nil_r|]. assert (filter index_dot ps = []) as ->; [|reflexivity].
  induction ps as [|p ps IH]; [reflexivity|]. cbn in E. apply orb_false_iff in E. destruct E as [E1 E2]. cbn. rewrite E1. now apply IH.
Qed.
Lemma scatter_perm ps : Permutation (seen (scatter ps)) (map shape_of ps).
Proof.
  unfold scatter. rewrite seen_app, dots_seen. cbn [seen flat_map shapes]. rewrite app_nil_r, map_map, !map_map.
  induction ps as [|p ps IH]; [apply perm_nil|]. cbn [map filter].
  assert (Sh : shape_of p = if index_dot p then Dot (rl (fst p), rl (snd p)) else if full_fill p then Outline (outline p) else Area (outline p)) by reflexivity. rewrite Sh.
  destruct (index_dot p) eqn:D; [|destruct (full_fill p) eqn:F].
  - assert (full_fill p = false) as -> by (unfold full_fill; rewrite D; apply andb_false_r). assert (scinny_fill p = false) as -> by (unfold scinny_fill; rewrite D; apply andb_false_r).
    cbn [map app]. apply perm_skip. exact IH.
  - assert (scinny_fill p = false) as ->. { unfold scinny_fill, full_fill in *. rewrite D in *. destruct (flat (fst p) || flat (snd p)); [reflexivity|discriminate]. }
    cbn [map app]. eapply Permutation_trans; [|apply perm_skip; exact IH]. apply Permutation_sym, Permutation_middle.
  - assert (scinny_fill p = true) as ->. { unfold scinny_fill, full_fill in *. rewrite D in *. destruct (flat (fst p) || flat (snd p)); [discriminate|reflexivity]. }
    cbn [map app]. eapply Permutation_trans; [|apply perm_skip; exact IH]. rewrite !app_assoc. apply Permutation_sym, Permutation_middle.
Qed.
Lemma shape_depicts p : proper (fst p) -> proper (snd p) -> depicts p (shape_of p).
Proof.
  destruct p as [X Y]. cbn [fst snd]. intros PX PY. unfold shape_of, index_dot, full_fill, index_dot, flat. cbn [fst snd]. assert (H := outline_hull X Y PX PY).
  destruct (Req_EM_T (rl X) (rh X)), (Req_EM_T (rl Y) (rh Y)); cbn [andb orb negb depicts]; auto.
Qed.
Theorem scatter_depicts ps : Forall (fun p => proper (fst p) /\ proper (snd p)) ps ->
  exists ss, Permutation (seen (scatter ps)) ss /\ Forall2 depicts ps ss.
Proof.
  intro H. exists (map shape_of ps). split; [apply scatter_perm|]. induction H as [|p ps [P1 P2] _ IH]; cbn; constructor; [now apply shape_depicts|exact IH].
Qed.
Theorem plot_r2_seen vs : seen (plot_r2 vs) = flat_map (fun v => match v with [] => [] | _ => Area v :: map Dot v end) vs.
Proof.
  unfold plot_r2. induction vs as [|v vs IH]; [reflexivity|]. cbn [flat_map]. rewrite seen_app, IH. f_equal. destruct v as [|p v]; [reflexivity|]. cbn. now rewrite app_nil_r.
Qed.
Lemma scatter_case : Forall (fun p => proper (fst p) /\ proper (snd p)) [(mkr 0 1, mkr 2 3); (mkr 1 1, mkr 2 2); (mkr 1 1, mkr 0 5)].
Proof. repeat constructor; unfold proper; cbn; lra. Qed.
