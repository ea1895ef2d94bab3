(** Boundary intervals, orthant systems and change of variables over exact
    reals: C46, C47, C62, C66. *)
From Coq Require Import Reals ZArith List Bool Arith Lia Lra.
From Verif Require Import Exact Recog SpecExact ExactProofs Boundary SpecBoundary BoundaryProofs BoundaryMore BoundaryPath BoundaryWindow BoundaryState BoundaryStateProofs BoundaryStateMore BoundaryHull.
Import ListNotations.
Open Scope R_scope.

(** ** C46 *)
Theorem C46_united : forall m n A sg, proper_mat m n A -> forall b x, proper_vec m b ->
  (satisfies (2 * m + n) n (neg_mat (wl_A true m sg A)) (neg_vec (wl_b true m b)) x <-> in_orthant n sg x /\ united m n A b x).
Proof. exact orthant_united. Qed.
Print Assumptions C46_united.

Theorem C46_tolerable : forall m n A sg, proper_mat m n A -> forall b x,
  (satisfies (2 * m + n) n (neg_mat (wl_A false m sg A)) (neg_vec (wl_b false m b)) x <-> in_orthant n sg x /\ tolerable m n A b x).
Proof. exact orthant_tolerable. Qed.
Print Assumptions C46_tolerable.

(** In space the right-hand sides are shifted by 1e-15: the set is exact up to that. *)
Theorem C46_united_space : forall m n A sg, proper_mat m n A -> forall d b x, 0 <= d -> proper_vec m b ->
  let S := satisfies (2 * m + n) n (neg_mat (wl_A true m sg A)) (neg_vec (wl_b3 d true m b)) x in
  (S -> in_orthant n sg x /\ united m n A (widen d b) x) /\ (in_orthant n sg x /\ united m n A (widen (- d) b) x -> S).
Proof. exact orthant_united_3d. Qed.
Print Assumptions C46_united_space.

Theorem C46_tolerable_space : forall m n A sg, proper_mat m n A -> forall d b x, 0 <= d ->
  let S := satisfies (2 * m + n) n (neg_mat (wl_A false m sg A)) (neg_vec (wl_b3 d false m b)) x in
  (S -> in_orthant n sg x /\ tolerable m n A (widen d b) x) /\ (in_orthant n sg x /\ tolerable m n A (widen (- d) b) x -> S).
Proof. exact orthant_tolerable_3d. Qed.
Print Assumptions C46_tolerable_space.

Theorem C46_four_orthants_united : forall m A b x, proper_mat m 2 A -> proper_vec m b ->
  united m 2 A b (vec2 x) <-> exists sg, In sg orthants2 /\ in_set (wl_rows true m sg A b) x.
Proof. exact orthants_cover_united. Qed.
Print Assumptions C46_four_orthants_united.

Theorem C46_four_orthants_tolerable : forall m A b x, proper_mat m 2 A ->
  tolerable m 2 A b (vec2 x) <-> exists sg, In sg orthants2 /\ in_set (wl_rows false m sg A b) x.
Proof. exact orthants_cover_tolerable. Qed.
Print Assumptions C46_four_orthants_tolerable.

Theorem C46_vertices : forall uni around m A b bounds k sg P, proper_mat m 2 A -> proper_vec m b ->
  nth_error orthants2 k = Some sg ->
  (forall r, In r (wl_rows uni m sg A b) -> around_row around r = r /\ zero_row r = false) ->
  nth_error (int_lin_inc_r2 0 around uni m A b bounds) k = Some (Some P) ->
  forall p u, In p P -> finite_at p u -> exists v, fst u = around (fst v) /\ snd u = around (snd v) /\ in_orthant 2 sg (vec2 v) /\
    (if uni then united m 2 A b (vec2 v) else tolerable m 2 A b (vec2 v)).
Proof. exact r2_vertices. Qed.
Print Assumptions C46_vertices.

(** A slice that is bounded: exactly its corners, once each and in order. *)
Theorem C46_slice_corners : forall around, (forall x, Rabs (around x - x) <= / 1000000000000) -> forall uni m A b bounds k sg, nth_error orthants2 k = Some sg ->
  let rs := wl_rows uni m sg A b in
  (forall r, In r rs -> around_row around r = r /\ zero_row r = false) -> bounded rs -> separated (/ 100000000) rs -> (exists x, in_set rs x) ->
  exists V, polygon rs V /\ nth_error (int_lin_inc_r2 0 around uni m A b bounds) k = Some (Some (map (listed around) V)).
Proof. exact r2_bounded_slice. Qed.
Print Assumptions C46_slice_corners.

(** An unbounded one: the corners of its part in the window. *)
Theorem C46_slice_in_window : forall around, (forall x, Rabs (around x - x) <= / 1000000000000) -> forall uni m A b w k sg, nth_error orthants2 k = Some sg ->
  let rs := wl_rows uni m sg A b in
  (forall r, In r rs -> around_row around r = r /\ zero_row r = false) -> ~ bounded rs -> separated (/ 100000000) (rs ++ box_rows w) -> (exists x, in_set (rs ++ box_rows w) x) ->
  exists V, polygon (rs ++ box_rows w) V /\ nth_error (int_lin_inc_r2 0 around uni m A b w) k = Some (Some (map (listed around) V)).
Proof. exact r2_cut_slice. Qed.
Print Assumptions C46_slice_in_window.

(** Equations with zero coefficients are dropped, satisfiable or not. *)
Theorem C46_zero_equation_refuted : exists A b, proper_mat 1 2 A /\ proper_vec 1 b /\ (forall x, ~ united 1 2 A b x) /\
  forall bounds, nth_error (int_lin_inc_r2 0 (fun x => x) true 1 A b bounds) 0 <> Some (Some []).
Proof. exact r2_zero_row_refuted. Qed.
Print Assumptions C46_zero_equation_refuted.

Definition c46_A : imat := fun i j => if Nat.eqb i j then mkr 2 4 else mkr (-2) 1.
Definition c46_b : ivec := fun _ => mkr (-2) 2.
Example C46_case : proper_mat 2 2 c46_A /\ proper_vec 2 c46_b /\ united 2 2 c46_A c46_b (vec2 (1 / 2, - 1 / 2)) /\ ~ united 2 2 c46_A c46_b (vec2 (5, 0)) /\
  forall sg r, In sg orthants2 -> In r (wl_rows true 2 sg c46_A c46_b) -> zero_row r = false.
Proof.
  assert (PA : proper_mat 2 2 c46_A) by (intros i j _ _; unfold c46_A, proper; destruct (Nat.eqb i j); simpl; lra).
  split; [exact PA|]. split; [intros i _; unfold proper; simpl; lra|]. split; [|split].
  - exists (fun i j => if Nat.eqb i j then 2 else 0), (fun i => match i with O => 1 | _ => -1 end). split; [|split].
    + intros [|[|i]] [|[|j]] Hi Hj; try lia; unfold c46_A, inI; simpl; lra.
    + intros [|[|i]] Hi; try lia; unfold c46_b, inI; simpl; lra.
    + intros [|[|i]] Hi; try lia; unfold times; simpl; lra.
  - intros (M & v & HM & Hv & S). assert (H := HM O O ltac:(lia) ltac:(lia)). assert (V := Hv O ltac:(lia)). rewrite <- (S O ltac:(lia)) in V.
    unfold inI, c46_A, c46_b, times in *. simpl in *. lra.
  - assert (Z : forall p q c, 1 <= Rabs p \/ 1 <= Rabs q -> zero_row (mkrow p q c) = false).
    { intros p q c [L|L]; unfold zero_row, tiny; simpl; repeat destruct Rle_dec; simpl; auto; lra. }
    assert (B : forall t, 1 <= t \/ t <= -1 -> 1 <= Rabs t). { intros t [Ht|Ht]; [rewrite Rabs_right by lra | rewrite Rabs_left by lra]; lra. }
    intros sg r Hs Hr. unfold wl_rows in Hr. apply in_map_iff in Hr. destruct Hr as (i & <- & Hi). apply in_seq in Hi. simpl in Hi. apply Z.
    destruct Hs as [<-|[<-|[<-|[<-|[]]]]]; do 6 (destruct i as [|i]; [unfold neg_mat, wl_A, wl_tmp, c46_A; simpl; first [left; apply B; lra | right; apply B; lra]|]); lia.
Qed.

(** x0, x1 in [0, 1]: a slice that is a square. *)
Definition c46_D : imat := fun i j => if Nat.eqb i j then mkr 1 1 else mkr 0 0.
Definition c46_c : ivec := fun _ => mkr 0 1.
Example C46_slice_case : let rs := wl_rows true 2 (fun _ => false) c46_D c46_c in
  (forall r, In r rs -> around_row (fun x => x) r = r /\ zero_row r = false) /\ bounded rs /\ separated (/ 100000000) rs /\ in_set rs (1, 1).
Proof.
  intro rs. assert (Ax : forall r, In r rs -> axis_row r).
  { intros r Hr. unfold rs, wl_rows in Hr. apply in_map_iff in Hr. destruct Hr as (i & <- & Hi). apply in_seq in Hi. simpl in Hi. unfold axis_row, unit_coord.
    do 6 (destruct i as [|i]; [unfold neg_mat, neg_vec, wl_A, wl_b, wl_tmp, c46_D, c46_c; simpl; lra|]). lia. }
  split; [|split; [|split]].
  - intros r Hr. split; [destruct r; reflexivity|]. destruct (Ax r Hr) as [[[_ [E|E]]|[_ [E|E]]] _]; apply zero_row_big; rewrite E; [left|left|right|right]; unfold Rabs; destruct Rcase_abs; lra.
  - exists 1. intros x H. assert (Q : forall i, (i < 6)%nat -> holds (mkrow (neg_mat (wl_A true 2 (fun _ => false) c46_D) i 0%nat) (neg_mat (wl_A true 2 (fun _ => false) c46_D) i 1%nat) (neg_vec (wl_b true 2 c46_c) i)) x) by (intros i Hi; apply H; unfold rs, wl_rows; apply in_map_iff; exists i; split; [reflexivity|apply in_seq; simpl; lia]).
    assert (Q0 := Q 0%nat ltac:(lia)). assert (Q1 := Q 1%nat ltac:(lia)). assert (Q2 := Q 2%nat ltac:(lia)). assert (Q3 := Q 3%nat ltac:(lia)).
    unfold holds, neg_mat, neg_vec, wl_A, wl_b, wl_tmp, c46_D, c46_c in Q0, Q1, Q2, Q3; simpl in Q0, Q1, Q2, Q3. split; apply Rabs_le; lra.
  - apply axis_separated. exact Ax.
  - intros r Hr. unfold rs, wl_rows in Hr. apply in_map_iff in Hr. destruct Hr as (i & <- & Hi). apply in_seq in Hi. simpl in Hi. unfold holds.
    do 6 (destruct i as [|i]; [unfold neg_mat, neg_vec, wl_A, wl_b, wl_tmp, c46_D, c46_c; simpl; lra|]). lia.
Qed.

(** ** C47 *)
Theorem C47_one_segment_per_face : forall eps rows, (forall r, In r rows -> nonzero r) ->
  NoDup (map s_idx (boundary_intervals eps rows)) /\
  forall i, (exists s, In s (boundary_intervals eps rows) /\ s_idx s = i) <-> exists x, face rows i x.
Proof. exact boundary_indices. Qed.
Print Assumptions C47_one_segment_per_face.

(** Exactly, without the 1e-301 added to the direction; and with it. *)
Theorem C47_segment_is_face : forall rows s u v, (forall r, In r rows -> nonzero r) -> In s (boundary_intervals 0 rows) ->
  finite_at (s_from s) u -> finite_at (s_to s) v -> forall x, face rows (s_idx s) x <-> between u v x.
Proof. exact boundary_segment_exact. Qed.
Print Assumptions C47_segment_is_face.

Theorem C47_segment_perturbed : forall eps rows s u v, (forall r, In r rows -> nonzero r) -> In s (boundary_intervals eps rows) ->
  finite_at (s_from s) u -> finite_at (s_to s) v ->
  exists u' v' t0 t1 r, nth_error rows (s_idx s) = Some r /\ (forall x, face rows (s_idx s) x <-> between u' v' x) /\
    along r u' = dot2 r r * t0 /\ along r v' = dot2 r r * t1 /\ t0 <= t1 /\
    fst u = fst u' + eps * t0 /\ snd u = snd u' + eps * t0 /\ fst v = fst v' + eps * t1 /\ snd v = snd v' + eps * t1.
Proof. exact boundary_segment. Qed.
Print Assumptions C47_segment_perturbed.

Theorem C47_infinite_ends : forall eps rows s r, (forall q, In q rows -> nonzero q) -> In s (boundary_intervals eps rows) -> nth_error rows (s_idx s) = Some r ->
  ((exists u, finite_at (s_from s) u) <-> exists t, forall x, face rows (s_idx s) x -> t <= along r x) /\
  ((exists v, finite_at (s_to s) v) <-> exists t, forall x, face rows (s_idx s) x -> along r x <= t).
Proof. exact boundary_ends. Qed.
Print Assumptions C47_infinite_ends.

Theorem C47_all_vertices : forall rows i k ri rk x, (forall r, In r rows -> nonzero r) -> in_set rows x ->
  nth_error rows i = Some ri -> nth_error rows k = Some rk -> tight ri x -> tight rk x -> ~ parallel ri rk ->
  exists s, In s (boundary_intervals 0 rows) /\ s_idx s = i /\ (finite_at (s_from s) x \/ finite_at (s_to s) x).
Proof. exact boundary_vertices. Qed.
Print Assumptions C47_all_vertices.

Theorem C47_empty_answer : forall eps rows, (forall r, In r rows -> nonzero r) -> rows <> [] -> boundary_intervals eps rows = [] -> forall x, ~ in_set rows x.
Proof. exact boundary_empty. Qed.
Print Assumptions C47_empty_answer.

Theorem C47_lineqs_vertices_feasible : forall around rows bounds P, lineqs 0 around rows bounds = Some P ->
  NoDup P /\ forall p u, In p P -> finite_at p u ->
    exists v, fst u = around (fst v) /\ snd u = around (snd v) /\ in_set (fst (clear_zero_rows around rows)) v.
Proof. exact lineqs_sound. Qed.
Print Assumptions C47_lineqs_vertices_feasible.

Theorem C47_lineqs_empty_answer : forall eps around rows bounds, lineqs eps around rows bounds = Some [] -> fst (clear_zero_rows around rows) <> [] ->
  forall x, ~ in_set (fst (clear_zero_rows around rows)) x.
Proof. exact lineqs_empty. Qed.
Print Assumptions C47_lineqs_empty_answer.

(** lineqs on a bounded set: exactly its corners, once each, going round it. *)
Theorem C47_lineqs_polygon : forall around, (forall x, Rabs (around x - x) <= / 1000000000000) -> forall rows bounds,
  let rs := fst (clear_zero_rows around rows) in bounded rs -> separated (/ 100000000) rs -> (exists x, in_set rs x) ->
  exists V, polygon rs V /\ lineqs 0 around rows bounds = Some (map (listed around) V).
Proof. exact lineqs_polygon. Qed.
Print Assumptions C47_lineqs_polygon.

(** The set is the convex hull of its corners. *)
Theorem C47_hull : forall around, (forall x, Rabs (around x - x) <= / 1000000000000) -> forall rows bounds,
  let rs := fst (clear_zero_rows around rows) in bounded rs -> separated (/ 100000000) rs -> (exists x, in_set rs x) ->
  exists V, lineqs 0 around rows bounds = Some (map (listed around) V) /\ forall x, in_set rs x <-> hull_of (fun v => In v V) x.
Proof.
  intros around Har rows bounds rs Bd Sp I. destruct (lineqs_polygon around Har rows bounds Bd Sp I) as (V & Pg & E). exists V. split; [exact E|].
  apply polygon_hull; [apply cleared_nonzero|exact Bd|exact Pg].
Qed.
Print Assumptions C47_hull.

(** On an unbounded one: the corners of its part in the window; if that part is
    empty, an exception. *)
Theorem C47_lineqs_window : forall around, (forall x, Rabs (around x - x) <= / 1000000000000) -> forall rows bounds,
  let rs := fst (clear_zero_rows around rows) in let cut := rs ++ box_rows (used_window rs bounds) in
  rs <> [] -> ~ bounded rs -> separated (/ 100000000) cut -> (exists x, in_set cut x) ->
  exists V, polygon cut V /\ lineqs 0 around rows bounds = Some (map (listed around) V).
Proof. exact lineqs_window. Qed.
Print Assumptions C47_lineqs_window.

Theorem C47_lineqs_window_raises : forall around rows bounds,
  let rs := fst (clear_zero_rows around rows) in let cut := rs ++ box_rows (used_window rs bounds) in
  rs <> [] -> ~ bounded rs -> (exists x, in_set rs x) -> (forall x, ~ in_set cut x) -> lineqs 0 around rows bounds = None.
Proof. exact lineqs_window_empty. Qed.
Print Assumptions C47_lineqs_window_raises.

(** A contradictory inequality with zero coefficients is dropped. *)
Theorem C47_lineqs_zero_row_refuted : exists rows, forall bounds, (forall x, ~ in_set rows x) /\ lineqs 0 (fun x => x) rows bounds <> Some [].
Proof. exact lineqs_zero_row_refuted. Qed.
Print Assumptions C47_lineqs_zero_row_refuted.

Definition c47_rows : list row := [mkrow 1 0 0; mkrow 0 1 0; mkrow (-1) (-1) (-2)].
Example C47_case : (forall r, In r c47_rows -> nonzero r) /\ in_set c47_rows (2, 0) /\ face c47_rows 2 (1, 1) /\ ~ parallel (mkrow 0 1 0) (mkrow (-1) (-1) (-2)) /\
  fst (clear_zero_rows (fun x => x) c47_rows) = c47_rows.
Proof.
  split; [intros r [<-|[<-|[<-|[]]]]; unfold nonzero; simpl; lra|]. split; [intros r [<-|[<-|[<-|[]]]]; unfold holds; simpl; lra|]. split; [|split].
  - split; [intros r [<-|[<-|[<-|[]]]]; unfold holds; simpl; lra|]. eexists. split; [reflexivity|]. unfold tight; simpl; lra.
  - unfold parallel; simpl; lra.
  - unfold clear_zero_rows, c47_rows, around_row, zero_row; cbn [map a0 a1 rhs fst filter]. rewrite !(tiny_one 1), !(tiny_one (-1)) by auto. rewrite !Bool.andb_false_r. reflexivity.
Qed.

Definition c47_corner (x : pt) : Prop := x = (0, 0) \/ x = (2, 0) \/ x = (0, 2).
Example C47_polygon_case : bounded c47_rows /\ separated (/ 100000000) c47_rows /\ (forall x, c47_corner x -> vertex c47_rows x) /\
  ~ bounded [mkrow 1 0 0; mkrow 0 1 0] /\ separated (/ 100000000) ([mkrow 1 0 0; mkrow 0 1 0] ++ box_rows ((-1, -1), (1, 1))) /\
  in_set ([mkrow 1 0 0; mkrow 0 1 0] ++ box_rows ((-1, -1), (1, 1))) (1, 1).
Proof.
  assert (Vs : forall x, vertex c47_rows x -> c47_corner x).
  { intros [x y] [_ (r & s & Hr & Hs & Tr & Ts & Np)]. unfold c47_corner, tight, parallel in *.
    assert (E : forall a b, x = a -> y = b -> (x, y) = (a, b)) by (intros; subst; reflexivity).
    destruct Hr as [<-|[<-|[<-|[]]]], Hs as [<-|[<-|[<-|[]]]]; simpl in *; first [exfalso; apply Np; ring | left; apply E; lra | right; left; apply E; lra | right; right; apply E; lra]. }
  split; [|split; [|split; [|split; [|split]]]].
  - exists 2. intros x H. assert (A := H _ (or_introl eq_refl)). assert (B := H _ (or_intror (or_introl eq_refl))). assert (C := H _ (or_intror (or_intror (or_introl eq_refl)))). unfold holds in *; simpl in *. split; apply Rabs_le; lra.
  - intros x y Hx Hy. apply Vs in Hx. apply Vs in Hy. destruct Hx as [-> |[-> | ->]], Hy as [-> |[-> | ->]]; simpl; try (left; reflexivity); right; unfold Rabs; repeat destruct Rcase_abs; lra.
  - intros x [-> |[-> | ->]]; (split; [intros r [<-|[<-|[<-|[]]]]; unfold holds; simpl; lra|]).
    + exists (mkrow 1 0 0), (mkrow 0 1 0). unfold tight, parallel; simpl. repeat split; auto; lra.
    + exists (mkrow 0 1 0), (mkrow (-1) (-1) (-2)). unfold tight, parallel; simpl. repeat split; auto; lra.
    + exists (mkrow 1 0 0), (mkrow (-1) (-1) (-2)). unfold tight, parallel; simpl. repeat split; auto; lra.
  - apply default_window_point.
  - apply axis_separated. intros r Hr. apply in_app_or in Hr. destruct Hr as [[<-|[<-|[]]]|[<-|[<-|[<-|[<-|[]]]]]]; unfold axis_row, unit_coord; simpl; lra.
  - intros r Hr. apply in_app_or in Hr. destruct Hr as [[<-|[<-|[]]]|[<-|[<-|[<-|[<-|[]]]]]]; unfold holds; simpl; lra.
Qed.

(** ** C66 *)
(** All slices of an answer are cut with one window, whatever was called before,
    and the module variable is empty afterwards. *)
Theorem C66_one_window : forall eps around uni m A b bounds st V st', r2_call eps around uni m A b bounds st = (Some V, st') ->
  st' = [] /\ exists w, int_lin_inc_r2 eps around uni m A b w = map Some V.
Proof. exact r2_one_window. Qed.
Print Assumptions C66_one_window.

Theorem C66_given_window : forall eps around uni m A b w V,
  int_lin_inc_r2 eps around uni m A b w = map Some V <-> r2_call eps around uni m A b (Some w) [] = (Some V, []).
Proof. exact r2_given_window. Qed.
Print Assumptions C66_given_window.

(** Without a window: one square around the origin, in which every point lies
    that lineqs itself lists for the orthant (a slice that needs no window is
    left as it is). *)
Theorem C66_chosen_window : forall around uni m A b st V st', r2_call 0 around uni m A b None st = (Some V, st') ->
  exists M, int_lin_inc_r2 0 around uni m A b ((- M, - M), (M, M)) = map Some V /\
  forall sg, In sg orthants2 -> exists P, lineqs 0 around (wl_rows uni m sg A b) None = Some P /\
    ((forall w, lineqs 0 around (wl_rows uni m sg A b) w = Some P) \/
     forall p u, In p P -> finite_at p u -> exists v, fst u = around (fst v) /\ snd u = around (snd v) /\ Rabs (fst v) <= M /\ Rabs (snd v) <= M).
Proof. exact r2_default_window. Qed.
Print Assumptions C66_chosen_window.

(** The variable is empty after any history that ends with a call of IntLinIncR2
    that returns, and after calls of lineqs with windows. *)
Theorem C66_reset : forall eps around cs c, returns eps around c (history eps around cs) -> history eps around (cs ++ [c]) = [].
Proof. exact r2_history. Qed.
Print Assumptions C66_reset.

Theorem C66_lineqs_given_window_keeps : forall eps around cs, (forall c, In c cs -> exists rows w, c = CallLineqs rows (Some w)) -> history eps around cs = [].
Proof. exact given_history. Qed.
Print Assumptions C66_lineqs_given_window_keeps.

(** After a call of lineqs without a window the given window is ignored. *)
Theorem C66_earlier_calls_refuted : exists cs A b w V V', history 0 (fun x => x) cs <> [] /\
  fst (r2_call 0 (fun x => x) true 1 A b (Some w) []) = Some V /\
  fst (r2_call 0 (fun x => x) true 1 A b (Some w) (history 0 (fun x => x) cs)) = Some V' /\ V <> V'.
Proof. exact stale_window_refuted. Qed.
Print Assumptions C66_earlier_calls_refuted.

(** The window chosen for x >= 0, y >= 0 is a point; that for the wedge
    x - 10 y >= 10, x + 10 y >= 10 misses the set, and lineqs raises. *)
Theorem C66_default_window_refuted :
  (~ bounded quadrant /\ in_set quadrant (1, 1) /\ lineqs 0 (fun x => x) quadrant None = Some [(Fin 0, Fin 0)]) /\
  (~ bounded wedge /\ in_set wedge (11, 0) /\ lineqs 0 (fun x => x) wedge None = None).
Proof. exact (conj default_window_point default_window_raises). Qed.
Print Assumptions C66_default_window_refuted.

Example C66_default_case : exists V, r2_call 0 (fun x => x) true 1 zeroA zerob None [] = (Some V, []) /\ length V = 4%nat.
Proof. exact default_case. Qed.
Example C66_case : exists V, r2_call 0 (fun x => x) true 1 zeroA zerob (Some ((- (1), - (1)), (1, 1))) [] = (Some V, []) /\
  returns 0 (fun x => x) (CallR2 true 1 zeroA zerob (Some ((- (1), - (1)), (1, 1)))) (history 0 (fun x => x) []).
Proof.
  destruct (all_slices 1 ltac:(now right)) as (Vs & E & _). apply (r2_given_window 0 (fun x => x) true 1 zeroA zerob) in E. eexists. split; [exact E|]. intro X. assert (Q := eq_trans (eq_sym X) (f_equal fst E)). discriminate Q.
Qed.

(** ** C62 *)
Theorem C62_plane_parametrized : forall a b, a <> (0, 0, 0) ->
  (forall s t, dot3 a (cv_point a b s t) = b) /\
  (forall x, dot3 a x = b -> exists s t, x = cv_point a b s t) /\
  (forall s t s' t', cv_point a b s t = cv_point a b s' t' -> s = s' /\ t = t') /\
  (forall c d s t, holds (cv_row a b c d) (s, t) <-> d <= dot3 c (cv_point a b s t)).
Proof. exact change_variable. Qed.
Print Assumptions C62_plane_parametrized.

Example C62_case : (1, 2, 2) <> (0, 0, 0) /\ dot3 (1, 2, 2) (1, 2, 2) = 9 /\ dot3 (1, 2, 2) (9, 0, 0) = 9.
Proof. split; [intro H; injection H; intros; lra|]. unfold dot3, x1, x2, x3; simpl. split; lra. Qed.