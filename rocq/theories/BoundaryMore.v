(** Proofs about lineqs, the orthant systems and the change of variables. *)
From Coq Require Import Reals List Sorted Arith Bool Lia Lra Psatz.
From Verif Require Import Exact Recog SpecExact ExactProofs RecogProofs Boundary SpecBoundary EstimProofs RohnProofs BoundaryProofs.
Import ListNotations.
Open Scope R_scope.

(** ** Paths *)
Lemma drop_nth_in {T} k (l : list T) a : In a (drop_nth k l) -> In a l.
Proof. revert k. induction l as [|b l IH]; intros [|k]; simpl; auto. intros [->|H]; [now left | right; eauto]. Qed.
Lemma path_loop_in fuel bp bs ix S P : path_loop fuel bp bs ix S = Some P -> forall p, In p P -> exists s, In s S /\ p = s_to s.
Proof.
  revert bs ix S P. induction fuel as [|f IH]; intros bs ix S P H p Hp.
  - simpl in H. destruct S; injection H as <-; destruct Hp.
  - destruct S as [|s0 S]; [simpl in H; injection H as <-; destruct Hp|]. cbn [path_loop] in H. set (SS := s0 :: S) in *.
    destruct (match find_start bs 0 SS with Some k => Some k | None => ix end) as [k|]; [|discriminate].
    destruct (nth_error SS k) as [s|] eqn:Ek; [|discriminate]. assert (Hs : In s SS) by (now apply nth_error_In with k).
    destruct (ext_lt tol8 (ept_dist bs (s_to s))).
    + destruct (ext_lt (ept_dist bp (s_to s)) tol8); [injection H as <-; destruct Hp as [<-|[]]; eauto|].
      destruct (path_loop f bp (s_to s) (Some k) (drop_nth k SS)) as [l|] eqn:El; [|discriminate]. injection H as <-. destruct Hp as [<-|Hp]; [eauto|].
      destruct (IH _ _ _ _ El p Hp) as (s' & Hs' & ->). exists s'. split; [now apply drop_nth_in in Hs'|reflexivity].
    + destruct (IH _ _ _ _ H p Hp) as (s' & Hs' & ->). exists s'. split; [now apply drop_nth_in in Hs'|reflexivity].
Qed.
Lemma path_in S P p : intervals2path S = Some P -> In p P -> exists s, In s S /\ (p = s_from s \/ p = s_to s).
Proof.
  destruct S as [|s S]; [discriminate|]. unfold intervals2path. destruct (path_loop _ _ _ _ _) as [l|] eqn:E; [|discriminate].
  intros H Hp. injection H as <-. destruct Hp as [<-|Hp]; [exists s; split; [now left|now left]|].
  destruct (path_loop_in _ _ _ _ _ _ E p Hp) as (s' & Hs' & ->). eauto.
Qed.
Lemma firsts_in seen l p : In p (firsts seen l) -> In p l.
Proof. revert seen. induction l as [|a l IH]; intros seen; simpl; [auto|]. destruct in_dec; [right; eauto | intros [->|H]; [now left | right; eauto]]. Qed.
Lemma firsts_nodup l : forall seen, NoDup (firsts seen l) /\ forall p, In p (firsts seen l) -> ~ In p seen.
Proof.
  induction l as [|a l IH]; intro seen; simpl; [split; [constructor|auto]|]. destruct in_dec as [|N]; [apply IH|]. destruct (IH (a :: seen)) as [H1 H2].
  split; [constructor; [intro H; apply (H2 a H); now left | exact H1]|]. intros p [<-|Hp]; [exact N|]. intro Hs. apply (H2 p Hp). now right.
Qed.
Lemma firsts_all l p : forall seen, In p l -> In p seen \/ In p (firsts seen l).
Proof.
  induction l as [|a l IH]; intros seen; simpl; [intros []|]. intros [->|H]; destruct in_dec as [I|N]; auto; [right; now left|]. destruct (IH (a :: seen) H) as [[<-|?]|?]; auto; right; [now left|now right].
Qed.
Theorem unique_spec around l : NoDup (unique around l) /\ forall p, In p (unique around l) <-> exists q, In q l /\ p = around_ept around q.
Proof.
  unfold unique. split; [apply firsts_nodup|]. intro p. split.
  - intro H. apply firsts_in in H. apply in_map_iff in H. destruct H as (q & <- & Hq). eauto.
  - intros (q & Hq & ->). destruct (firsts_all (map (around_ept around) l) (around_ept around q) []) as [[]|H]; [now apply in_map | exact H].
Qed.
(** ** lineqs *)
Lemma cleared_nonzero around rows r : In r (fst (clear_zero_rows around rows)) -> nonzero r.
Proof.
  unfold clear_zero_rows; simpl. intro H. apply filter_In in H. destruct H as [_ H]. unfold zero_row, tiny in H. unfold nonzero.
  destruct (Req_dec (a0 r) 0) as [E0|E0]; [|auto]. destruct (Req_dec (a1 r) 0) as [E1|E1]; [|auto]. rewrite E0, E1, Rabs_R0 in H. destruct Rle_dec; [discriminate|lra].
Qed.
Lemma box_nonzero w r : In r (box_rows w) -> nonzero r.
Proof. unfold box_rows, nonzero. simpl. intros [<-|[<-|[<-|[<-|[]]]]]; simpl; lra. Qed.
Lemma seg_ends rows s p u : (forall r, In r rows -> nonzero r) -> In s (boundary_intervals 0 rows) -> p = s_from s \/ p = s_to s -> finite_at p u -> in_set rows u.
Proof.
  intros Nz Hs Hp Hu. destruct (bi_spec 0 rows Nz) as (H1 & _ & _). destruct (H1 s Hs) as (r & q0 & q1 & Hr & E0 & E1 & L0 & L1 & (t & T0 & T1) & Fc).
  assert (G : forall t', u = param r t' -> above q0 t' -> below q1 t' -> in_set rows u). { intros t' E A1 A2. apply Fc. eauto. }
  destruct Hp as [->| ->].
  - rewrite E0 in Hu. destruct L0 as [->|[t0 ->]]; [apply on_line_inf in Hu; [destruct Hu|auto]|]. rewrite on_line_fin in Hu. unfold finite_at in Hu. injection Hu as U1 U2. simpl in T0.
    apply (G t0); [destruct u; simpl in *; unfold param in *; simpl in *; f_equal; lra | simpl; lra |]. destruct L1 as [->|[t1 ->]]; simpl in *; [exact I|lra].
  - rewrite E1 in Hu. destruct L1 as [->|[t1 ->]]; [apply on_line_inf in Hu; [destruct Hu|auto]|]. rewrite on_line_fin in Hu. unfold finite_at in Hu. injection Hu as U1 U2. simpl in T1.
    apply (G t1); [destruct u; simpl in *; unfold param in *; simpl in *; f_equal; lra | | simpl; lra]. destruct L0 as [->|[t0 ->]]; simpl in *; [exact I|lra].
Qed.
(** Every finite vertex returned is the rounding of a point that satisfies the
    (rounded, non-zero) inequalities; no vertex is repeated. *)
Theorem lineqs_sound around rows bounds P : lineqs 0 around rows bounds = Some P ->
  NoDup P /\ forall p u, In p P -> finite_at p u ->
    exists v, fst u = around (fst v) /\ snd u = around (snd v) /\ in_set (fst (clear_zero_rows around rows)) v.
Proof.
  unfold lineqs. set (rs := fst (clear_zero_rows around rows)). intro H.
  assert (Nz : forall r, In r rs -> nonzero r) by apply cleared_nonzero.
  destruct (boundary_intervals 0 rs) as [|s0 S0] eqn:ES; [injection H as <-; split; [constructor | intros p u []]|]. rewrite <- ES in H.
  set (S' := if unbounded (boundary_intervals 0 rs) then _ else _) in H. destruct (intervals2path S') as [Q|] eqn:EQ; [|discriminate]. injection H as <-.
  split; [apply unique_spec|]. intros p u Hp Fu. apply unique_spec in Hp. destruct Hp as (q & Hq & ->). destruct (path_in S' Q q EQ Hq) as (s & Hs & E).
  assert (Fq : exists v, finite_at q v /\ fst u = around (fst v) /\ snd u = around (snd v)).
  { unfold finite_at, around_ept in Fu. destruct q as [[x| | |] [y| | |]]; simpl in Fu; try discriminate. injection Fu as U1 U2. exists (x, y). split; [reflexivity|]. simpl. auto. }
  destruct Fq as (v & Fv & V1 & V2). exists v. split; [exact V1|split; [exact V2|]]. unfold S' in Hs. destruct (unbounded _).
  - assert (K : in_set (rs ++ box_rows match bounds with Some w => w | None => window (feet rs (boundary_intervals 0 rs)) end) v).
    { apply (seg_ends _ s q v); auto. intros r Hr. apply in_app_iff in Hr. destruct Hr; [auto | now apply box_nonzero in H]. }
    intros r Hr. apply K. apply in_app_iff. now left.
  - exact (seg_ends rs s q v Nz Hs E Fv).
Qed.
Lemma path_nonempty S P : intervals2path S = Some P -> P <> [].
Proof. destruct S as [|s S]; [discriminate|]. unfold intervals2path. destruct (path_loop _ _ _ _ _); [|discriminate]. intro H. injection H as <-. discriminate. Qed.
(** An empty answer means that the non-zero inequalities have no solution. *)
Theorem lineqs_empty eps around rows bounds : lineqs eps around rows bounds = Some [] -> fst (clear_zero_rows around rows) <> [] ->
  forall x, ~ in_set (fst (clear_zero_rows around rows)) x.
Proof.
  unfold lineqs. set (rs := fst (clear_zero_rows around rows)). intros H Ne. assert (Nz : forall r, In r rs -> nonzero r) by apply cleared_nonzero.
  destruct (boundary_intervals eps rs) as [|s0 S0] eqn:ES; [now apply (boundary_empty eps)|]. rewrite <- ES in H. exfalso.
  destruct (intervals2path _) as [Q|] eqn:EQ; [|discriminate]. injection H as H. apply path_nonempty in EQ. destruct Q as [|q Q]; [congruence|].
  assert (I : In (around_ept around q) (unique around (q :: Q))) by (apply unique_spec; exists q; split; [now left|reflexivity]). rewrite H in I. destruct I.
Qed.
(** A zero row with a positive right-hand side is dropped: 0 >= 1 and x >= 0
    have no common solution, but the answer is not empty. *)
Definition zr_rows : list row := [mkrow 0 0 1; mkrow 1 0 0; mkrow 0 1 0].
Lemma tiny_zero x : x = 0 -> tiny x = true.
Proof. intros ->. unfold tiny. rewrite Rabs_R0. destruct Rle_dec; [reflexivity|lra]. Qed.
Lemma tiny_one x : x = 1 \/ x = -1 -> tiny x = false.
Proof. unfold tiny. intros [-> | ->]; destruct Rle_dec as [L|L]; auto; [rewrite Rabs_right in L by lra | rewrite Rabs_left in L by lra]; lra. Qed.
Theorem lineqs_zero_row_refuted : exists rows, forall bounds, (forall x, ~ in_set rows x) /\ lineqs 0 (fun x => x) rows bounds <> Some [].
Proof.
  exists zr_rows. intro bounds. split.
  - intros x H. assert (T := H (mkrow 0 0 1) ltac:(now left)). unfold holds in T; simpl in T. lra.
  - intro H. assert (E : fst (clear_zero_rows (fun x => x) zr_rows) = [mkrow 1 0 0; mkrow 0 1 0]).
    { unfold clear_zero_rows, zr_rows, around_row; cbn [map a0 a1 rhs fst filter]. unfold zero_row; cbn [a0 a1]. rewrite !(tiny_zero 0), !(tiny_one 1) by auto. reflexivity. }
    refine (lineqs_empty _ _ _ _ H _ (0, 0) _); rewrite E; [discriminate|]. intros r [<-|[<-|[]]]; unfold holds; simpl; lra.
Qed.

(** ** Orthant systems *)
Section Orth.
Context (m n : nat) (A : imat) (sg : nat -> bool).
Hypothesis PA : proper_mat m n A.
Lemma wl_lo x i : in_orthant n sg x -> (i < m)%nat -> total n (fun j => rl (wl_tmp sg A i j) * x j) = rl (imv n A x i).
Proof.
  intros Hx Hi. rewrite (imv_lo m n A x i PA Hi). unfold times. apply total_ext. intros j Hj. specialize (Hx j Hj). unfold wl_tmp, at_lo.
  destruct (sg j); simpl; destruct Rle_dec; try reflexivity; replace (x j) with 0 by lra; ring.
Qed.
Lemma wl_hi x i : in_orthant n sg x -> (i < m)%nat -> total n (fun j => rh (wl_tmp sg A i j) * x j) = rh (imv n A x i).
Proof.
  intros Hx Hi. rewrite (imv_hi m n A x i PA Hi). unfold times. apply total_ext. intros j Hj. specialize (Hx j Hj). unfold wl_tmp, at_hi.
  destruct (sg j); simpl; destruct Rle_dec; try reflexivity; replace (x j) with 0 by lra; ring.
Qed.
Lemma times_neg G x i : times n (neg_mat G) x i = - times n G x i.
Proof. unfold times, neg_mat. rewrite <- total_opp. apply total_ext. intros. ring. Qed.
Lemma wl_row1 uni x i : (i < m)%nat -> times n (wl_A uni m sg A) x i = (if uni then 1 else -1) * total n (fun j => rl (wl_tmp sg A i j) * x j).
Proof. intro Hi. unfold times, wl_A. rewrite (proj2 (Nat.ltb_lt i m) Hi). rewrite <- total_scal. apply total_ext. intros. destruct uni; ring. Qed.
Lemma wl_row2 uni x i : (i < m)%nat -> times n (wl_A uni m sg A) x (m + i)%nat = (if uni then -1 else 1) * total n (fun j => rh (wl_tmp sg A i j) * x j).
Proof.
  intro Hi. unfold times, wl_A. rewrite (proj2 (Nat.ltb_ge (m + i) m)) by lia. rewrite (proj2 (Nat.ltb_lt (m + i) (2 * m))) by lia.
  replace (m + i - m)%nat with i by lia. rewrite <- total_scal. apply total_ext. intros. destruct uni; ring.
Qed.
Lemma wl_row3 uni x k : (k < n)%nat -> times n (wl_A uni m sg A) x (2 * m + k)%nat = if sg k then x k else - x k.
Proof.
  intro Hk. unfold times, wl_A. rewrite (proj2 (Nat.ltb_ge (2 * m + k) m)) by lia. rewrite (proj2 (Nat.ltb_ge (2 * m + k) (2 * m))) by lia.
  replace (2 * m + k - 2 * m)%nat with k by lia. rewrite (total_pick n k _ Hk).
  - rewrite Nat.eqb_refl. destruct (sg k); ring.
  - intros j Hj Ne. destruct (Nat.eqb_spec k j); [congruence|ring].
Qed.
(** The system [-W x >= -h] for right-hand sides [h] that are 0 in the last n rows. *)
Lemma wl_sat uni h x : (forall k, (k < n)%nat -> h (2 * m + k)%nat = 0) ->
  satisfies (2 * m + n) n (neg_mat (wl_A uni m sg A)) (neg_vec h) x <->
  in_orthant n sg x /\ forall i, (i < m)%nat -> (if uni then 1 else -1) * rl (imv n A x i) <= h i /\ (if uni then -1 else 1) * rh (imv n A x i) <= h (m + i)%nat.
Proof.
  intro H0. unfold satisfies, neg_vec. split.
  - intro H. assert (Ho : in_orthant n sg x).
    { intros k Hk. specialize (H (2 * m + k)%nat ltac:(lia)). rewrite times_neg, wl_row3, H0 in H by exact Hk. destruct (sg k); lra. }
    split; [exact Ho|]. intros i Hi. assert (H1 := H i ltac:(lia)). assert (H2 := H (m + i)%nat ltac:(lia)).
    rewrite times_neg, wl_row1, wl_lo in H1 by auto. rewrite times_neg, wl_row2, wl_hi in H2 by auto. lra.
  - intros [Ho H] i Hi. rewrite times_neg. destruct (lt_dec i m) as [L|L]; [|destruct (lt_dec i (2 * m)) as [L2|L2]].
    + rewrite wl_row1, wl_lo by auto. destruct (H i L). lra.
    + replace i with (m + (i - m))%nat by lia. rewrite wl_row2, wl_hi by (auto; lia). destruct (H (i - m)%nat ltac:(lia)). lra.
    + replace i with (2 * m + (i - 2 * m))%nat by lia. rewrite wl_row3, H0 by lia. specialize (Ho (i - 2 * m)%nat ltac:(lia)). destruct (sg _); lra.
Qed.
Lemma united_rows_iff b x : united m n A b x <-> forall i, (i < m)%nat -> exists v, inI (b i) v /\ inI (imv n A x i) v.
Proof.
  split.
  - intros (M & v & HM & Hv & S) i Hi. exists (v i). split; [now apply Hv|]. rewrite <- (S i Hi). now apply (imv_encl m n).
  - intro H.
    assert (Q : forall i, (i < m)%nat -> let v := Rmax (rl (b i)) (rl (imv n A x i)) in inI (b i) v /\ inI (imv n A x i) v).
    { intros i Hi. destruct (H i Hi) as (v & Hv1 & Hv2). cbv zeta. unfold inI in *. unfold Rmax. destruct Rle_dec; lra. }
    destruct (imv_attained m n A x (fun i => Rmax (rl (b i)) (rl (imv n A x i))) PA ltac:(intros; now apply Q)) as (M & HM & E).
    exists M, (fun i => Rmax (rl (b i)) (rl (imv n A x i))). split; [exact HM|split; [intros i Hi; now apply Q | exact E]].
Qed.
Lemma tol_rows_iff b x : tolerable m n A b x <-> forall i, (i < m)%nat -> rl (b i) <= rl (imv n A x i) /\ rh (imv n A x i) <= rh (b i).
Proof.
  split.
  - intros H i Hi. rewrite (imv_lo m n A x i PA Hi), (imv_hi m n A x i PA Hi). split; [apply (H _ (at_lo_in m n A x PA) i Hi) | apply (H _ (at_hi_in m n A x PA) i Hi)].
  - intros H M HM i Hi. destruct (imv_encl m n A x M i HM Hi). destruct (H i Hi). unfold inI. lra.
Qed.
Lemma wl_b_tail uni b k : wl_b uni m b (2 * m + k)%nat = 0.
Proof. unfold wl_b. rewrite (proj2 (Nat.ltb_ge (2 * m + k) m)) by lia. rewrite (proj2 (Nat.ltb_ge (2 * m + k) (2 * m))) by lia. reflexivity. Qed.
Lemma wl_b_1 uni b i : (i < m)%nat -> wl_b uni m b i = if uni then rh (b i) else - rl (b i).
Proof. intro Hi. unfold wl_b. now rewrite (proj2 (Nat.ltb_lt i m) Hi). Qed.
Lemma wl_b_2 uni b i : (i < m)%nat -> wl_b uni m b (m + i)%nat = if uni then - rl (b i) else rh (b i).
Proof. intro Hi. unfold wl_b. rewrite (proj2 (Nat.ltb_ge (m + i) m)) by lia. rewrite (proj2 (Nat.ltb_lt (m + i) (2 * m))) by lia. now replace (m + i - m)%nat with i by lia. Qed.
Lemma imv_proper x i : (i < m)%nat -> proper (imv n A x i).
Proof. intro Hi. apply isum_proper. intros. apply scale_proper. Qed.
Theorem orthant_united b x : proper_vec m b ->
  (satisfies (2 * m + n) n (neg_mat (wl_A true m sg A)) (neg_vec (wl_b true m b)) x <-> in_orthant n sg x /\ united m n A b x).
Proof.
  intro Pb. rewrite wl_sat by (intros; apply wl_b_tail). rewrite united_rows_iff. split; intros [Ho H]; (split; [exact Ho|]); intros i Hi; specialize (H i Hi).
  - rewrite wl_b_1, wl_b_2 in H by exact Hi. assert (P1 := imv_proper x i Hi). assert (P2 := Pb i Hi). unfold proper, inI in *. exists (Rmax (rl (b i)) (rl (imv n A x i))). unfold Rmax. destruct Rle_dec; lra.
  - rewrite wl_b_1, wl_b_2 by exact Hi. destruct H as (v & V1 & V2). unfold inI in *. lra.
Qed.
Theorem orthant_tolerable b x :
  (satisfies (2 * m + n) n (neg_mat (wl_A false m sg A)) (neg_vec (wl_b false m b)) x <-> in_orthant n sg x /\ tolerable m n A b x).
Proof.
  rewrite wl_sat by (intros; apply wl_b_tail). rewrite tol_rows_iff. split; intros [Ho H]; (split; [exact Ho|]); intros i Hi; specialize (H i Hi).
  - rewrite wl_b_1, wl_b_2 in H by exact Hi. lra.
  - rewrite wl_b_1, wl_b_2 by exact Hi. lra.
Qed.
(** In space the right-hand sides are moved by [d]: the described set lies
    between those for [b] narrowed and widened by [d]. *)
Lemma wl_b3_tail d uni b k : wl_b3 d uni m b (2 * m + k)%nat = 0.
Proof. unfold wl_b3. rewrite wl_b_tail. now rewrite (proj2 (Nat.ltb_ge (2 * m + k) (2 * m))) by lia. Qed.
Lemma wl_b3_range d uni b i : 0 <= d -> (i < 2 * m)%nat -> wl_b uni m b i - d <= wl_b3 d uni m b i <= wl_b uni m b i + d.
Proof. intros Hd Hi. unfold wl_b3. rewrite (proj2 (Nat.ltb_lt i (2 * m)) Hi). destruct Rle_dec; lra. Qed.
Theorem orthant_united_3d d b x : 0 <= d -> proper_vec m b ->
  let S := satisfies (2 * m + n) n (neg_mat (wl_A true m sg A)) (neg_vec (wl_b3 d true m b)) x in
  (S -> in_orthant n sg x /\ united m n A (widen d b) x) /\ (in_orthant n sg x /\ united m n A (widen (- d) b) x -> S).
Proof.
  intros Hd Pb. cbv zeta. rewrite wl_sat by (intros; apply wl_b3_tail). rewrite !united_rows_iff. split; intros [Ho H]; (split; [exact Ho|]); intros i Hi; specialize (H i Hi).
  - assert (R1 := wl_b3_range d true b i Hd ltac:(lia)). assert (R2 := wl_b3_range d true b (m + i)%nat Hd ltac:(lia)). rewrite wl_b_1 in R1 by exact Hi. rewrite wl_b_2 in R2 by exact Hi.
    assert (P1 := imv_proper x i Hi). assert (P2 := Pb i Hi). unfold proper, inI, widen in *. simpl. exists (Rmax (rl (b i) - d) (rl (imv n A x i))). unfold Rmax. destruct Rle_dec; lra.
  - assert (R1 := wl_b3_range d true b i Hd ltac:(lia)). assert (R2 := wl_b3_range d true b (m + i)%nat Hd ltac:(lia)). rewrite wl_b_1 in R1 by exact Hi. rewrite wl_b_2 in R2 by exact Hi.
    destruct H as (v & V1 & V2). unfold inI, widen in *. simpl in V1. lra.
Qed.
Theorem orthant_tolerable_3d d b x : 0 <= d ->
  let S := satisfies (2 * m + n) n (neg_mat (wl_A false m sg A)) (neg_vec (wl_b3 d false m b)) x in
  (S -> in_orthant n sg x /\ tolerable m n A (widen d b) x) /\ (in_orthant n sg x /\ tolerable m n A (widen (- d) b) x -> S).
Proof.
  intros Hd. cbv zeta. rewrite wl_sat by (intros; apply wl_b3_tail). rewrite !tol_rows_iff. split; intros [Ho H]; (split; [exact Ho|]); intros i Hi; specialize (H i Hi).
  - assert (R1 := wl_b3_range d false b i Hd ltac:(lia)). assert (R2 := wl_b3_range d false b (m + i)%nat Hd ltac:(lia)). rewrite wl_b_1 in R1 by exact Hi. rewrite wl_b_2 in R2 by exact Hi.
    unfold widen. simpl. lra.
  - assert (R1 := wl_b3_range d false b i Hd ltac:(lia)). assert (R2 := wl_b3_range d false b (m + i)%nat Hd ltac:(lia)). rewrite wl_b_1 in R1 by exact Hi. rewrite wl_b_2 in R2 by exact Hi.
    unfold widen in *. simpl in *. lra.
Qed.
End Orth.

(** ** Two unknowns *)
Lemma wl_rows_sat uni m sg A b x : in_set (wl_rows uni m sg A b) x <-> satisfies (2 * m + 2) 2 (neg_mat (wl_A uni m sg A)) (neg_vec (wl_b uni m b)) (vec2 x).
Proof.
  unfold in_set, wl_rows, satisfies. split.
  - intros H i Hi. assert (Hin : In i (seq 0 (2 * m + 2))) by (apply in_seq; lia). specialize (H _ (in_map _ _ i Hin)). unfold holds in H; cbn [a0 a1 rhs] in H. unfold times; cbn [total vec2]. lra.
  - intros H r Hr. apply in_map_iff in Hr. destruct Hr as (i & <- & Hi). apply in_seq in Hi. specialize (H i ltac:(lia)). unfold holds; cbn [a0 a1 rhs]. unfold times in H; cbn [total vec2] in H. lra.
Qed.
Lemma some_orthant x : exists sg, In sg orthants2 /\ in_orthant 2 sg x.
Proof.
  destruct (Rle_dec 0 (x 0%nat)) as [H0|H0]; destruct (Rle_dec 0 (x 1%nat)) as [H1|H1].
  - exists (fun _ => false). split; [now left|]. intros [|[|j]] Hj; simpl; [lra|lra|lia].
  - exists (fun k => (k =? 1)%nat). split; [do 3 right; now left|]. intros [|[|j]] Hj; simpl; [lra|lra|lia].
  - exists (fun k => (k =? 0)%nat). split; [right; now left|]. intros [|[|j]] Hj; simpl; [lra|lra|lia].
  - exists (fun _ => true). split; [do 2 right; now left|]. intros [|[|j]] Hj; simpl; [lra|lra|lia].
Qed.
(** Together the four systems describe the solution set. *)
Theorem orthants_cover_united m A b x : proper_mat m 2 A -> proper_vec m b ->
  united m 2 A b (vec2 x) <-> exists sg, In sg orthants2 /\ in_set (wl_rows true m sg A b) x.
Proof.
  intros PA Pb. split.
  - intro H. destruct (some_orthant (vec2 x)) as (sg & Hs & Ho). exists sg. split; [exact Hs|]. apply wl_rows_sat. apply orthant_united; auto.
  - intros (sg & _ & H). apply wl_rows_sat in H. apply orthant_united in H; [tauto|exact PA|exact Pb].
Qed.
Theorem orthants_cover_tolerable m A b x : proper_mat m 2 A ->
  tolerable m 2 A b (vec2 x) <-> exists sg, In sg orthants2 /\ in_set (wl_rows false m sg A b) x.
Proof.
  intros PA. split.
  - intro H. destruct (some_orthant (vec2 x)) as (sg & Hs & Ho). exists sg. split; [exact Hs|]. apply wl_rows_sat. apply orthant_tolerable; auto.
  - intros (sg & _ & H). apply wl_rows_sat in H. apply orthant_tolerable in H; [tauto|exact PA].
Qed.
(** Vertices: when rounding leaves the system unchanged and no row is zero, every
    finite vertex of orthant [k] is (up to the final rounding) a solution in it. *)
Theorem r2_vertices uni around m A b bounds k sg P : proper_mat m 2 A -> proper_vec m b ->
  nth_error orthants2 k = Some sg ->
  (forall r, In r (wl_rows uni m sg A b) -> around_row around r = r /\ zero_row r = false) ->
  nth_error (int_lin_inc_r2 0 around uni m A b bounds) k = Some (Some P) ->
  forall p u, In p P -> finite_at p u -> exists v, fst u = around (fst v) /\ snd u = around (snd v) /\ in_orthant 2 sg (vec2 v) /\
    (if uni then united m 2 A b (vec2 v) else tolerable m 2 A b (vec2 v)).
Proof.
  intros PA Pb Hk Hr HP p u Hp Hu. unfold int_lin_inc_r2 in HP. rewrite nth_error_map, Hk in HP. simpl in HP. injection HP as HP.
  destruct (lineqs_sound _ _ _ _ HP) as [_ L]. destruct (L p u Hp Hu) as (v & V1 & V2 & V3). exists v. split; [exact V1|split; [exact V2|]].
  assert (E : fst (clear_zero_rows around (wl_rows uni m sg A b)) = wl_rows uni m sg A b).
  { unfold clear_zero_rows; cbn [fst]. assert (E1 : map (around_row around) (wl_rows uni m sg A b) = wl_rows uni m sg A b).
    { rewrite <- (map_id (wl_rows uni m sg A b)) at 2. apply map_ext_in. intros r Hin. now apply Hr. }
    rewrite E1. clear - Hr. induction (wl_rows uni m sg A b) as [|r l IH]; [reflexivity|]. simpl. destruct (Hr r (or_introl eq_refl)) as [_ ->]. simpl. f_equal. apply IH. intros q Hq. apply Hr. now right. }
  rewrite E in V3. apply wl_rows_sat in V3. destruct uni; [apply orthant_united in V3 | apply orthant_tolerable in V3]; auto.
Qed.
(** An equation 0 x = [1, 2] has no solution, yet an orthant gets an answer. *)
Theorem r2_zero_row_refuted : exists A b, proper_mat 1 2 A /\ proper_vec 1 b /\ (forall x, ~ united 1 2 A b x) /\
  forall bounds, nth_error (int_lin_inc_r2 0 (fun x => x) true 1 A b bounds) 0 <> Some (Some []).
Proof.
  exists (fun _ _ => mkr 0 0), (fun _ => mkr 1 2). split; [intros i j _ _; unfold proper; simpl; lra|]. split; [intros i _; unfold proper; simpl; lra|]. split.
  - intros x (M & v & HM & Hv & S). specialize (Hv O ltac:(lia)). rewrite <- (S O ltac:(lia)) in Hv. assert (M0 := HM O O ltac:(lia) ltac:(lia)). assert (M1 := HM O 1%nat ltac:(lia) ltac:(lia)).
    unfold inI, times in *. simpl in *. replace (M O O) with 0 in Hv by lra. replace (M O 1%nat) with 0 in Hv by lra. lra.
  - intros bounds H. simpl in H. injection H as H. set (rows := wl_rows _ _ _ _ _) in H.
    assert (E : fst (clear_zero_rows (fun x => x) rows) = [mkrow (- -1) (- 0) (- 0); mkrow (- 0) (- -1) (- 0)]).
    { unfold rows, wl_rows, clear_zero_rows, around_row, neg_mat, neg_vec, wl_A, wl_b. simpl. unfold zero_row; cbn [a0 a1].
      rewrite !(tiny_zero (- 0)), !(tiny_zero (- - 0)) by lra. rewrite !(tiny_one (- -1)) by lra. reflexivity. }
    refine (lineqs_empty _ _ _ _ H _ (0, 0) _); rewrite E; [discriminate|]. intros r [<-|[<-|[]]]; unfold holds; simpl; lra.
Qed.

(** ** Change of variables in space *)
Lemma cv_orth a : dot3 a (cv_y1 a) = 0 /\ dot3 a (cv_y2 a) = 0 /\ dot3 (cv_y1 a) (cv_y2 a) = 0.
Proof. unfold cv_y2, cv_y1, cross3, dot3, x1, x2, x3. destruct (cv_l a) as [|[|l]]; simpl; repeat split; ring. Qed.
Lemma dot3_pos u : u <> (0, 0, 0) -> 0 < dot3 u u.
Proof.
  intro H. destruct u as [[x y] z]. unfold dot3, x1, x2, x3; simpl. destruct (Req_dec x 0) as [->|]; [|nra]. destruct (Req_dec y 0) as [->|]; [|nra]. destruct (Req_dec z 0) as [->|]; [congruence|nra].
Qed.
Lemma cv_y1_nz a : a <> (0, 0, 0) -> 0 < dot3 (cv_y1 a) (cv_y1 a).
Proof.
  intro H. destruct a as [[x y] z]. unfold cv_y1, cv_l, dot3, x1, x2, x3; cbn [fst snd].
  assert (Z : forall t, Rabs t = 0 -> t = 0) by (intros t E; destruct (Req_dec t 0) as [|Ne]; [assumption|apply Rabs_no_R0 in Ne; contradiction]).
  assert (K : forall p q r, Rabs p <= Rabs q -> Rabs p <= Rabs r -> ~ (p = 0 /\ q = 0 /\ r = 0) -> 0 < q * q + r * r).
  { intros p q r L1 L2 N. destruct (Req_dec q 0) as [->|]; [|nra]. destruct (Req_dec r 0) as [->|]; [|nra]. exfalso. apply N. rewrite Rabs_R0 in L1. assert (T := Rabs_pos p). split; [apply Z; lra|auto]. }
  assert (N : forall p : Prop, ~ (x = 0 /\ y = 0 /\ z = 0)) by (intros _ (-> & -> & ->); congruence).
  destruct (Rle_dec (Rabs x) (Rabs y)); [destruct (Rle_dec (Rabs x) (Rabs z))|destruct (Rle_dec (Rabs y) (Rabs z))]; cbn [fst snd].
  - assert (T := K x y z ltac:(lra) ltac:(lra) (N True)). lra.
  - assert (T := K z x y ltac:(lra) ltac:(lra) ltac:(intros (? & ? & ?); apply (N True); auto)). lra.
  - assert (T := K y x z ltac:(lra) ltac:(lra) ltac:(intros (? & ? & ?); apply (N True); auto)). lra.
  - assert (T := K z x y ltac:(lra) ltac:(lra) ltac:(intros (? & ? & ?); apply (N True); auto)). lra.
Qed.
Lemma dot3_point c a b s t : dot3 c (cv_point a b s t) = dot3 c (cv_xi a b) + dot3 c (cv_y1 a) * s + dot3 c (cv_y2 a) * t.
Proof. unfold cv_point, dot3, x1, x2, x3; cbn [fst snd]. ring. Qed.
Lemma dot3_xi c a b : a <> (0, 0, 0) -> dot3 c (cv_xi a b) = dot3 c a * b / dot3 a a.
Proof.
  intro H. apply dot3_pos in H. unfold cv_xi. set (D := dot3 a a) in *. unfold dot3, x1, x2, x3; cbn [fst snd]. field. lra.
Qed.
(** The new variables describe exactly the plane [a . x = b], and the other
    inequalities keep their meaning. *)
Theorem change_variable a b : a <> (0, 0, 0) ->
  (forall s t, dot3 a (cv_point a b s t) = b) /\
  (forall x, dot3 a x = b -> exists s t, x = cv_point a b s t) /\
  (forall s t s' t', cv_point a b s t = cv_point a b s' t' -> s = s' /\ t = t') /\
  (forall c d s t, holds (cv_row a b c d) (s, t) <-> d <= dot3 c (cv_point a b s t)).
Proof.
  intro Nz. assert (Pa := dot3_pos a Nz). assert (P1 := cv_y1_nz a Nz). destruct (cv_orth a) as (O1 & O2 & O3).
  assert (P2 : dot3 (cv_y2 a) (cv_y2 a) = dot3 a a * dot3 (cv_y1 a) (cv_y1 a)).
  { assert (Lg : forall u v, dot3 (cross3 u v) (cross3 u v) = dot3 u u * dot3 v v - dot3 u v * dot3 u v) by (intros; unfold cross3, dot3, x1, x2, x3; cbn [fst snd]; ring).
    unfold cv_y2. rewrite Lg, O1. ring. }
  assert (P3 : 0 < dot3 (cv_y2 a) (cv_y2 a)) by (rewrite P2; nra).
  assert (C : forall u v, dot3 u v = dot3 v u) by (intros; unfold dot3; ring).
  split; [|split; [|split]].
  - intros s t. rewrite dot3_point, O1, O2, dot3_xi by exact Nz. field. lra.
  - intros x Hx. exists (dot3 (cv_y1 a) x / dot3 (cv_y1 a) (cv_y1 a)), (dot3 (cv_y2 a) x / dot3 (cv_y2 a) (cv_y2 a)).
    rewrite P2. subst b. clear P2 P3 C O1 O2 O3 Nz. unfold cv_point, cv_xi, cv_y2. revert P1. unfold cv_y1. destruct a as [[a b] c]. destruct x as [[x y] z].
    unfold cross3, dot3, x1, x2, x3 in *; cbn [fst snd] in *. destruct (cv_l (a, b, c)) as [|[|l]]; cbn [fst snd]; intro P1; f_equal; [f_equal| |f_equal| |f_equal|]; field; split; lra.
  - intros s t s' t' E. assert (E1 : dot3 (cv_y1 a) (cv_point a b s t) = dot3 (cv_y1 a) (cv_point a b s' t')) by now rewrite E.
    assert (E2 : dot3 (cv_y2 a) (cv_point a b s t) = dot3 (cv_y2 a) (cv_point a b s' t')) by now rewrite E.
    rewrite !dot3_point, O3 in E1. rewrite !dot3_point, (C (cv_y2 a) (cv_y1 a)), O3 in E2. split; nra.
  - intros c d s t. unfold holds, cv_row; cbn [a0 a1 rhs fst snd]. rewrite dot3_point. lra.
Qed.
