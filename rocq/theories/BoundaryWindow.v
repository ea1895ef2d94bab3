(** Unbounded sets: some segment starts at infinity, so lineqs adds the window. *)
From Coq Require Import Reals List Arith Bool Lia Lra Psatz Classical FinFun.
From Verif Require Import Exact SpecExact Boundary SpecBoundary BoundaryProofs BoundaryMore BoundaryPath.
Import ListNotations.
Open Scope R_scope.

Lemma max_in {T} (f : T -> R) (l : list T) : l <> [] -> exists k, In k l /\ forall j, In j l -> f j <= f k.
Proof.
  induction l as [|a l IH]; [congruence|]. intros _. destruct l as [|c l].
  - exists a. split; [now left|]. intros j [<-|[]]. lra.
  - destruct IH as (k & Hk & Bk); [discriminate|]. destruct (Rle_dec (f a) (f k)).
    + exists k. split; [now right|]. intros j [<-|Hj]; [assumption|now apply Bk].
    + exists a. split; [now left|]. intros j [<-|Hj]; [lra|]. specialize (Bk j Hj). lra.
Qed.
Lemma eventually {T} (P : T -> R -> Prop) (l : list T) : (forall j, In j l -> exists b, forall t, b <= t -> P j t) -> exists b, forall j, In j l -> forall t, b <= t -> P j t.
Proof.
  induction l as [|a l IH]; intro H; [exists 0; intros j []|]. destruct IH as (b & Hb); [intros j Hj; apply H; now right|]. destruct (H a ltac:(now left)) as (c & Hc).
  exists (Rmax b c). intros j [<-|Hj] t Ht; [apply Hc | apply Hb; [exact Hj|]]; [eapply Rle_trans; [apply Rmax_r|exact Ht] | eapply Rle_trans; [apply Rmax_l|exact Ht]].
Qed.
Section Rows.
Context (rows : list row).
Hypothesis Nz : forall r, In r rows -> nonzero r.
Let S := boundary_intervals 0 rows.
Lemma parallel_dot j r : nonzero j -> nonzero r -> at_pt j (dir r) = 0 -> dot2 j r <> 0.
Proof.
  intros Nj Nr E D. assert (P := norm_pos r Nr). assert (Q := norm_pos j Nj).
  assert (X : dot2 j j * dot2 r r = dot2 j r * dot2 j r + at_pt j (dir r) * at_pt j (dir r)) by (unfold dot2, at_pt, dir; simpl; ring). rewrite E, D in X. nra.
Qed.
Lemma far_start x0 r w m : in_set rows x0 -> In r rows -> 0 < m -> dir r = (- m * fst w, - m * snd w) -> (forall j, In j rows -> 0 <= at_pt j w) ->
  exists s, In s S /\ forall u, ~ finite_at (s_from s) u.
Proof.
  intros I0 Ir Hm Ed Rc. assert (Nr := Nz r Ir). assert (RR := norm_pos r Nr).
  assert (DW : forall j, at_pt j (dir r) = - m * at_pt j w) by (intro j; rewrite Ed; unfold at_pt; simpl; ring).
  set (same := fun j => if Req_EM_T (at_pt j (dir r)) 0 then (if Rlt_dec 0 (dot2 j r) then true else false) else false).
  assert (Hsame : forall j, In j (filter same rows) <-> In j rows /\ at_pt j (dir r) = 0 /\ 0 < dot2 j r).
  { intro j. rewrite filter_In. unfold same. destruct Req_EM_T; [destruct Rlt_dec|]; split; intros [? ?]; split; auto; try discriminate; tauto. }
  assert (In r (filter same rows)) as Sr by (apply Hsame; split; [exact Ir|]; split; [apply at_dir_self|exact RR]).
  destruct (max_in (fun j => rhs j * dot2 r r / dot2 j r) (filter same rows)) as (k & Hk & Mk); [intro X; rewrite X in Sr; destruct Sr|].
  apply Hsame in Hk. destruct Hk as (Ik & Pk & Dk). assert (Nk := Nz k Ik).
  set (y := param k 0). assert (Ty : at_pt k y = rhs k) by (apply tight_at, param_tight; exact Nk).
  assert (PA : forall j x, at_pt j (dir r) = 0 -> dot2 r r * at_pt j x = dot2 j r * at_pt r x) by (intros; now apply parallel_at).
  assert (Ky := PA k y Pk). assert (Kx := PA k x0 Pk). rewrite Ty in Ky. assert (Xk := I0 k Ik). rewrite holds_at in Xk.
  assert (By : at_pt r y <= at_pt r x0) by nra.
  destruct (eventually (fun j t => holds j (go y t w)) rows) as (b & Hb).
  { intros j Hj. destruct (Req_dec (at_pt j w) 0) as [Z|Z].
    - assert (Pj : at_pt j (dir r) = 0) by (rewrite DW, Z; ring). assert (Jy := PA j y Pj). assert (Jx := PA j x0 Pj). assert (Xj := I0 j Hj). rewrite holds_at in Xj.
      exists 0. intros t _. rewrite holds_at, at_go, Z. assert (Nd := parallel_dot j r (Nz j Hj) Nr Pj).
      destruct (Rlt_dec 0 (dot2 j r)) as [Pos|Neg].
      + assert (B := Mk j (proj2 (Hsame j) (conj Hj (conj Pj Pos)))). cbv beta in B.
        replace (rhs k * dot2 r r / dot2 k r) with (at_pt r y) in B by (apply Rmult_eq_reg_l with (dot2 k r); [field_simplify; lra|lra]).
        apply (Rmult_le_compat_l (dot2 j r)) in B; [|lra]. replace (dot2 j r * (rhs j * dot2 r r / dot2 j r)) with (dot2 r r * rhs j) in B by (field; lra). nra.
      + assert (dot2 j r < 0) by lra. nra.
    - assert (0 < at_pt j w) as P by (specialize (Rc j Hj); lra). exists ((rhs j - at_pt j y) / at_pt j w). intros t Ht. rewrite holds_at, at_go.
      apply (Rmult_le_compat_r (at_pt j w)) in Ht; [|lra]. replace ((rhs j - at_pt j y) / at_pt j w * at_pt j w) with (rhs j - at_pt j y) in Ht by (field; lra). lra. }
  assert (Zk : at_pt k w = 0) by (rewrite DW in Pk; nra).
  apply In_nth_error in Ik. destruct Ik as (i & Hi).
  assert (Fc : forall t, b <= t -> face rows i (go y t w)).
  { intros t Ht. split; [intros j Hj; now apply Hb|]. exists k. split; [exact Hi|]. rewrite tight_at, at_go, Zk. lra. }
  destruct (bi_spec 0 rows Nz) as (_ & H2 & _). destruct (H2 i (go y b w)) as (s & Hs & Es); [apply Fc; lra|]. exists s. split; [exact Hs|]. intros u Hu.
  destruct (boundary_ends 0 rows s k Nz Hs) as [E1 _]; [rewrite Es; exact Hi|]. destruct (proj1 E1) as (t & Ht); [now exists u|]. rewrite Es in Ht.
  assert (Aw : along k w < 0).
  { assert (X : along k w * dot2 r r = dot2 k r * (fst (dir r) * fst w + snd (dir r) * snd w)).
    { unfold along. assert (Y : at_pt k (dir r) = 0) by exact Pk. unfold at_pt, dir, dot2 in *; simpl in *.
      transitivity ((a0 k * a0 r + a1 k * a1 r) * (- a1 r * fst w + a0 r * snd w) - (a0 k * - a1 r + a1 k * a0 r) * (a0 r * fst w + a1 r * snd w)); [ring|]. rewrite Y. ring. }
    rewrite Ed in X. cbn [fst snd] in X.
    assert (Wp : 0 < fst w * fst w + snd w * snd w).
    { assert (fst (dir r) * fst (dir r) + snd (dir r) * snd (dir r) = dot2 r r) as Y by (unfold dot2, dir; simpl; ring). rewrite Ed in Y. cbn [fst snd] in Y. replace (- m * fst w * (- m * fst w) + - m * snd w * (- m * snd w)) with (m * m * (fst w * fst w + snd w * snd w)) in Y by ring. nra. }
    replace (- m * fst w * fst w + - m * snd w * snd w) with (- m * (fst w * fst w + snd w * snd w)) in X by ring.
    assert (0 < m * (fst w * fst w + snd w * snd w)) by nra. nra. }
  set (T := Rmax b ((t - 1 - along k y) / along k w)). specialize (Ht (go y T w) (Fc T (Rmax_l _ _))).
  replace (along k (go y T w)) with (along k y + T * along k w) in Ht by (unfold along, go; simpl; ring).
  assert (L : (t - 1 - along k y) / along k w <= T) by apply Rmax_r. assert (E : (t - 1 - along k y) / along k w * along k w = t - 1 - along k y) by (field; lra). nra.
Qed.
(** A segment that ends at infinity comes with one that starts there *)
Lemma infinite_start s x0 : In s S -> in_set rows x0 -> (forall u, ~ finite_at (s_to s) u) -> exists s', In s' S /\ forall u, ~ finite_at (s_from s') u.
Proof.
  intros Hs I0 Inf. destruct (bi_spec 0 rows Nz) as (H1 & _ & _). destruct (H1 s Hs) as (r & q0 & q1 & Hr & E0 & E1 & L0 & L1 & (t & Ht) & Fc).
  assert (q1 = PInf) as ->. { destruct L1 as [|[t1 ->]]; [assumption|]. exfalso. rewrite on_fin in E1. apply (Inf (param r t1)). exact E1. }
  assert (Ir := nth_error_In _ _ Hr). assert (Nr := Nz r Ir). assert (RR := norm_pos r Nr).
  assert (Up : forall t', t <= t' -> in_set rows (param r t')).
  { intros t' Ht'. assert (face rows (s_idx s) (param r t')) as X; [|apply X]. apply Fc. exists t'. split; [reflexivity|]. destruct Ht as [A _]. destruct L0 as [->|[t0 ->]]; simpl in *; split; auto; lra. }
  assert (Rc : forall j, In j rows -> 0 <= at_pt j (dir r)).
  { intros j Hj. destruct (Rle_dec 0 (at_pt j (dir r))) as [|N]; [assumption|]. exfalso. set (c := at_pt j (dir r)) in *.
    assert (X := Up (Rmax t ((rhs j - 1 - at_pt j (foot r)) / c)) (Rmax_l _ _) j Hj). rewrite holds_at, at_param in X. fold c in X.
    assert (L := Rmax_r t ((rhs j - 1 - at_pt j (foot r)) / c)). assert (E : (rhs j - 1 - at_pt j (foot r)) / c * c = rhs j - 1 - at_pt j (foot r)) by (field; lra). nra. }
  destruct (classic (exists j, In j rows /\ at_pt j (dir r) = 0 /\ dot2 j r < 0)) as [(j & Hj & Pj & Dj)|Nopp].
  - apply (far_start x0 j (dir r) (- dot2 j r / dot2 r r)); auto.
    + apply Rdiv_lt_0_compat; lra.
    + unfold dot2, at_pt, dir in *; cbn [fst snd] in *. f_equal; apply Rmult_eq_reg_l with (a0 r * a0 r + a1 r * a1 r); try lra.
      * replace ((a0 r * a0 r + a1 r * a1 r) * (- (- (a0 j * a0 r + a1 j * a1 r) / (a0 r * a0 r + a1 r * a1 r)) * - a1 r)) with (- (a0 j * a0 r + a1 j * a1 r) * a1 r) by (field; lra). transitivity (- a0 r * (a0 j * - a1 r + a1 j * a0 r) - (a0 j * a0 r + a1 j * a1 r) * a1 r); [ring|]. rewrite Pj. ring.
      * replace ((a0 r * a0 r + a1 r * a1 r) * (- (- (a0 j * a0 r + a1 j * a1 r) / (a0 r * a0 r + a1 r * a1 r)) * a0 r)) with ((a0 j * a0 r + a1 j * a1 r) * a0 r) by (field; lra). transitivity (- a1 r * (a0 j * - a1 r + a1 j * a0 r) + (a0 j * a0 r + a1 j * a1 r) * a0 r); [ring|]. rewrite Pj. ring.
  - set (up := fun j => if Rlt_dec 0 (at_pt j (dir r)) then true else false).
    assert (Hup : forall j, In j (filter up rows) <-> In j rows /\ 0 < at_pt j (dir r)) by (intro j; rewrite filter_In; unfold up; destruct Rlt_dec; split; intros [? ?]; split; auto; try discriminate; tauto).
    destruct (filter up rows) as [|j0 F0] eqn:EF.
    + apply (far_start x0 r (- fst (dir r), - snd (dir r)) 1); auto; [lra | cbn [fst snd]; unfold dir; simpl; f_equal; ring |].
      intros j Hj. replace (at_pt j (- fst (dir r), - snd (dir r))) with (- at_pt j (dir r)) by (unfold at_pt; simpl; ring). specialize (Rc j Hj).
      destruct (Rlt_dec 0 (at_pt j (dir r))) as [P|]; [|lra]. exfalso. apply (proj2 (Hup j)). auto.
    + rewrite <- EF in Hup. set (f := fun j => - dot2 j r / at_pt j (dir r)). destruct (max_in f (filter up rows)) as (k & Hk & Mk); [rewrite EF; discriminate|].
      apply Hup in Hk. destruct Hk as [Ik Ck]. set (c := at_pt k (dir r)) in *. set (w := (f k * fst (dir r) + a0 r, f k * snd (dir r) + a1 r)).
      assert (AW : forall j, at_pt j w = f k * at_pt j (dir r) + dot2 j r) by (intro; unfold w, at_pt, dot2; simpl; ring).
      assert (Fk : f k * c = - dot2 k r) by (unfold f; fold c; field; lra).
      apply (far_start x0 k w (c / dot2 r r)); auto.
      * apply Rdiv_lt_0_compat; lra.
      * unfold w, dir; cbn [fst snd]. f_equal; apply Rmult_eq_reg_l with (dot2 r r); try lra.
        -- replace (dot2 r r * (- (c / dot2 r r) * (f k * - a1 r + a0 r))) with (f k * c * a1 r - c * a0 r) by (field; lra). rewrite Fk. unfold c, dot2, at_pt, dir; simpl. ring.
        -- replace (dot2 r r * (- (c / dot2 r r) * (f k * a0 r + a1 r))) with (- (f k * c) * a0 r - c * a1 r) by (field; lra). rewrite Fk. unfold c, dot2, at_pt, dir; simpl. ring.
      * intros j Hj. rewrite AW. assert (Cj := Rc j Hj). destruct (Rlt_dec 0 (at_pt j (dir r))) as [P|N].
        -- assert (B := Mk j (proj2 (Hup j) (conj Hj P))). apply (Rmult_le_compat_r (at_pt j (dir r))) in B; [|lra]. unfold f at 1 in B. replace (- dot2 j r / at_pt j (dir r) * at_pt j (dir r)) with (- dot2 j r) in B by (field; lra). lra.
        -- assert (Z : at_pt j (dir r) = 0) by lra. rewrite Z. destruct (Rlt_dec (dot2 j r) 0) as [Neg|]; [exfalso; apply Nopp; eauto | lra].
Qed.
(** All segments finite: the set is bounded *)
Lemma walk_mid l1 m l3 : walk rows (l1 ++ m ++ l3) -> walk rows m.
Proof.
  intros W k u v Hu Hv. assert (L1 : (k < length m)%nat) by (apply nth_error_Some; congruence). assert (L2 : (1 + k < length m)%nat) by (apply nth_error_Some; congruence).
  apply (W (length l1 + k)%nat).
  - rewrite nth_error_app2 by lia. replace (length l1 + k - length l1)%nat with k by lia. now rewrite nth_error_app1.
  - rewrite nth_error_app2 by lia. replace (1 + (length l1 + k) - length l1)%nat with (1 + k)%nat by lia. now rewrite nth_error_app1.
Qed.
Lemma pt_eq_dec (x y : pt) : {x = y} + {x <> y}.
Proof. decide equality; apply Req_EM_T. Qed.
Lemma repeat_split (l : list pt) : ~ NoDup l -> exists a l1 l2 l3, l = l1 ++ a :: l2 ++ a :: l3.
Proof.
  induction l as [|x l IH]; intro N; [exfalso; apply N; constructor|]. destruct (in_dec pt_eq_dec x l) as [I|I].
  - apply in_split in I. destruct I as (l2 & l3 & ->). exists x, [], l2, l3. reflexivity.
  - destruct IH as (a & l1 & l2 & l3 & ->); [intro Nd; apply N; now constructor|]. exists a, (x :: l1), l2, l3. reflexivity.
Qed.
Lemma long_walk (Fn : forall s, In s S -> exists r t0 t1, seg_at rows s r t0 t1) q0 q1 b : in_set rows q0 -> in_set rows q1 -> q0 <> q1 -> vertex rows b ->
  forall n, exists l c, length l = n /\ walk rows (l ++ [c]) /\ vertex rows c /\ incl (map fin l) (map s_from S).
Proof.
  intros I0 I1 Nq Vb. induction n as [|n (l & c & Ll & Wl & Vc & Il)].
  - exists [], b. split; [reflexivity|]. split; [intros [|k] u v _ Hv; [discriminate|destruct k; discriminate]|]. split; [exact Vb|intros x []].
  - assert (exists q, in_set rows q /\ q <> c) as (q & Iq & Ne) by (destruct (pt_eq_dec q0 c) as [<-|]; eauto).
    destruct (next_seg rows Nz c q Vc Iq Ne Fn) as (s & r & t0 & t1 & Hs & H & L & E).
    exists (l ++ [c]), (param r t1). split; [rewrite app_length; simpl; lia|]. split; [|split; [apply (seg_vertices rows Nz s r t0 t1 H)|]].
    + apply walk_snoc; [exact Wl|]. exists s, r, t0, t1. auto.
    + rewrite map_app. apply incl_app; [exact Il|]. intros x [<-|[]]. apply in_map_iff. exists s. split; [|exact Hs]. rewrite E. apply H.
Qed.
Lemma cycle_exists (Fn : forall s, In s S -> exists r t0 t1, seg_at rows s r t0 t1) q0 q1 b : in_set rows q0 -> in_set rows q1 -> q0 <> q1 -> vertex rows b -> exists a L, walk rows (a :: L ++ [a]).
Proof.
  intros I0 I1 Nq Vb. destruct (long_walk Fn q0 q1 b I0 I1 Nq Vb (1 + length S)%nat) as (l & c & Ll & Wl & _ & Il).
  destruct (repeat_split l) as (a & l1 & l2 & l3 & E).
  { intro Nd. assert (NoDup (map fin l)) as Nd' by (apply Injective_map_NoDup; [intros x y; apply fin_inj|exact Nd]). apply (NoDup_incl_length Nd') in Il. rewrite !map_length in Il. lia. }
  exists a, l2. apply (walk_mid l1 (a :: l2 ++ [a]) (l3 ++ [c])). rewrite E in Wl. clear - Wl. rewrite <- app_assoc in Wl. cbn [app] in *. rewrite <- app_assoc in *. exact Wl.
Qed.
Theorem finite_bounded : rows <> [] -> (forall s, In s S -> exists r t0 t1, seg_at rows s r t0 t1) -> bounded rows.
Proof.
  intros Ne Fn. destruct (classic (exists q0 q1, in_set rows q0 /\ in_set rows q1 /\ q0 <> q1)) as [(q0 & q1 & I0 & I1 & Nq)|N].
  - assert (exists s, In s S) as (s & Hs). { destruct S as [|s S0] eqn:ES; [|exists s; now left]. exfalso. apply (boundary_empty 0 rows Nz Ne ES q0 I0). }
    destruct (Fn s Hs) as (r & t0 & t1 & H). destruct (seg_vertices rows Nz s r t0 t1 H) as [Vb _].
    destruct (cycle_exists Fn q0 q1 _ I0 I1 Nq Vb) as (a & L & W).
    assert (exists B, forall v, In v (a :: L) -> Rabs (fst v) <= B /\ Rabs (snd v) <= B) as (B & HB).
    { clear. generalize (a :: L). intro l. induction l as [|x l (B & HB)]; [exists 0; intros v []|]. exists (Rmax B (Rmax (Rabs (fst x)) (Rabs (snd x)))).
      intros v [<-|Hv]; [split; (eapply Rle_trans; [|apply Rmax_r]); [apply Rmax_l|apply Rmax_r] | destruct (HB v Hv); split; (eapply Rle_trans; [eassumption|apply Rmax_l])]. }
    exists B. intros z Iz.
    assert (Q : forall g0 g1, exists v, In v (a :: L) /\ g0 * fst v + g1 * snd v <= g0 * fst z + g1 * snd z) by (intros g0 g1; exact (cycle_hull rows Nz a L (mkrow g0 g1 0) z W Iz)).
    destruct (Q 1 0) as (v1 & J1 & K1). destruct (Q (-1) 0) as (v2 & J2 & K2). destruct (Q 0 1) as (v3 & J3 & K3). destruct (Q 0 (-1)) as (v4 & J4 & K4).
    apply HB in J1. apply HB in J2. apply HB in J3. apply HB in J4. split; apply Rabs_le.
    + assert (fst v1 >= - B). { assert (X := Rle_abs (- fst v1)). rewrite Rabs_Ropp in X. lra. } assert (X := Rle_abs (fst v2)). lra.
    + assert (snd v3 >= - B). { assert (X := Rle_abs (- snd v3)). rewrite Rabs_Ropp in X. lra. } assert (X := Rle_abs (snd v4)). lra.
  - destruct (classic (exists q, in_set rows q)) as [(q & Iq)|Nq].
    + exists (Rmax (Rabs (fst q)) (Rabs (snd q))). intros x Ix. destruct (pt_eq_dec x q) as [->|D]; [split; [apply Rmax_l|apply Rmax_r]|]. exfalso. apply N. exists x, q. auto.
    + exists 0. intros x Ix. exfalso. apply Nq. eauto.
Qed.
Theorem unbounded_detected x0 : rows <> [] -> in_set rows x0 -> ~ bounded rows -> unbounded S = true.
Proof.
  intros Ne I0 Nb. assert (K : forall s, In s S -> (forall u, ~ finite_at (s_from s) u) -> unbounded S = true).
  { intros s Hs Inf. unfold unbounded. apply existsb_exists. exists s. split; [exact Hs|]. destruct (s_from s) as [[x| | |] [y| | |]]; try reflexivity. exfalso. apply (Inf (x, y)). reflexivity. }
  destruct (classic (exists s, In s S /\ forall u, ~ finite_at (s_from s) u)) as [(s & Hs & I)|N1]; [eauto|].
  destruct (classic (exists s, In s S /\ forall u, ~ finite_at (s_to s) u)) as [(s & Hs & I)|N2].
  - destruct (infinite_start s x0 Hs I0 I) as (s' & Hs' & I'). eauto.
  - exfalso. apply Nb, finite_bounded; [exact Ne|]. intros s Hs.
    destruct (classic (exists u, finite_at (s_from s) u)) as [(u & Hu)|X]; [|exfalso; apply N1; exists s; split; [exact Hs|]; intros u Hu; apply X; eauto].
    destruct (classic (exists u, finite_at (s_to s) u)) as [(v & Hv)|X]; [|exfalso; apply N2; exists s; split; [exact Hs|]; intros v Hv; apply X; eauto].
    exact (seg_fin rows Nz s u v Hs Hu Hv).
Qed.
End Rows.
Lemma in_set_app rs bs x : in_set (rs ++ bs) x <-> in_set rs x /\ in_set bs x.
Proof. split; [intro H; split; intros r Hr; apply H, in_or_app; auto | intros [H1 H2] r Hr; apply in_app_or in Hr; destruct Hr; auto]. Qed.
Lemma in_box w x : in_set (box_rows w) x <-> (fst (fst w) <= fst x <= fst (snd w) /\ snd (fst w) <= snd x <= snd (snd w)).
Proof.
  unfold box_rows. split.
  - intro H. assert (A := H _ (or_introl eq_refl)). assert (B := H _ (or_intror (or_introl eq_refl))). assert (C := H _ (or_intror (or_intror (or_introl eq_refl)))). assert (D := H _ (or_intror (or_intror (or_intror (or_introl eq_refl))))).
    unfold holds in *; simpl in *. lra.
  - intros H r [<-|[<-|[<-|[<-|[]]]]]; unfold holds; simpl; lra.
Qed.
Lemma box_bounded rs w : bounded (rs ++ box_rows w).
Proof.
  exists (Rabs (fst (fst w)) + Rabs (snd (fst w)) + Rabs (fst (snd w)) + Rabs (snd (snd w))). intros x H. apply in_set_app in H. destruct H as [_ H]. apply in_box in H.
  assert (P1 := Rabs_pos (fst (fst w))). assert (P2 := Rabs_pos (snd (fst w))). assert (P3 := Rabs_pos (fst (snd w))). assert (P4 := Rabs_pos (snd (snd w))).
  assert (L : forall t, - Rabs t <= t <= Rabs t) by (intro t; unfold Rabs; destruct Rcase_abs; lra).
  assert (L1 := L (fst (fst w))). assert (L2 := L (snd (fst w))). assert (L3 := L (fst (snd w))). assert (L4 := L (snd (snd w))). split; apply Rabs_le; lra.
Qed.
Lemma box_nonzero rs w : (forall r, In r rs -> nonzero r) -> forall r, In r (rs ++ box_rows w) -> nonzero r.
Proof. intros H r Hr. apply in_app_or in Hr. destruct Hr as [Hr|[<-|[<-|[<-|[<-|[]]]]]]; [auto|..]; unfold nonzero; simpl; lra. Qed.
Section Lineqs.
Variable around : R -> R.
Hypothesis Har : forall x, Rabs (around x - x) <= / 1000000000000.
Theorem lineqs_window rows bounds : let rs := fst (clear_zero_rows around rows) in let cut := rs ++ box_rows (used_window rs bounds) in
  rs <> [] -> ~ bounded rs -> separated (/ 100000000) cut -> (exists x, in_set cut x) ->
  exists V, polygon cut V /\ lineqs 0 around rows bounds = Some (map (listed around) V).
Proof.
  intros rs cut Ne Nb Sp (x0 & I0). assert (Nz : forall r, In r rs -> nonzero r) by apply cleared_nonzero.
  assert (I1 : in_set rs x0) by (apply in_set_app in I0; apply I0).
  destruct (boundary_path_polygon cut x0 (box_nonzero rs _ Nz) (box_bounded rs _) Sp I0) as (V & C & P & Pg & HC). exists V. split; [exact Pg|]. unfold lineqs. fold rs. cbv zeta.
  rewrite (unbounded_detected rs Nz x0 Ne I1 Nb). destruct (boundary_intervals 0 rs) as [|s S0] eqn:ES; [exfalso; apply (boundary_empty 0 rs Nz Ne ES x0 I1)|]. rewrite <- ES. fold (used_window rs bounds). fold cut. rewrite P. f_equal. now apply (unique_path around Har cut).
Qed.
Theorem lineqs_window_empty rows bounds : let rs := fst (clear_zero_rows around rows) in let cut := rs ++ box_rows (used_window rs bounds) in
  rs <> [] -> ~ bounded rs -> (exists x, in_set rs x) -> (forall x, ~ in_set cut x) -> lineqs 0 around rows bounds = None.
Proof.
  intros rs cut Ne Nb (x0 & I0) E. assert (Nz : forall r, In r rs -> nonzero r) by apply cleared_nonzero.
  unfold lineqs. fold rs. cbv zeta. rewrite (unbounded_detected rs Nz x0 Ne I0 Nb). destruct (boundary_intervals 0 rs) as [|s S0] eqn:ES; [exfalso; apply (boundary_empty 0 rs Nz Ne ES x0 I0)|]. rewrite <- ES. fold (used_window rs bounds). fold cut.
  destruct (boundary_intervals 0 cut) as [|s' S'] eqn:EC; [reflexivity|]. exfalso.
  destruct (bi_spec 0 cut (box_nonzero rs _ Nz)) as (H1 & _ & _). destruct (H1 s') as (r & q0 & q1 & Hr & _ & _ & _ & _ & (t & Ht) & Fc); [rewrite EC; now left|].
  apply (E (param r t)). assert (face cut (s_idx s') (param r t)) as X; [|apply X]. apply Fc. exists t. split; [reflexivity|exact Ht].
Qed.
End Lineqs.
(** ** What the default window can do *)
Lemma tiny_id_rows (rows : list row) : (forall r, In r rows -> zero_row r = false) -> fst (clear_zero_rows (fun x => x) rows) = rows.
Proof.
  intro H. unfold clear_zero_rows. cbv zeta. cbn [fst]. induction rows as [|r rows IH]; [reflexivity|]. cbn [map filter]. replace (around_row (fun x => x) r) with r by (destruct r; reflexivity). rewrite (H r ltac:(now left)). cbn [negb]. f_equal. apply IH. intros q Hq. apply H. now right.
Qed.
Lemma zero_row_big r : 1 <= Rabs (a0 r) \/ 1 <= Rabs (a1 r) -> zero_row r = false.
Proof. intros [L|L]; unfold zero_row, tiny; repeat destruct Rle_dec; simpl; auto; lra. Qed.
Lemma id_around x : Rabs ((fun t => t) x - x) <= / 1000000000000.
Proof. cbv beta. rewrite Rminus_diag_eq by reflexivity. rewrite Rabs_R0. lra. Qed.
(** x >= 0, y >= 0 without a window: the answer is the point (0, 0) *)
Definition quadrant : list row := [mkrow 1 0 0; mkrow 0 1 0].
Lemma quadrant_clear : fst (clear_zero_rows (fun x => x) quadrant) = quadrant.
Proof. apply tiny_id_rows. intros r [<-|[<-|[]]]; apply zero_row_big; simpl; rewrite Rabs_R1; lra. Qed.
Lemma not_bounded_ray rows x d : (forall t, 0 <= t -> in_set rows (go x t d)) -> 0 < fst d -> ~ bounded rows.
Proof.
  intros H D (B & HB). set (t := (Rabs B + Rabs (fst x) + 1) / fst d). assert (P1 := Rabs_pos B). assert (P2 := Rabs_pos (fst x)). assert (0 < t) by (apply Rdiv_lt_0_compat; lra).
  destruct (HB (go x t d)) as [X _]; [apply H; lra|]. unfold go in X; cbn [fst] in X. replace (t * fst d) with (Rabs B + Rabs (fst x) + 1) in X by (unfold t; field; lra).
  assert (- Rabs (fst x) <= fst x) by (unfold Rabs; destruct Rcase_abs; lra). assert (Q := Rle_abs B). assert (Q' := Rle_abs (fst x + (Rabs B + Rabs (fst x) + 1))). lra.
Qed.
Lemma mins_zero l : Forall (fun t => t = 0) l -> mins l = 0 /\ maxs l = 0.
Proof.
  intro H. destruct l as [|a l]; [split; reflexivity|]. inversion H as [|? ? Ha Hl]; subst. cbn [mins maxs]. induction Hl as [|b l Hb Hl IH]; [split; reflexivity|]. subst b. cbn [fold_left]. rewrite Rmin_left, Rmax_left by lra. apply IH. constructor; auto.
Qed.
Lemma window_zero PP : (forall p, In p PP -> p = (0, 0)) -> window PP = ((0, 0), (0, 0)).
Proof.
  intro H. assert (F1 : Forall (fun t => t = 0) (map fst PP)) by (apply Forall_forall; intros t Ht; apply in_map_iff in Ht; destruct Ht as (p & <- & Hp); now rewrite (H p Hp)). assert (F2 : Forall (fun t => t = 0) (map snd PP)) by (apply Forall_forall; intros t Ht; apply in_map_iff in Ht; destruct Ht as (p & <- & Hp); now rewrite (H p Hp)).
  unfold window. destruct (mins_zero _ F1) as [-> ->]. destruct (mins_zero _ F2) as [-> ->]. cbv zeta. replace ((0 - 0) / 2) with 0 by field. rewrite Rmax_left by lra. f_equal; f_equal; field.
Qed.
Theorem default_window_point : ~ bounded quadrant /\ in_set quadrant (1, 1) /\ lineqs 0 (fun x => x) quadrant None = Some [(Fin 0, Fin 0)].
Proof.
  assert (Nb : ~ bounded quadrant) by (apply not_bounded_ray with (0, 0) (1, 1); [intros t Ht r [<-|[<-|[]]]; unfold holds, go; simpl; lra | simpl; lra]).
  split; [exact Nb|]. split; [intros r [<-|[<-|[]]]; unfold holds; simpl; lra|].
  assert (W : used_window quadrant None = ((0, 0), (0, 0))).
  { apply window_zero. intros p Hp. unfold feet in Hp. apply in_map_iff in Hp. destruct Hp as (s & <- & _). destruct (s_idx s) as [|[|[|i]]]; cbn [nth quadrant]; unfold foot; simpl; f_equal; unfold Rdiv; ring. }
  assert (One : forall x, in_set (quadrant ++ box_rows ((0, 0), (0, 0))) x -> x = (0, 0)). { intros [x y] H. apply in_set_app in H. destruct H as [_ H]. apply in_box in H. simpl in H. f_equal; lra. }
  assert (In0 : in_set (quadrant ++ box_rows ((0, 0), (0, 0))) (0, 0)). { apply in_set_app. split; [intros r [<-|[<-|[]]]; unfold holds; simpl; lra | apply in_box; simpl; lra]. }
  assert (X := lineqs_window (fun x => x) id_around quadrant None). cbv zeta in X. rewrite quadrant_clear, W in X. destruct X as (V & Pg & ->).
  - discriminate.
  - exact Nb.
  - intros x y [Hx _] [Hy _]. left. now rewrite (One x Hx), (One y Hy).
  - exists (0, 0). exact In0.
  - f_equal. destruct Pg as (Nd & Hv & _).
    assert (In (0, 0) V) as I. { apply Hv. split; [exact In0|]. exists (mkrow 1 0 0), (mkrow 0 1 0). unfold tight, parallel; simpl. repeat split; auto; lra. }
    destruct V as [|a [|c V]]; [destruct I| |].
    + destruct I as [->|[]]. reflexivity.
    + exfalso. inversion Nd as [|? ? Na _]; subst. apply Na. left. transitivity (0, 0); [|symmetry]; apply One; apply Hv; simpl; auto.
Qed.
(** A thin wedge far from the origin without a window: an exception *)
Definition wedge : list row := [mkrow 1 (-10) 10; mkrow 1 10 10].
Theorem default_window_raises : ~ bounded wedge /\ in_set wedge (11, 0) /\ lineqs 0 (fun x => x) wedge None = None.
Proof.
  assert (Nb : ~ bounded wedge) by (apply not_bounded_ray with (10, 0) (1, 0); [intros t Ht r [<-|[<-|[]]]; unfold holds, go; simpl; lra | simpl; lra]).
  assert (I11 : in_set wedge (11, 0)) by (intros r [<-|[<-|[]]]; unfold holds; simpl; lra).
  split; [exact Nb|]. split; [exact I11|].
  assert (Cl : fst (clear_zero_rows (fun x => x) wedge) = wedge) by (apply tiny_id_rows; intros r [<-|[<-|[]]]; apply zero_row_big; simpl; left; rewrite Rabs_R1; lra).
  assert (X := lineqs_window_empty (fun x => x) wedge None). cbv zeta in X. rewrite Cl in X. apply X; [discriminate|exact Nb|eauto|].
  intros x H. apply in_set_app in H. destruct H as [H1 H2]. assert (A := H1 _ (or_introl eq_refl)). assert (B := H1 _ (or_intror (or_introl eq_refl))). unfold holds in A, B; simpl in A, B.
  apply in_box in H2. destruct H2 as [[_ H2] _]. revert H2. unfold used_window, window, feet. cbv zeta. cbn [fst snd].
  set (S := boundary_intervals 0 wedge). set (PP := map _ S).
  assert (F : forall p, In p PP -> fst p = 10 / 101 /\ (snd p = 100 / 101 \/ snd p = - 100 / 101)).
  { intros p Hp. unfold PP in Hp. apply in_map_iff in Hp. destruct Hp as (s & <- & Hs).
    assert (Nz : forall r, In r wedge -> nonzero r) by (intros r [<-|[<-|[]]]; unfold nonzero; simpl; lra).
    destruct (bi_spec 0 wedge Nz) as (HS & _ & _). destruct (HS s Hs) as (r & _ & _ & Hr & _). destruct (s_idx s) as [|[|[|i]]]; try discriminate; cbn [nth wedge]; unfold foot, dot2; simpl; split; try (left; field); try (right; field); field. }
  assert (Np : PP <> []). { unfold PP. intro E. apply map_eq_nil in E. assert (Nz : forall r, In r wedge -> nonzero r) by (intros r [<-|[<-|[]]]; unfold nonzero; simpl; lra). apply (boundary_empty 0 wedge Nz ltac:(discriminate) E (11, 0) I11). }
  assert (Mm : forall l lo hi, l <> [] -> (forall t, In t l -> lo <= t <= hi) -> lo <= mins l <= hi /\ lo <= maxs l <= hi).
  { clear. intros l lo hi Ne H. destruct l as [|a l]; [congruence|]. cbn [mins maxs]. assert (K : forall l a, (forall t, In t (a :: l) -> lo <= t <= hi) -> lo <= fold_left Rmin l a <= hi /\ lo <= fold_left Rmax l a <= hi); [|now apply K].
    clear. induction l as [|b l IH]; intros a H; cbn [fold_left]; [split; apply H; now left|]. assert (Ha := H a ltac:(now left)). assert (Hb := H b ltac:(right; now left)). split; apply IH; intros t [<-|Ht]; try (apply H; right; now right); [unfold Rmin | unfold Rmax]; destruct Rle_dec; assumption. }
  destruct (Mm (map fst PP) (10 / 101) (10 / 101)) as [X1 X2]; [intro E; apply map_eq_nil in E; contradiction | intros t Ht; apply in_map_iff in Ht; destruct Ht as (p & <- & Hp); destruct (F p Hp); lra |].
  destruct (Mm (map snd PP) (- 100 / 101) (100 / 101)) as [Y1 Y2]; [intro E; apply map_eq_nil in E; contradiction | intros t Ht; apply in_map_iff in Ht; destruct Ht as (p & <- & Hp); destruct (F p Hp) as [_ [->| ->]]; lra |].
  unfold Rmax. destruct Rle_dec; lra.
Qed.
