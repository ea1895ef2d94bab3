(** Proofs about PSS on doubles: both ends, and a solution lost to rounding. *)
From Coq Require Import ZArith Reals List Bool Arith Lia Lra Psatz.
From Flocq Require Import Core IEEE754.BinarySingleNaN.
From Verif Require Import Base PyNum Kernel Spec Expr XReal XArith KernelProofs ExprProofs KernelAlg KernelMore Witness Arrays Construct SpecArray ArrayProofs ArrayMore ArrayMat
  ConstructProofs ConstructMore SpecIso IsoProofs SpecSolvers NewtonProofs NewtonVerify GSProofs ArrIso PssFl SpecPssFl PssFlProofs PssFlDiv PssFlRest PssFlMain.
Import ListNotations.
Open Scope R_scope.

Lemma to_dbl_rnd md v : to_dbl md v = rnd md v.
Proof. reflexivity. Qed.
Lemma box_rnd n nu V md x : (nu < n)%nat -> fl_box n nu V -> in_fl_box n V x -> xround md (x nu) = XFin (to_dbl md (x nu)).
Proof.
  intros Hnu (MV & D1 & D2) Vx. destruct (MV nu Hnu) as (_ & _ & p & _). exact (rnd_in_finite (V nu) (x nu) md (conj D1 D2) (proj1 p) (Vx nu Hnu)).
Qed.
Lemma lower_rounded eo m n nu A b V tol maxiter md q x : (nu < n)%nat -> fl_system m n nu A b -> fl_box n nu V -> lp_bounds eo (to_dbl md) m n nu A b V ->
  returns (algo_fl eo m n nu A b V tol maxiter) md q -> fl_solution m n A b x -> in_fl_box n V x -> num_le_R q (to_dbl md (x nu)).
Proof.
  intros Hnu HS HV Heo H Sx Vx. apply num_le_R_x. apply (algo_below eo m n nu A b V tol md (to_dbl md) Hnu HS HV Heo) with (maxiter := maxiter); [| exact Sx | exact Vx | | exact H].
  - intros z Vz. right. split; [reflexivity | exact (box_rnd n nu V md z Hnu HV Vz)].
  - intros fs _ _. exact (box_rnd n nu V md x Hnu HV Vx).
Qed.

(** ** Columns without zeros *)
Lemma small_fin v : small_num v -> finite_num v -> exists r, xval v = XFin r /\ num_val v = r /\ generic_format radix2 fexp r /\ Rabs r < bpow radix2 1024.
Proof.
  intros s F. destruct (finite_x v F) as (r & E & Vr). exists r. split; [exact E|]. split; [exact Vr|]. destruct (small_double v s) as (f & _ & Ef). rewrite E in Ef.
  apply xflt_fin in Ef. destruct Ef as [_ <-]. split; [apply generic_format_B2R | apply abs_B2R_lt_emax].
Qed.
Lemma flags_clear m n nu A b md fs : (nu < n)%nat -> fl_system m n nu A b -> (forall i, (i < m)%nat -> clear_of_zero (A i nu)) -> returns (classic_rows m nu A) md fs -> ~ In false fs.
Proof.
  intros Hnu (PA & _ & DA) CA H. unfold classic_rows in H.
  rewrite keeps_returns in H by (apply keeps_vectorize_num; intro; apply keeps_ret). destruct H as (la & Hla & H).
  rewrite keeps_returns in H by (apply keeps_vectorize_num; intro; apply keeps_ret). destruct H as (lb & Hlb & H).
  destruct m as [|m'].
  { assert (E : adata la = []).
    { cbn [column seq map] in Hla. unfold arr_a, vectorize_num, vec_itv, array_interval in Hla. cbn in Hla. unfold returns, outcome in Hla. cbn in Hla. first [discriminate Hla | injection Hla as <-; reflexivity]. }
    rewrite E in H. cbn [combine mapM] in H. apply returns_ret in H. subst fs. intros []. }
  set (m := S m') in *. destruct (arr_ends_exact (vec_itv (column m nu A)) md) as [P Q]; [discriminate|].
  assert (U1 : uniform (map lo (column m nu A))). { left. apply Forall_map. unfold column. apply Forall_map. apply Forall_forall. intros i Hi. apply in_seq in Hi. apply DA. lia. }
  assert (U2 : uniform (map hi (column m nu A))). { left. apply Forall_map. unfold column. apply Forall_map. apply Forall_forall. intros i Hi. apply in_seq in Hi. apply DA. lia. }
  rewrite (same_result _ _ _ _ Hla (P U1)), (same_result _ _ _ _ Hlb (Q U2)) in H. cbn [amap adata adat vec_itv array_interval] in H.
  apply mapM_returns in H; [|intro; apply keeps_bind; [apply keeps_prim | intro; apply keeps_ret]].
  intro I. apply In_nth_error in I. destruct I as (i & Ei).
  assert (Li : (i < length fs)%nat) by (apply nth_error_Some; congruence). rewrite <- (Forall2_len _ _ _ H) in Li. unfold column in Li. rewrite combine_length, !map_length, seq_length, Nat.min_id in Li.
  assert (Ec : nth_error (combine (map lo (column m nu A)) (map hi (column m nu A))) i = Some (lo (A i nu), hi (A i nu))).
  { unfold column. rewrite !map_map. replace (combine (map (fun x => lo (A x nu)) (seq 0 m)) (map (fun x => hi (A x nu)) (seq 0 m))) with (map (fun x => (lo (A x nu), hi (A x nu))) (seq 0 m)).
    - rewrite nth_error_map, (nth_seq m i Li). reflexivity.
    - generalize (seq 0 m). intro s. induction s as [|a s IH]; [reflexivity|]. cbn. now rewrite IH. }
  destruct (Forall2_nth _ _ _ H i _ Ec) as (fl & Ef & Hr). rewrite Ei in Ef. injection Ef as <-. cbn [fst snd] in Hr.
  rewrite keeps_returns in Hr by apply keeps_prim. destruct Hr as (v & Hv & Hr). apply returns_ret in Hr.
  destruct (PA i nu Li Hnu) as (_ & [s1 s2] & [[F1 F2] _]). destruct (small_fin _ s1 F1) as (l & El & Vl & _), (small_fin _ s2 F2) as (h & Eh & Vh & _).
  destruct (XArith.num_mul_x md _ _ s1 s2) as (v' & Hv' & _ & Xv). unfold returns, outcome, mul_, mprim in Hv. cbn [fst] in Hv. assert (v' = v) by congruence. subst v'.
  rewrite El, Eh in Xv. change (xmul md (XFin l) (XFin h)) with (xround md (l * h)) in Xv. assert (C := CA i Li). unfold clear_of_zero in C. rewrite Vl, Vh in C.
  assert (G : generic_format radix2 fexp (bpow radix2 (-1074))) by (apply generic_format_bpow; unfold SpecFloat.fexp, SpecFloat.emin; lia).
  assert (L := xround_mono md _ _ C). rewrite (xround_gen md _ G) in L by (rewrite Rabs_pos_eq by apply bpow_ge_0; apply bpow_lt; lia).
  symmetry in Hr. rewrite num_lt_x, Xv in Hr. change (xval pn0) with (XFin 0) in Hr. assert (B := bpow_gt_0 radix2 (-1074)).
  assert (T : xltb (XFin 0) (xround md (l * h)) = true); [|congruence].
  destruct (xround md (l * h)) as [| | |w]; try discriminate. apply xleb_fin in L. apply xltb_fin. lra.
Qed.
Lemma lower_exact eo m n nu A b V tol maxiter md q x : (nu < n)%nat -> fl_system m n nu A b -> (forall i, (i < m)%nat -> clear_of_zero (A i nu)) -> fl_box n nu V -> lp_bounds eo (fun v => v) m n nu A b V ->
  returns (algo_fl eo m n nu A b V tol maxiter) md q -> fl_solution m n A b x -> in_fl_box n V x -> num_le_R q (x nu).
Proof.
  intros Hnu HS CA HV Heo H Sx Vx. apply num_le_R_x. apply (algo_below eo m n nu A b V tol md (fun v => v) Hnu HS HV Heo) with (maxiter := maxiter); [| exact Sx | exact Vx | | exact H].
  - intros z Vz. left. reflexivity.
  - intros fs Hfs I. elim (flags_clear m n nu A b md fs Hnu HS CA Hfs I).
Qed.

Lemma xmin2_R a b : xmin2 (XFin a) (XFin b) = XFin (Rmin a b).
Proof. unfold xmin2. destruct (xltb (XFin b) (XFin a)) eqn:E; [apply xltb_fin in E; now rewrite Rmin_right by lra|]. rewrite Rmin_left; [reflexivity|]. apply Rnot_lt_le. intro C. apply xltb_fin in C. congruence. Qed.
Lemma xmax2_R a b : xmax2 (XFin a) (XFin b) = XFin (Rmax a b).
Proof. unfold xmax2. destruct (xltb (XFin a) (XFin b)) eqn:E; [apply xltb_fin in E; now rewrite Rmax_right by lra|]. rewrite Rmax_left; [reflexivity|]. apply Rnot_lt_le. intro C. apply xltb_fin in C. congruence. Qed.

(** ** The right-hand side times 1 and -1 *)
Lemma unit_mul md c r : (c = 1%Z \/ c = (-1)%Z) -> generic_format radix2 fexp r -> Rabs r < bpow radix2 1024 -> xmul md (xval (PInt c)) (XFin r) = XFin (IZR c * r).
Proof.
  intros Hc G B. change (xval (PInt c)) with (XFin (IZR c)). change (xmul md (XFin (IZR c)) (XFin r)) with (xround md (IZR c * r)).
  destruct Hc as [-> | ->]; [rewrite Rmult_1_l; now apply xround_gen|]. replace (-1 * r) with (- r) by ring. apply xround_gen; [now apply generic_format_opp | now rewrite Rabs_Ropp].
Qed.
Lemma unit_rmul c X md Z : (c = 1%Z \/ c = (-1)%Z) -> plain X -> returns (rmul X (PInt c)) md Z -> plain Z /\ forall y, member X y <-> member Z (IZR c * y).
Proof.
  intros Hc (kX & [s1 s2] & [[F1 F2] O]) H. assert (sc : small_num (PInt c)) by (destruct Hc as [-> | ->]; cbn; lia).
  destruct (small_fin _ s1 F1) as (l & El & Vl & Gl & Bl), (small_fin _ s2 F2) as (h & Eh & Vh & Gh & Bh). rewrite Vl, Vh in O.
  destruct (gives_returns _ _ _ _ _ (rmul_gives X (PInt c) md (conj s1 s2) sc kX)) as (Z' & HZ & kZ & Zl & Zh & sZ & _). assert (Z' = Z) by exact (same_result _ _ _ _ HZ H). subst Z'.
  rewrite El, Eh, !unit_mul in Zl, Zh by assumption.
  assert (E : exists u w, xval (lo Z) = XFin u /\ xval (hi Z) = XFin w /\ u <= w /\ forall y, l <= y <= h <-> u <= IZR c * y <= w).
  { rewrite xmin2_R in Zl. rewrite xmax2_R in Zh. exists (Rmin (IZR c * l) (IZR c * h)), (Rmax (IZR c * l) (IZR c * h)). split; [exact Zl|]. split; [exact Zh|].
    destruct Hc as [-> | ->]; unfold Rmin, Rmax; destruct (Rle_dec _ _); (split; [lra | intros; split; lra]). }
  destruct E as (u & w & Eu & Ew & Huw & HM). destruct (xval_num_val _ _ Eu) as [Fu Vu], (xval_num_val _ _ Ew) as [Fw Vw].
  split.
  - split; [exact kZ|]. split; [exact sZ|]. split; [split; assumption | rewrite Vu, Vw; exact Huw].
  - intros y. rewrite !member_x, El, Eh, Eu, Ew. cbn. apply HM.
Qed.

Lemma keeps_scale c m b : keeps_mode (scale_rhs c m b).
Proof. unfold scale_rhs. apply keeps_bind; [apply keeps_mapM; intro; apply keeps_rmul | intro; apply keeps_ret]. Qed.
Lemma scale_ok c m n nu A b md b' : (c = 1%Z \/ c = (-1)%Z) -> fl_system m n nu A b -> returns (scale_rhs c m b) md b' ->
  fl_system m n nu A b' /\ forall x, fl_solution m n A b x <-> fl_solution m n A b' (fun j => IZR c * x j).
Proof.
  intros Hc (PA & Pb & DA) H. unfold scale_rhs in H. rewrite keeps_returns in H by (apply keeps_mapM; intro; apply keeps_rmul). destruct H as (l & Hl & H). apply returns_ret in H. subst b'.
  apply mapM_returns in Hl; [|intro; apply keeps_rmul]. set (d := mkitv Classical pn0 pn0).
  assert (R : forall i, (i < m)%nat -> returns (rmul (b i) (PInt c)) md (nth i l d)).
  { intros i Hi. destruct (Forall2_nth _ _ _ Hl i i (nth_seq m i Hi)) as (z & Ez & Hz). now rewrite (nth_error_nth l i d Ez). }
  split.
  - split; [exact PA|]. split; [|exact DA]. intros i Hi. exact (proj1 (unit_rmul c (b i) md _ Hc (Pb i Hi) (R i Hi))).
  - assert (c2 : IZR c * IZR c = 1) by (destruct Hc as [-> | ->]; ring). intro x. split.
    + intros (P & y & HP & Hy & HE). exists P, (fun i => IZR c * y i). split; [exact HP|]. split.
      * intros i Hi. apply (proj2 (unit_rmul c (b i) md _ Hc (Pb i Hi) (R i Hi))). now apply Hy.
      * intros i Hi. rewrite <- (HE i Hi), Rsum_scal. apply Rsum_ext. intros k _. ring.
    + intros (P & y & HP & Hy & HE). exists P, (fun i => IZR c * y i). split; [exact HP|]. split.
      * intros i Hi. apply (proj2 (unit_rmul c (b i) md _ Hc (Pb i Hi) (R i Hi))). rewrite <- Rmult_assoc, c2, Rmult_1_l. now apply Hy.
      * intros i Hi. rewrite <- (HE i Hi), Rsum_scal. apply Rsum_ext. intros k _. replace (IZR c * (P i k * (IZR c * x k))) with (IZR c * IZR c * (P i k * x k)) by ring. rewrite c2. ring.
Qed.
Lemma fl_solution_ext m n A b x z : (forall j, x j = z j) -> fl_solution m n A b x -> fl_solution m n A b z.
Proof. intros E (P & y & HP & Hy & HE). exists P, y. split; [exact HP|]. split; [exact Hy|]. intros i Hi. rewrite <- (HE i Hi). apply Rsum_ext. intros k _. now rewrite E. Qed.
Lemma neg_q q md s : returns (mul_ (PInt (-1)) q) md s -> xval s = xopp (xval q).
Proof.
  unfold returns, outcome, mul_, mprim. cbn [fst]. destruct q as [z|g].
  - unfold num_mul, arith2. intro H. apply Ok_inj in H. subst s. change (XFin (IZR (-1 * z)) = XFin (- IZR z)). rewrite mult_IZR. f_equal. ring.
  - intro H. destruct (XArith.num_mul_x md (PInt (-1)) (PFlt g) ltac:(cbn; lia) I) as (v & Hv & _ & Xv). assert (v = s) by congruence. subst v. rewrite Xv. cbn [xval].
    destruct (xflt g) as [| | |r] eqn:E; try reflexivity.
    + cbn. now rewrite Rcompare_Lt by lra.
    + cbn. now rewrite Rcompare_Lt by lra.
    + apply xflt_fin in E. destruct E as [_ <-]. change (XFin (IZR (-1))) with (xval (PInt (-1))). rewrite unit_mul; [cbn [xopp]; f_equal; ring | auto | apply generic_format_B2R | apply abs_B2R_lt_emax].
Qed.
Lemma keeps_loop eo m n nu A b V tol fs : forall fuel L pos omega, keeps_mode (pss_loop_fl eo m n nu A b V tol fuel fs L pos omega).
Proof.
  assert (KH : forall L, keeps_mode (head_fl L)) by (intros [|]; [apply keeps_raise | apply keeps_ret]).
  induction fuel as [|fuel IH]; intros L pos omega; cbn [pss_loop_fl]; (destruct (nth_error L pos) as [it|]; [|apply keeps_raise]);
    (apply keeps_bind; [apply keeps_vectorize_num; intro; apply keeps_wid|]); intro ws; (destruct (argmax (adata ws)) as [[k w]|]; [|apply keeps_raise]); (destruct (num_le tol w); [|apply KH]); [apply KH|].
  destruct (nth_error (fQ it) k) as [X|]; [|apply keeps_raise].
  apply keeps_bind.
  { unfold cut_fl. apply keeps_bind; [destruct (num_eq _ _); [apply keeps_mid|]; apply keeps_bind; [apply keeps_prim|]; intro; destruct (_ && _); [apply keeps_ret | apply keeps_mid]|].
    intro. repeat (apply keeps_bind; [apply keeps_single | intro]). apply keeps_ret. }
  intro XX. repeat (apply keeps_bind; [apply keeps_add_half | intro]). cbv zeta. destruct (update_fl _ _ _) as [omega' L3]. destruct (first_full_fl L3); [apply IH | apply KH].
Qed.
Lemma keeps_algo eo m n nu A b V tol maxiter : keeps_mode (algo_fl eo m n nu A b V tol maxiter).
Proof. unfold algo_fl. cbv zeta. apply keeps_bind; [apply keeps_classic|]. intro. apply keeps_bind; [apply keeps_rest|]. intro. apply keeps_loop. Qed.

Lemma neg_member X y : member (neg X) y <-> member X (- y).
Proof.
  rewrite !member_x. unfold neg. cbn [lo hi]. rewrite !num_neg_x. destruct (xval (lo X)), (xval (hi X)); cbn; (split; intros [P Q]; split); try assumption; try contradiction; try exact I; lra.
Qed.
Lemma neg_solution m n A b x : fl_solution m n A (fun i => neg (b i)) x <-> fl_solution m n A b (fun j => - x j).
Proof.
  assert (Hs : forall n P (x : nat -> R), Rsum n (fun j => P j * - x j) = - Rsum n (fun j => P j * x j)).
  { clear. intros n P x. replace (- Rsum n (fun j => P j * x j)) with (-1 * Rsum n (fun j => P j * x j)) by ring. rewrite Rsum_scal. apply Rsum_ext. intros. ring. }
  split; intros (P & y & HP & Hy & HE); exists P, (fun i => - y i); (split; [exact HP|]); (split; [intros i Hi|intros i Hi]).
  - apply neg_member. now apply Hy.
  - rewrite Hs, (HE i Hi). reflexivity.
  - apply neg_member. rewrite Ropp_involutive. now apply Hy.
  - rewrite <- (HE i Hi), <- Hs. apply Rsum_ext. intros k _. ring.
Qed.
(** What the two passes return. *)
Lemma two_passes eo1 eo2 f m n nu A b V1 V2 tol maxiter md Z : fl_system m n nu A b -> lp_bounds eo1 f m n nu A b V1 -> lp_bounds eo2 f m n nu A (fun i => neg (b i)) V2 ->
  returns (pss_fl eo1 eo2 m n nu A b V1 V2 tol maxiter) md Z ->
  exists b1 b2 q1 q2, fl_system m n nu A b1 /\ fl_system m n nu A b2 /\ returns (algo_fl eo1 m n nu A b1 V1 tol maxiter) md q1 /\ returns (algo_fl eo2 m n nu A b2 V2 tol maxiter) md q2 /\
    lp_bounds eo1 f m n nu A b1 V1 /\ lp_bounds eo2 f m n nu A b2 V2 /\ xval (lo Z) = xval q1 /\ xval (hi Z) = xopp (xval q2) /\
    forall x, fl_solution m n A b x -> fl_solution m n A b1 x /\ fl_solution m n A b2 (fun j => - x j).
Proof.
  intros HS L1 L2 H. unfold pss_fl in H. rewrite keeps_returns in H by apply keeps_scale. destruct H as (b1 & Hb1 & H). rewrite keeps_returns in H by apply keeps_algo. destruct H as (q1 & Hq1 & H).
  rewrite keeps_returns in H by apply keeps_scale. destruct H as (b2 & Hb2 & H). rewrite keeps_returns in H by apply keeps_algo. destruct H as (q2 & Hq2 & H).
  rewrite keeps_returns in H by apply keeps_prim. destruct H as (s & Hs & H).
  destruct (scale_ok 1 m n nu A b md b1 (or_introl eq_refl) HS Hb1) as [S1 X1]. destruct (scale_ok (-1) m n nu A b1 md b2 (or_intror eq_refl) S1 Hb2) as [S2 X2].
  assert (Y1 : forall x, fl_solution m n A b x <-> fl_solution m n A b1 x).
  { intro x. rewrite (X1 x). split; apply fl_solution_ext; intro; ring. }
  assert (Y2 : forall x, fl_solution m n A b x <-> fl_solution m n A b2 (fun j => - x j)).
  { intro x. rewrite (Y1 x), (X2 x). split; apply fl_solution_ext; intro; ring. }
  exists b1, b2, q1, q2. destruct (single_unsorted q1 s md) as (Z' & HZ & Zl & Zh & _). assert (Z' = Z) by exact (same_result _ _ _ _ HZ H). subst Z'.
  repeat (split; [assumption|]). split; [|split; [|split; [now rewrite Zl|]; split; [rewrite Zh; exact (neg_q q2 md s Hs)|]]].
  - intros Q x LQ MQ ZQ BQ Sx Vx. apply (L1 Q x LQ MQ ZQ BQ); [now apply Y1 | exact Vx].
  - intros Q x LQ MQ ZQ BQ Sx Vx. apply (L2 Q x LQ MQ ZQ BQ); [|exact Vx]. apply neg_solution. apply Y2. apply (fl_solution_ext m n A b2 x); [intro; ring | exact Sx].
  - intros x Sx. split; [now apply Y1 | now apply Y2].
Qed.
Lemma both_ends q r Z v : xval (lo Z) = xval q -> xval (hi Z) = xopp (xval r) -> num_le_R q v -> num_le_R r (- v) -> member Z v.
Proof.
  intros El Eh Hq Hr. apply member_x. rewrite El, Eh. apply num_le_R_x in Hq, Hr. split; [exact Hq|]. destruct (xval r) as [| | |w]; cbn in *; try contradiction; try exact I. lra.
Qed.
Lemma box_rounded eo1 eo2 m n nu A b V1 V2 tol maxiter Z x : (nu < n)%nat -> fl_system m n nu A b -> fl_box n nu V1 -> fl_box n nu V2 ->
  lp_bounds eo1 (to_dbl mode_NE) m n nu A b V1 -> lp_bounds eo2 (to_dbl mode_NE) m n nu A (fun i => neg (b i)) V2 ->
  returns (pss_fl eo1 eo2 m n nu A b V1 V2 tol maxiter) mode_NE Z ->
  fl_solution m n A b x -> in_fl_box n V1 x -> in_fl_box n V2 (fun j => - x j) -> member Z (to_dbl mode_NE (x nu)).
Proof.
  intros Hnu HS HV1 HV2 L1 L2 H Sx B1 B2. destruct (two_passes _ _ _ _ _ _ _ _ _ _ _ _ _ _ HS L1 L2 H) as (b1 & b2 & q1 & q2 & S1 & S2 & H1 & H2 & M1 & M2 & El & Eh & X). destruct (X x Sx) as [Y1 Y2].
  apply (both_ends q1 q2 Z _ El Eh).
  - exact (lower_rounded eo1 m n nu A b1 V1 tol maxiter mode_NE q1 x Hnu S1 HV1 M1 H1 Y1 B1).
  - assert (L := lower_rounded eo2 m n nu A b2 V2 tol maxiter mode_NE q2 _ Hnu S2 HV2 M2 H2 Y2 B2). cbn beta in L. unfold to_dbl in *. cbn [round_mode] in *. now rewrite round_NE_opp in L.
Qed.
Lemma box_exact eo1 eo2 m n nu A b V1 V2 tol maxiter md Z x : (nu < n)%nat -> fl_system m n nu A b -> (forall i, (i < m)%nat -> clear_of_zero (A i nu)) -> fl_box n nu V1 -> fl_box n nu V2 ->
  lp_bounds eo1 (fun v => v) m n nu A b V1 -> lp_bounds eo2 (fun v => v) m n nu A (fun i => neg (b i)) V2 ->
  returns (pss_fl eo1 eo2 m n nu A b V1 V2 tol maxiter) md Z ->
  fl_solution m n A b x -> in_fl_box n V1 x -> in_fl_box n V2 (fun j => - x j) -> member Z (x nu).
Proof.
  intros Hnu HS CA HV1 HV2 L1 L2 H Sx B1 B2. destruct (two_passes _ _ _ _ _ _ _ _ _ _ _ _ _ _ HS L1 L2 H) as (b1 & b2 & q1 & q2 & S1 & S2 & H1 & H2 & M1 & M2 & El & Eh & X). destruct (X x Sx) as [Y1 Y2].
  apply (both_ends q1 q2 Z _ El Eh).
  - exact (lower_exact eo1 m n nu A b1 V1 tol maxiter md q1 x Hnu S1 CA HV1 M1 H1 Y1 B1).
  - exact (lower_exact eo2 m n nu A b2 V2 tol maxiter md q2 _ Hnu S2 CA HV2 M2 H2 Y2 B2).
Qed.
