(** PSS: exactness inside an orthant, what goes wrong, a run. *)
From Coq Require Import Reals List Arith Bool ZArith Lia Lra Psatz Sorting.Sorted.
From Verif Require Import Exact SpecExact ExactProofs Estim SpecEstim EstimProofs RecogProofs Pss SpecPss PssProofs PssLoop.
Import ListNotations.
Open Scope R_scope.

(** ** The linear programs are exact *)
Lemma feasible_solution m n nu A b Q s y : proper_mat m n A -> proper_vec m b -> zero_free n nu Q -> s = 1 \/ s = -1 ->
  feasible (2 * (m + n) + n) n (pss_A m n A (pss_S nu Q s)) (pss_b m n nu b Q) y ->
  let x := fun j => pss_S nu Q s j * y j in united m n A b x /\ covers n nu Q x.
Proof.
  intros PA Pb Z Hs F x. apply pss_rows in F. destruct F as (H1 & H2 & H3 & H4 & H5). 
  assert (SG : forall j, (j < n)%nat -> pss_S nu Q s j = 1 \/ pss_S nu Q s j = -1).
  { intros j Hj. unfold pss_S. destruct (Nat.eqb_spec j nu) as [->|N]; [exact Hs|]. destruct (Z j Hj N) as [P NZ]. unfold proper, inI in *. unfold sgn. destruct (Rlt_dec 0 (rl (Q j))); [now left|]. destruct (Rlt_dec (rl (Q j)) 0); [now right|]. exfalso. lra. }
  assert (AB : forall j, (j < n)%nat -> vabs x j = y j).
  { intros j Hj. unfold vabs, x. rewrite Rabs_mult, (Rabs_right (y j)) by (apply Rle_ge; auto). destruct (SG j Hj) as [-> | ->]; [rewrite Rabs_R1 | rewrite (Rabs_left1 (-1)) by lra]; ring. }
  split.
  - apply united_rows; [exact PA|]. intros i Hi. destruct (imv_midrad m n A x i PA Hi) as [E1 E2].
    assert (G1 := H1 i Hi). assert (G2 := H2 i Hi). 
    assert (L1 : rl (imv n A x i) <= rh (b i)).
    { rewrite E1. eapply Rle_trans; [|exact G1]. apply Req_le. unfold mv. rewrite !vsum_eq, <- total_minus. apply total_ext. intros j Hj. unfold mids, rads. rewrite AB by exact Hj. unfold x. ring. }
    assert (L2 : rl (b i) <= rh (imv n A x i)).
    { apply Ropp_le_cancel. eapply Rle_trans; [|exact G2]. apply Req_le. rewrite E2. unfold mv. rewrite !vsum_eq, <- total_plus, <- total_opp. apply total_ext. intros j Hj. unfold mids, rads. rewrite AB by exact Hj. unfold x. ring. }
    assert (L3 : rl (imv n A x i) <= rh (imv n A x i)).
    { rewrite E1, E2. assert (0 <= mv n (rads A) (vabs x) i); [|lra]. unfold mv. rewrite vsum_eq. apply total_nn. intros j Hj. unfold rads, vabs, r_rad. assert (P := PA i j Hi Hj). unfold proper in P. apply Rmult_le_pos; [lra | apply Rabs_pos]. }
    assert (Bi := Pb i Hi). unfold proper in Bi. exists (Rmax (rl (b i)) (rl (imv n A x i))). unfold inI. unfold Rmax. destruct Rle_dec; lra.
  - intros j Hj N. assert (G3 := H3 j Hj). assert (G4 := H4 j Hj). destruct (Nat.eqb_spec j nu); [contradiction|]. unfold inI, x. lra.
Qed.
Lemma covers_sub n nu Q V x : sub_box n nu Q V -> covers n nu Q x -> covers n nu V x.
Proof. intros S C j Hj N. destruct (S j Hj N). assert (Cj := C j Hj N). unfold inI in *. lra. Qed.
Lemma exact_omega_attained lp m n nu A b Q V r : (nu < n)%nat -> proper_mat m n A -> proper_vec m b -> zero_free n nu Q -> (forall s, s = sgn (rl (V nu)) \/ s = sgn (rh (V nu)) -> lp_good lp m n nu A b Q s) ->
  rl (V nu) <> 0 -> rh (V nu) <= 10 ^ 15 -> exact_omega lp m n nu A b Q (V nu) = Val r -> r < rh (V nu) ->
  exists x, united m n A b x /\ covers n nu Q x /\ x nu = r.
Proof.
  intros Hn PA Pb Z G L0 H15 E Lt. unfold exact_omega in E.
  assert (P1 := pss_lp_spec lp m n nu A b Q (sgn (rl (V nu))) Hn (G _ (or_introl eq_refl))). assert (P2 := pss_lp_spec lp m n nu A b Q (sgn (rh (V nu))) Hn (G _ (or_intror eq_refl))).
  destruct (pss_lp lp m n nu A b Q (sgn (rl (V nu)))) as [r1|].
  - injection E as <-. destruct P1 as (y & Fy & Er & _). assert (Hs : sgn (rl (V nu)) = 1 \/ sgn (rl (V nu)) = -1) by (unfold sgn; destruct Rlt_dec; [now left|]; destruct Rlt_dec; [now right | exfalso; lra]).
    destruct (feasible_solution m n nu A b Q _ y PA Pb Z Hs Fy) as [U C]. eexists. split; [exact U|]. split; [exact C|]. cbv beta. unfold pss_S. rewrite Nat.eqb_refl. now symmetry.
  - destruct (pss_lp lp m n nu A b Q (sgn (rh (V nu)))) as [r1|]; injection E as <-; [|exfalso; lra].
    destruct P2 as (y & Fy & Er & _). destruct (Req_dec (rh (V nu)) 0) as [E0|E0].
    + exfalso. assert (S0 : sgn (rh (V nu)) = 0) by (rewrite E0; unfold sgn; destruct (Rlt_dec 0 0); lra). rewrite S0 in Er. lra.
    + assert (Hs : sgn (rh (V nu)) = 1 \/ sgn (rh (V nu)) = -1) by (unfold sgn; destruct Rlt_dec; [now left|]; destruct Rlt_dec; [now right | exfalso; lra]).
      destruct (feasible_solution m n nu A b Q _ y PA Pb Z Hs Fy) as [U C]. eexists. split; [exact U|]. split; [exact C|]. cbv beta. unfold pss_S. rewrite Nat.eqb_refl. now symmetry.
Qed.
Lemma first_full_none L : (forall it, In it L -> full it = false) -> first_full L = None.
Proof. induction L as [|y L IH]; intro H; [reflexivity|]. cbn [first_full]. rewrite (H y ltac:(now left)), IH by (intros; apply H; now right). reflexivity. Qed.
Section Leaf.
Variables (lp : lp_solver) (m n nu : nat) (A : imat) (b V : ivec).
Hypothesis Hnu : (nu < n)%nat.
Hypothesis PA : proper_mat m n A.
Hypothesis Pb : proper_vec m b.
Hypothesis ZV : zero_free n nu V.
Hypothesis L0 : rl (V nu) <> 0.
Hypothesis H15 : rh (V nu) <= 10 ^ 15.
Hypothesis HLP : lp_answers lp m n nu A b V.
Definition leaf (it : item) : Prop := full it = false /\ attained m n nu A b V (iq it).
Lemma sub_zero_free Q : sub_box n nu Q V -> zero_free n nu Q.
Proof. intros S j Hj N. destruct (S j Hj N). destruct (ZV j Hj N) as [P Z]. split; [unfold proper; lra|]. unfold inI in *. lra. Qed.
Lemma add_half_leaf Q L L' eta : sub_box n nu Q V -> add_half lp m n nu A b V Q (rh (V nu)) L = Some (L', eta) -> (forall it, In it L -> leaf it) -> forall it, In it L' -> leaf it.
Proof.
  intros S E HL. assert (Z := sub_zero_free Q S). unfold add_half, estimate in E.
  assert (N : zero_in (others n nu) Q = false).
  { unfold zero_in. apply not_true_is_false. intro H. apply existsb_exists in H. destruct H as (j & Hj & H). apply others_in in Hj. apply has0_spec in H. destruct (Z j (proj1 Hj) (proj2 Hj)). contradiction. }
  rewrite N in E. destruct (exact_omega lp m n nu A b Q (V nu)) as [r| |] eqn:X; [|injection E as <- <-; exact HL|discriminate].
  cbn [ov_lt] in E. destruct Rlt_dec as [Lt|]; injection E as <- <-; [|exact HL]. intros it H. apply insort_in in H. destruct H as [->|H]; [|now apply HL]. split; [reflexivity|]. cbn [iq].
  destruct (exact_omega_attained lp m n nu A b Q V r Hnu PA Pb Z (fun s => HLP Q s S Z) L0 H15 X Lt) as (x & U & C & Ex). exists x. split; [exact U|]. split; [exact (covers_sub n nu Q V x S C) | exact Ex].
Qed.
Theorem leaf_exact tol maxiter q : (0 <= maxiter)%Z -> (exists j, (j < n)%nat /\ j <> nu /\ tol <= wid (V j)) ->
  algo lp m n nu A b V tol maxiter = Some q -> attained m n nu A b V q.
Proof.
  intros Hm (j & Hj & Nj & Tj). unfold algo. destruct (Z.to_nat (maxiter + 1)) as [|fuel] eqn:EF; [lia|]. cbn [pss_loop nth_error iQ].
  destruct (widest (others n nu) V) as [k|] eqn:W; [|discriminate].
  assert (WJ : wid (V j) <= wid (V k)).
  { assert (Ij : In j (others n nu)) by (apply others_in; auto). destruct (others n nu) as [|j0 js]; [discriminate|]. cbn [widest] in W. injection W as <-.
    assert (G : forall js k, (forall i, In i (k :: js) -> wid (V i) <= wid (V (fold_left (fun k j' => if Rlt_dec (wid (V k)) (wid (V j')) then j' else k) js k)))).
    { clear. induction js as [|c js IH]; intros k i Hi; [destruct Hi as [<-|[]]; cbn [fold_left]; lra|]. cbn [fold_left].
      destruct Hi as [<-|[<-|Hi]]; [| |apply IH; now right].
      - destruct Rlt_dec as [D|D]; [eapply Rle_trans; [apply Rlt_le, D|]; apply IH; now left | apply IH; now left].
      - destruct Rlt_dec as [D|D]; [apply IH; now left|]. apply Rnot_lt_le in D. eapply Rle_trans; [exact D|]. apply IH. now left. }
    now apply G. }
  destruct Rlt_dec as [D|_]; [exfalso; lra|]. cbn [delete_nth]. apply widest_in, others_in in W. destruct W as [Wk Wn].
  assert (SV : sub_box n nu V V) by (intros i Hi Ni; destruct (ZV i Hi Ni) as [P _]; unfold proper in P; lra).
  destruct (add_half lp m n nu A b V (lower_half V k) (rh (V nu)) []) as [[L1 eta1]|] eqn:H1; [|discriminate].
  destruct (add_half lp m n nu A b V (upper_half V k) (rh (V nu)) L1) as [[L2 eta2]|] eqn:H2; [|discriminate].
  assert (F1 := add_half_leaf _ _ _ _ (lower_half_sub n nu V V k SV Wk Wn) H1 ltac:(intros it [])).
  assert (F2 := add_half_leaf _ _ _ _ (upper_half_sub n nu V V k SV Wk Wn) H2 F1).
  assert (F3 : forall it, In it (snd (update (rh (V nu)) (if ov_le eta1 eta2 then eta1 else eta2) L2)) -> leaf it).
  { intros it H. apply F2. unfold update in H. destruct (if ov_le eta1 eta2 then eta1 else eta2) as [r| |]; [destruct Rlt_dec|exact H|exact H]; cbn [snd] in H; [apply filter_In in H; tauto | exact H]. }
  destruct (update _ _ L2) as [omega' L3]. cbn [snd] in F3. rewrite first_full_none by (intros; now apply F3). destruct L3 as [|y L3]; [discriminate|]. intro E. injection E as <-. now apply F3; left.
Qed.
End Leaf.

(** ** A system: x_0 in [1, 2], x_1 free *)
Definition c45_A : imat := fun _ j => match j with O => r_point 1 | _ => r_point 0 end.
Definition c45_b : ivec := fun _ => mkr 1 2.
Definition c45_V : ivec := fun j => match j with O => mkr 0 3 | _ => mkr (-1) 1 end.
Definition c45_V2 : ivec := fun j => match j with O => mkr (-3) 0 | _ => mkr (-1) 1 end.
Lemma c45_united x : united 1 2 c45_A c45_b x <-> 1 <= x 0%nat <= 2.
Proof.
  split.
  - intros (M & v & HM & Hv & S). assert (E := S 0%nat ltac:(lia)). unfold times in E. simpl in E. assert (Hv0 := Hv 0%nat ltac:(lia)). assert (M0 := HM 0%nat 0%nat ltac:(lia) ltac:(lia)). assert (M1 := HM 0%nat 1%nat ltac:(lia) ltac:(lia)).
    unfold inI, c45_A, c45_b, r_point in *. cbn [rl rh] in *. assert (M 0%nat 0%nat = 1) by lra. assert (M 0%nat 1%nat = 0) by lra. rewrite H, H0 in E. lra.
  - intro H. exists (fun _ j => match j with O => 1 | _ => 0 end), (fun _ => x 0%nat). refine (conj _ (conj _ _)).
    + intros i [|j] _ _; unfold inI, c45_A, r_point; simpl; lra.
    + intros i _. unfold inI, c45_b. simpl. exact H.
    + intros i _. unfold times. simpl. ring.
Qed.

(** A truthful solver for the programs of this system *)
Definition c45_lp : lp_solver := fun _ _ c _ h => if Req_EM_T (c 0%nat) 0 then None else Some (fun j => match j with O => Rabs (h 1%nat) | _ => Rabs (h 3%nat) end).
Lemma c45_answers (lo hi : R) V : 0 < lo <= hi /\ hi <= 10 ^ 15 /\ (0 <= rl (V 0%nat) /\ 0 <= rh (V 0%nat)) \/ lo <= hi < 0 /\ - 10 ^ 15 <= lo /\ (rl (V 0%nat) <= 0 /\ rh (V 0%nat) <= 0) ->
  lp_answers c45_lp 1 2 0 c45_A (fun _ => mkr lo hi) V.
Proof.
  intros H Q s SB Z Hs. assert (S1 : s = 0 \/ (0 < lo /\ s = 1) \/ (hi < 0 /\ s = -1)).
  { unfold sgn in Hs. destruct (Rlt_dec 0 (rl (V 0%nat))), (Rlt_dec (rl (V 0%nat)) 0), (Rlt_dec 0 (rh (V 0%nat))), (Rlt_dec (rh (V 0%nat)) 0); lra. }
  destruct (Z 1%nat ltac:(lia) ltac:(lia)) as [P NZ]. unfold proper, inI in P, NZ.
  unfold lp_good, c45_lp. cbn [Nat.eqb]. unfold pss_b at 2 3. cbn [Nat.ltb Nat.leb Nat.mul Nat.add Nat.sub Nat.eqb rl rh].
  destruct (Req_EM_T s 0) as [E|E].
  - cbn [lp_truthful]. left. intros y F. apply (pss_rows 1 2 0 c45_A (fun _ => mkr lo hi) Q (pss_S 0 Q s)) in F. destruct F as (H1 & H2 & _). assert (A1 := H1 0%nat ltac:(lia)). assert (A2 := H2 0%nat ltac:(lia)). subst s. unfold pss_S, c45_A, r_mid, r_rad, r_point in A1, A2. simpl in A1, A2. lra.
  - cbn [lp_truthful]. split.
    + apply (pss_rows 1 2 0 c45_A (fun _ => mkr lo hi) Q (pss_S 0 Q s)). refine (conj _ (conj _ (conj _ (conj _ _)))).
      * intros i _. unfold pss_S, c45_A, r_mid, r_rad, r_point. simpl. rewrite Rabs_Ropp. destruct S1 as [->|[[L ->]|[L ->]]]; [lra| |]; [rewrite (Rabs_right lo) by lra | rewrite (Rabs_left lo) by lra]; lra.
      * intros i _. unfold pss_S, c45_A, r_mid, r_rad, r_point. simpl. rewrite Rabs_Ropp. destruct S1 as [->|[[L ->]|[L ->]]]; [lra| |]; [rewrite (Rabs_right lo) by lra | rewrite (Rabs_left lo) by lra]; lra.
      * intros [|[|j]] Hj; try lia; unfold pss_S; cbn [Nat.eqb]; rewrite Rabs_Ropp.
        -- destruct S1 as [->|[[L ->]|[L ->]]]; [lra| |]; [rewrite (Rabs_right lo) by lra | rewrite (Rabs_left lo) by lra]; lra.
        -- unfold sgn. destruct Rlt_dec; [rewrite Rabs_right by lra; lra|]. destruct Rlt_dec; [rewrite Rabs_left by lra; lra | lra].
      * intros [|[|j]] Hj; try lia; unfold pss_S; cbn [Nat.eqb]; rewrite Rabs_Ropp.
        -- destruct S1 as [->|[[L ->]|[L ->]]]; [lra| |]; [rewrite (Rabs_right lo) by lra | rewrite (Rabs_left lo) by lra]; lra.
        -- unfold sgn. destruct Rlt_dec; [rewrite Rabs_right by lra; lra|]. destruct Rlt_dec; [rewrite Rabs_left by lra; lra | lra].
      * intros [|j] _; apply Rabs_pos.
    + intros y F. rewrite !(obj_value 2 0 s) by lia. rewrite Rabs_Ropp. apply (pss_rows 1 2 0 c45_A (fun _ => mkr lo hi) Q (pss_S 0 Q s)) in F. destruct F as (H1 & H2 & _). assert (A1 := H1 0%nat ltac:(lia)). assert (A2 := H2 0%nat ltac:(lia)). unfold pss_S, c45_A, r_mid, r_rad, r_point in A1, A2. simpl in A1, A2.
      destruct S1 as [->|[[L ->]|[L ->]]]; [lra| |]; [rewrite (Rabs_right lo) by lra | rewrite (Rabs_left lo) by lra]; lra.
Qed.
(** The run *)
Lemma c45_rest Q i : rest (others 2 0) c45_A Q i = r_point 0 /\ rest_mid (others 2 0) c45_A Q i = r_point 0.
Proof.
  change (others 2 0) with [1%nat]. unfold rest, rest_mid, c45_A, r_add, r_mul, r_scale, r_point. cbn [fold_right rl rh]. split; f_equal; rewrite ?Rmult_0_l, ?Rmult_0_r; unfold Rmin, Rmax; repeat destruct Rle_dec; lra.
Qed.
Lemma c45_omega lo hi W bAr : bAr 0%nat = r_sub (mkr lo hi) (r_point 0) -> lo <= hi -> rl W <= lo -> hi <= rh W -> omega_of 1 bAr (Anu 0 c45_A) W = Val lo.
Proof.
  intros E L1 L2 L3. unfold omega_of. cbn [seq filter map]. unfold classic_row, Anu, c45_A, r_point. cbn [rl rh]. destruct Rlt_dec as [_|N]; [|exfalso; lra]. cbn [negb map]. rewrite E. unfold cdiv, r_div, has0, r_sub, r_point. cbn [rl rh].
  destruct (Rle_dec 1 0); [lra|]. cbn [app fold_left meet isect olo ohi rl rh]. set (a := Rmin (Rmin ((lo - 0) / 1) ((lo - 0) / 1)) (Rmin ((hi - 0) / 1) ((hi - 0) / 1))). set (c := Rmax (Rmax ((lo - 0) / 1) ((lo - 0) / 1)) (Rmax ((hi - 0) / 1) ((hi - 0) / 1))).
  assert (D1 : (lo - 0) / 1 = lo) by field. assert (D2 : (hi - 0) / 1 = hi) by field.
  assert (Ea : a = lo) by (unfold a; rewrite D1, D2, (Rmin_left hi hi), (Rmin_left lo lo), Rmin_left by lra; reflexivity). assert (Ec : c = hi) by (unfold c; rewrite D1, D2, (Rmax_left hi hi), (Rmax_left lo lo), Rmax_right by lra; reflexivity).
  rewrite Ea, Ec, Rmax_left, Rmin_left by lra. destruct Rle_dec as [_|N]; [|exfalso; apply N; assert (0 < / 10 ^ 15) by (apply Rinv_0_lt_compat; lra); lra].
  cbn [answer rl]. rewrite Rmin_left by lra. reflexivity.
Qed.
Lemma c45_add lp lo hi V Q omega L : lo <= hi -> rl (V 0%nat) <= lo -> hi <= rh (V 0%nat) -> has0 (Q 1%nat) = true -> lo < omega ->
  add_half lp 1 2 0 c45_A (fun _ => mkr lo hi) V Q omega L = Some (insort (mkitem Q lo true) L, Val lo).
Proof.
  intros L1 L2 L3 Z Lt. unfold add_half, estimate. assert (ZI : zero_in (others 2 0) Q = true) by (change (others 2 0) with [1%nat]; unfold zero_in; cbn [existsb]; rewrite Z; reflexivity).
  rewrite ZI. destruct (c45_rest Q 0) as [R1 R2]. rewrite (c45_omega lo hi) by (try (cbv beta; rewrite R1; reflexivity); assumption). cbn [ov_lt]. destruct Rlt_dec; [|contradiction].
  rewrite (c45_omega lo hi) by (try (cbv beta; rewrite R2; reflexivity); assumption). reflexivity.
Qed.
Lemma c45_algo lp lo hi V : lo <= hi -> rl (V 0%nat) <= lo -> hi <= rh (V 0%nat) -> lo < rh (V 0%nat) -> V 1%nat = mkr (-1) 1 -> algo lp 1 2 0 c45_A (fun _ => mkr lo hi) V 1 0 = Some lo.
Proof.
  intros L1 L2 L3 Lt E. unfold algo. change (Z.to_nat (0 + 1)) with 1%nat. cbn [pss_loop nth_error iQ]. change (others 2 0) with [1%nat]. cbn [widest fold_left]. rewrite E. unfold wid. cbn [rl rh].
  destruct Rlt_dec as [D|_]; [exfalso; lra|]. cbn [delete_nth].
  assert (C : cut (V 1%nat) = 0) by (rewrite E; unfold cut; cbn [rl rh]; destruct Req_EM_T; [lra|]; destruct Rlt_dec; [destruct Rlt_dec|]; [reflexivity | exfalso; lra | exfalso; lra]).
  rewrite !(c45_add lp lo hi V) by (try assumption; unfold lower_half, upper_half, set_at; cbn [Nat.eqb]; rewrite C, E; unfold has0; cbn [rl rh]; repeat destruct Rle_dec; auto; exfalso; lra).
  cbn [insort iq ov_le]. destruct Rlt_dec as [D|_]; [exfalso; lra|]. destruct Rle_dec as [_|D]; [|exfalso; lra]. cbn [update]. destruct Rlt_dec as [_|D]; [|contradiction]. cbn [filter iq]. destruct Rle_dec as [_|D]; [|exfalso; lra].
  cbn [first_full full pss_loop nth_error iQ]. change (others 2 0) with [1%nat]. cbn [widest fold_left]. destruct Rlt_dec; reflexivity.
Qed.
Lemma c45_run : pss c45_lp 1 2 c45_A c45_b c45_V c45_V2 1 0 0 = Some (mkr 1 2).
Proof.
  unfold pss. unfold c45_b. rewrite (c45_algo c45_lp 1 2 c45_V) by (try reflexivity; unfold c45_V; cbn [rl rh]; lra).
  unfold r_neg. cbn [rl rh]. rewrite (c45_algo c45_lp (- (2)) (- (1)) c45_V2) by (try reflexivity; unfold c45_V2; cbn [rl rh]; lra). do 2 f_equal. lra.
Qed.

(** ** What goes wrong *)
(** With x0 the second pass starts from x0 instead of -x0. *)
Lemma pss_x0_refuted : exists m n A b x0 tol maxiter, proper_mat m n A /\ proper_vec m b /\ proper_vec n x0 /\
  forall lp, exists X x, pss_x0 lp m n A b x0 tol maxiter 0 = Some X /\ united m n A b x /\ in_ivec n x0 x /\ ~ inI X (x 0%nat).
Proof.
  exists 1%nat, 2%nat, c45_A, c45_b, (fun j => match j with O => mkr 1 4 | _ => mkr (-1) 1 end), 10, 2000%Z.
  refine (conj _ (conj _ (conj _ _))); [intros i [|j] _ _; unfold proper, c45_A, r_point; simpl; lra | intros i _; unfold proper, c45_b; simpl; lra | intros [|j] _; unfold proper; simpl; lra|].
  intro lp. exists (mkr 1 (-1)), (fun j => match j with O => 2 | _ => 0 end). refine (conj _ (conj _ (conj _ _))).
  - unfold pss_x0, pss, algo. assert (G : forall bb fuel, pss_loop lp 1 2 0 c45_A bb (fun j => match j with O => mkr 1 4 | _ => mkr (-1) 1 end) 10 fuel [mkitem (fun j => match j with O => mkr 1 4 | _ => mkr (-1) 1 end) 1 false] 0 4 = Some 1).
    { intros bb [|fuel]; cbn [pss_loop nth_error iQ]; change (others 2 0) with [1%nat]; cbn [widest fold_left]; unfold wid; cbn [rl rh]; (destruct Rlt_dec as [_|D]; [reflexivity | exfalso; lra]). }
    cbn [rl rh]. rewrite !G. reflexivity.
  - apply c45_united. lra.
  - intros [|j] _; unfold inI; simpl; lra.
  - unfold inI. cbn [rl rh]. lra.
Qed.
(** A component that is already a point: both halves are dropped and the result is taken from an empty list. *)
Lemma pss_point_refuted : exists m n A b V, proper_mat m n A /\ proper_vec m b /\ proper_vec n V /\ (exists x, united m n A b x /\ in_ivec n V x) /\
  forall lp maxiter, (0 <= maxiter)%Z -> algo lp m n 0 A b V 1 maxiter = None.
Proof.
  exists 1%nat, 2%nat, c45_A, (fun _ => mkr 1 1), (fun j => match j with O => mkr 1 1 | _ => mkr (-1) 1 end).
  refine (conj _ (conj _ (conj _ (conj _ _)))); [intros i [|j] _ _; unfold proper, c45_A, r_point; simpl; lra | intros i _; unfold proper; simpl; lra | intros [|j] _; unfold proper; simpl; lra| |].
  - exists (fun j => match j with O => 1 | _ => 0 end). split; [|intros [|j] _; unfold inI; simpl; lra].
    exists (fun _ j => match j with O => 1 | _ => 0 end), (fun _ => 1). refine (conj _ (conj _ _)); [intros i [|j] _ _; unfold inI, c45_A, r_point; simpl; lra | intros i _; unfold inI; simpl; lra | intros i _; unfold times; simpl; ring].
  - intros lp maxiter Hm. unfold algo. destruct (Z.to_nat (maxiter + 1)) as [|fuel] eqn:EF; [lia|]. cbn [pss_loop nth_error iQ]. change (others 2 0) with [1%nat]. cbn [widest fold_left]. unfold wid. cbn [rl rh].
    destruct Rlt_dec as [D|_]; [exfalso; lra|]. cbn [delete_nth]. set (V := fun j => match j with O => mkr 1 1 | _ => mkr (-1) 1 end).
    assert (C : cut (V 1%nat) = 0) by (unfold cut, V; cbn [rl rh]; destruct Req_EM_T; [lra|]; destruct Rlt_dec; [destruct Rlt_dec|]; [reflexivity | exfalso; lra | exfalso; lra]).
    assert (G : forall Q, has0 (Q 1%nat) = true -> add_half lp 1 2 0 c45_A (fun _ => mkr 1 1) V Q 1 [] = Some ([], Infty)).
    { intros Q Z. unfold add_half, estimate. assert (ZI : zero_in (others 2 0) Q = true) by (change (others 2 0) with [1%nat]; unfold zero_in; cbn [existsb]; rewrite Z; reflexivity).
      rewrite ZI. destruct (c45_rest Q 0) as [R1 R2]. rewrite (c45_omega 1 1) by (try (cbv beta; rewrite R1; reflexivity); unfold V; cbn [rl rh]; lra). cbn [ov_lt]. destruct Rlt_dec; [exfalso; lra | reflexivity]. }
    rewrite !G by (unfold lower_half, upper_half, set_at; cbn [Nat.eqb]; rewrite C; unfold V, has0; cbn [rl rh]; repeat destruct Rle_dec; auto; exfalso; lra). reflexivity.
Qed.
(** A single unknown always raises: there is no other component to take the maximum over. *)
Lemma pss_one_unknown lp m A b V tol maxiter : algo lp m 1 0 A b V tol maxiter = None.
Proof. unfold algo. destruct (Z.to_nat (maxiter + 1)); reflexivity. Qed.
(** A starting box without zeros *)
Definition c45_V3 : ivec := fun j => match j with O => mkr (1 / 2) 3 | _ => mkr 1 2 end.
Lemma c45_leaf_run : algo c45_lp 1 2 0 c45_A c45_b c45_V3 1 0 = Some 1.
Proof.
  assert (W : forall Q, exact_omega c45_lp 1 2 0 c45_A c45_b Q (c45_V3 0%nat) = Val 1).
  { intro Q. assert (S : sgn (rl (c45_V3 0%nat)) = 1) by (unfold sgn, c45_V3; cbn [rl]; destruct Rlt_dec; [reflexivity | exfalso; lra]). unfold exact_omega. rewrite S. unfold pss_lp, c45_lp. cbn [Nat.eqb].
    destruct Req_EM_T as [E|_]; [exfalso; lra|]. f_equal. rewrite vsum_eq. unfold pss_b, c45_b. cbn [total Nat.eqb Nat.ltb Nat.leb Nat.mul Nat.add Nat.sub rl rh]. rewrite (Rabs_left (- (1))) by lra. ring. }
  assert (G : forall Q L, has0 (Q 1%nat) = false -> add_half c45_lp 1 2 0 c45_A c45_b c45_V3 Q 3 L = Some (insort (mkitem Q 1 false) L, Val 1)).
  { intros Q L Z. unfold add_half, estimate. assert (ZI : zero_in (others 2 0) Q = false) by (change (others 2 0) with [1%nat]; unfold zero_in; cbn [existsb]; rewrite Z; reflexivity). rewrite ZI, W. cbn [ov_lt]. destruct Rlt_dec; [reflexivity | exfalso; lra]. }
  unfold algo. change (Z.to_nat (0 + 1)) with 1%nat. cbn [pss_loop nth_error iQ]. change (others 2 0) with [1%nat]. cbn [widest fold_left]. unfold wid. change (c45_V3 1%nat) with (mkr 1 2). change (c45_V3 0%nat) with (mkr (1 / 2) 3). cbn [rl rh].
  destruct Rlt_dec as [D|_]; [exfalso; lra|]. cbn [delete_nth].
  assert (C : cut (c45_V3 1%nat) = 3 / 2) by (unfold cut, c45_V3, r_mid; cbn [rl rh]; destruct Req_EM_T; [exfalso; lra|]; destruct Rlt_dec; [destruct Rlt_dec|]; lra).
  rewrite !G by (unfold lower_half, upper_half, set_at; cbn [Nat.eqb]; rewrite C; unfold c45_V3, has0; cbn [rl rh]; repeat destruct Rle_dec; auto; exfalso; lra).
  cbn [insort iq ov_le]. destruct Rlt_dec as [D|_]; [exfalso; lra|]. destruct Rle_dec as [_|D]; [|exfalso; lra]. cbn [update]. destruct Rlt_dec as [_|D]; [|exfalso; lra]. cbn [filter iq]. destruct Rle_dec as [_|D]; [|exfalso; lra]. reflexivity.
Qed.
