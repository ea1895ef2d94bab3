(** PSS: both ends, systems without solutions, a run, and what the conditions are for. *)
From Coq Require Import Reals List Arith Bool ZArith Lia Lra Psatz.
From Verif Require Import Exact SpecExact ExactProofs Estim SpecEstim EstimProofs RecogProofs Pss SpecPss PssProofs PssLoop PssMore PssAcc PssEnds.
Import ListNotations.
Open Scope R_scope.

(** Both ends *)
Theorem pss_hull lp m n nu A b V1 V2 tol K maxiter X : (nu < n)%nat -> proper_mat m n A -> proper_vec m b -> proper_vec n V1 -> proper_vec n V2 -> 0 < tol ->
  rl (V1 nu) <> 0 -> rl (V2 nu) <> 0 -> rh (V1 nu) <= 10 ^ 15 -> rh (V2 nu) <= 10 ^ 15 ->
  lp_answers lp m n nu A b V1 -> lp_answers lp m n nu A (fun i => r_neg (b i)) V2 ->
  (forall j, (j < n)%nat -> j <> nu -> wid (V1 j) * (2 / 3) ^ K < tol) -> (forall j, (j < n)%nat -> j <> nu -> wid (V2 j) * (2 / 3) ^ K < tol) ->
  (exists j, (j < n)%nat /\ j <> nu /\ tol <= wid (V1 j)) -> (exists j, (j < n)%nat /\ j <> nu /\ tol <= wid (V2 j)) ->
  (Z.of_nat (2 ^ (K * (n - 1))) <= maxiter)%Z -> pss lp m n A b V1 V2 tol maxiter nu = Some X ->
  (exists x, united m n A (widened b (slack m n nu A tol)) x /\ x nu = rl X) /\ (exists x, united m n A (widened b (slack m n nu A tol)) x /\ x nu = rh X).
Proof.
  intros Hnu PA Pb P1 P2 T0 N1 N2 H1 H2 G1 G2 K1 K2 W1 W2 HM E. unfold pss in E. destruct (algo lp m n nu A b V1 tol maxiter) as [l|] eqn:E1; [|discriminate].
  destruct (algo lp m n nu A (fun i => r_neg (b i)) V2 tol maxiter) as [h|] eqn:E2; [|discriminate]. injection E as <-. cbn [rl rh]. split.
  - destruct (pss_accurate lp m n nu A b V1 tol Hnu PA Pb P1 T0 N1 H1 G1 K K1 W1 maxiter l HM E1) as (x & U & _ & Ex). exists x. auto.
  - assert (Pn : proper_vec m (fun i => r_neg (b i))) by (intros i Hi; assert (B := Pb i Hi); unfold proper, r_neg in *; cbn [rl rh]; lra).
    destruct (pss_accurate lp m n nu A (fun i => r_neg (b i)) V2 tol Hnu PA Pn P2 T0 N2 H2 G2 K K2 W2 maxiter h HM E2) as (x & (M & v & HM' & Hv & S) & _ & Ex).
    exists (fun j => - x j). split; [|now rewrite Ex]. exists M, (fun i => - v i). split; [exact HM'|]. split.
    + intros i Hi. assert (B := Hv i Hi). unfold inI, widened, r_neg in *. cbn [rl rh] in *. lra.
    + intros i Hi. rewrite <- (S i Hi). unfold times. rewrite <- total_opp. apply total_ext. intros; ring.
Qed.
(** No solutions even of the widened system: an exception *)
Theorem pss_no_solutions lp m n nu A b V tol K maxiter : (nu < n)%nat -> proper_mat m n A -> proper_vec m b -> proper_vec n V -> 0 < tol ->
  rl (V nu) <> 0 -> rh (V nu) <= 10 ^ 15 -> lp_answers lp m n nu A b V ->
  (forall j, (j < n)%nat -> j <> nu -> wid (V j) * (2 / 3) ^ K < tol) -> (exists j, (j < n)%nat /\ j <> nu /\ tol <= wid (V j)) ->
  (Z.of_nat (2 ^ (K * (n - 1))) <= maxiter)%Z -> (forall x, ~ united m n A (widened b (slack m n nu A tol)) x) -> algo lp m n nu A b V tol maxiter = None.
Proof.
  intros Hnu PA Pb P1 T0 N1 H1 G1 K1 W1 HM N. destruct (algo lp m n nu A b V tol maxiter) as [q|] eqn:E; [|reflexivity]. exfalso.
  destruct (pss_accurate lp m n nu A b V tol Hnu PA Pb P1 T0 N1 H1 G1 K K1 W1 maxiter q HM E) as (x & U & _). exact (N x U).
Qed.

(** ** A run: x_0 in [1, 2], x_1 free, tolerance 2 *)
Definition c78_V : ivec := fun j => match j with O => mkr (1 / 2) 3 | _ => mkr (-1) 1 end.
Definition c78_V2 : ivec := fun j => match j with O => mkr (-3) (- (1 / 2)) | _ => mkr (-1) 1 end.
Lemma c78_cut : cut (mkr (-1) 1) = 0.
Proof. unfold cut. cbn [rl rh]. destruct Req_EM_T; [lra|]. destruct Rlt_dec; [destruct Rlt_dec|]; [reflexivity | exfalso; lra | exfalso; lra]. Qed.
Lemma c78_first lp lo hi V tol fuel : lo <= hi -> rl (V 0%nat) <= lo -> hi <= rh (V 0%nat) -> lo < rh (V 0%nat) -> V 1%nat = mkr (-1) 1 -> tol <= 2 ->
  pss_loop lp 1 2 0 c45_A (fun _ => mkr lo hi) V tol (S fuel) [mkitem V (rl (V 0%nat)) false] 0 (rh (V 0%nat)) =
  pss_loop lp 1 2 0 c45_A (fun _ => mkr lo hi) V tol fuel [mkitem (upper_half V 1) lo true; mkitem (lower_half V 1) lo true] 0 lo.
Proof.
  intros L1 L2 L3 Lt E T. cbn [pss_loop nth_error iQ]. change (others 2 0) with [1%nat]. cbn [widest fold_left]. rewrite E. unfold wid. cbn [rl rh].
  destruct (Rlt_dec (1 - -1) tol) as [D|_]; [exfalso; lra|]. cbn [delete_nth].
  assert (C : cut (V 1%nat) = 0) by (rewrite E; apply c78_cut).
  rewrite !(c45_add lp lo hi V) by (try assumption; unfold lower_half, upper_half, set_at; cbn [Nat.eqb]; rewrite C, E; unfold has0; cbn [rl rh]; repeat destruct Rle_dec; auto; exfalso; lra).
  cbn [insort iq ov_le]. destruct (Rlt_dec lo lo) as [D|_]; [exfalso; lra|]. destruct (Rle_dec lo lo) as [_|D]; [|exfalso; lra]. cbn [update]. destruct (Rlt_dec lo (rh (V 0%nat))) as [_|D]; [|contradiction]. cbn [filter iq]. destruct (Rle_dec lo lo) as [_|D]; [|exfalso; lra].
  cbn [first_full full]. reflexivity.
Qed.
Lemma c78_algo lp lo hi V : lo <= hi -> rl (V 0%nat) <= lo -> hi <= rh (V 0%nat) -> lo < rh (V 0%nat) -> V 1%nat = mkr (-1) 1 -> algo lp 1 2 0 c45_A (fun _ => mkr lo hi) V 2 2 = Some lo.
Proof.
  intros L1 L2 L3 Lt E. unfold algo. change (Z.to_nat (2 + 1)) with 3%nat. rewrite c78_first by (auto; lra). cbn [pss_loop nth_error iQ]. change (others 2 0) with [1%nat]. cbn [widest fold_left].
  destruct Rlt_dec as [_|D]; [reflexivity|]. exfalso. apply D. unfold upper_half, set_at. cbn [Nat.eqb]. rewrite E, c78_cut. unfold wid. cbn [rl rh]. lra.
Qed.
Lemma c78_run : pss c45_lp 1 2 c45_A c45_b c78_V c78_V2 2 2 0 = Some (mkr 1 2).
Proof.
  unfold pss. unfold c45_b. rewrite (c78_algo c45_lp 1 2 c78_V) by (try reflexivity; unfold c78_V; cbn [rl rh]; lra).
  unfold r_neg. cbn [rl rh]. rewrite (c78_algo c45_lp (- (2)) (- (1)) c78_V2) by (try reflexivity; unfold c78_V2; cbn [rl rh]; lra). do 2 f_equal. lra.
Qed.

(** ** The list may run empty although there are solutions: the bound of a box is
       compared strictly with the best value found so far. *)
Lemma c78_drop lp Q L : lp_answers lp 1 2 0 c45_A c45_b c78_V -> sub_box 2 0 Q c78_V -> add_half lp 1 2 0 c45_A c45_b c78_V Q 1 L = Some (L, Infty).
Proof.
  intros HLP S. unfold add_half, estimate. destruct (zero_in (others 2 0) Q) eqn:Z.
  - destruct (c45_rest Q 0) as [R1 R2]. rewrite (c45_omega 1 2) by (try (cbv beta; rewrite R1; reflexivity); unfold c78_V; cbn [rl rh]; lra). cbn [ov_lt]. destruct Rlt_dec; [exfalso; lra | reflexivity].
  - destruct (exact_omega lp 1 2 0 c45_A c45_b Q (c78_V 0%nat)) as [r| |] eqn:X.
    + cbn [ov_lt]. destruct (Rlt_dec r 1) as [Lt|]; [|reflexivity]. exfalso.
      assert (ZF : zero_free 2 0 Q).
      { intros j Hj N. destruct (S j Hj N). split; [unfold proper; lra|]. intro HZ0. apply has0_spec in HZ0. assert (existsb (fun j => has0 (Q j)) (others 2 0) = true); [|unfold zero_in in Z; congruence]. apply existsb_exists. exists j. split; [now apply others_in | exact HZ0]. }
      destruct (exact_omega_attained lp 1 2 0 c45_A c45_b Q c78_V r) with (8 := X) as (x & U & _ & Ex); auto.
      * intros i [|j] _ _; unfold proper, c45_A, r_point; simpl; lra.
      * intros i _; unfold proper, c45_b; simpl; lra.
      * unfold c78_V; simpl; lra.
      * unfold c78_V; simpl; lra.
      * unfold c78_V; simpl; lra.
      * apply c45_united in U. lra.
    + unfold exact_omega in X. destruct (pss_lp _ _ _ _ _ _ _ _); [discriminate|]. destruct (pss_lp _ _ _ _ _ _ _ _); discriminate.
    + unfold exact_omega in X. destruct (pss_lp _ _ _ _ _ _ _ _); [discriminate|]. destruct (pss_lp _ _ _ _ _ _ _ _); discriminate.
Qed.
Lemma c78_raises lp maxiter : lp_answers lp 1 2 0 c45_A c45_b c78_V -> (2 <= maxiter)%Z -> algo lp 1 2 0 c45_A c45_b c78_V 1 maxiter = None.
Proof.
  intros HLP Hm. unfold algo. destruct (Z.to_nat (maxiter + 1)) as [|[|[|f]]] eqn:EF; try lia. unfold c45_b. rewrite c78_first by (try reflexivity; unfold c78_V; cbn [rl rh]; lra). fold c45_b.
  assert (PV : sub_box 2 0 c78_V c78_V) by (intros [|j] _ N; [contradiction | unfold c78_V; simpl; lra]).
  assert (SU := upper_half_sub 2 0 c78_V c78_V 1 PV ltac:(lia) ltac:(lia)). assert (SL := lower_half_sub 2 0 c78_V c78_V 1 PV ltac:(lia) ltac:(lia)).
  assert (WU : wid (upper_half c78_V 1 1%nat) = 1) by (unfold upper_half, set_at; cbn [Nat.eqb]; change (c78_V 1%nat) with (mkr (-1) 1); rewrite c78_cut; unfold wid; cbn [rl rh]; lra).
  assert (WL : wid (lower_half c78_V 1 1%nat) = 1) by (unfold lower_half, set_at; cbn [Nat.eqb]; change (c78_V 1%nat) with (mkr (-1) 1); rewrite c78_cut; unfold wid; cbn [rl rh]; lra).
  cbn [pss_loop nth_error iQ]. change (others 2 0) with [1%nat]. cbn [widest fold_left]. rewrite WU. destruct (Rlt_dec 1 1) as [D|_]; [exfalso; lra|]. cbn [delete_nth].
  rewrite !c78_drop by (auto; first [apply lower_half_sub | apply upper_half_sub]; auto; lia). cbn [ov_le update first_full full nth_error iQ widest fold_left]. rewrite WL. destruct (Rlt_dec 1 1) as [D|_]; [exfalso; lra|]. cbn [delete_nth].
  rewrite !c78_drop by (auto; first [apply lower_half_sub | apply upper_half_sub]; auto; lia). reflexivity.
Qed.
Lemma c78_first_answer lp : algo lp 1 2 0 c45_A c45_b c78_V 1 0 = Some 1.
Proof. apply (c45_algo lp 1 2 c78_V); try reflexivity; unfold c78_V; cbn [rl rh]; lra. Qed.

(** ** A starting box whose lower end is zero in the component: [1,3] x_0 + x_1 = 3, x_1 in [1,2] *)
Definition zs_A : imat := fun i j => match i, j with O, O => mkr 1 3 | O, _ => r_point 1 | _, O => r_point 0 | _, _ => r_point 1 end.
Definition zs_b : ivec := fun i => match i with O => r_point 3 | _ => mkr 1 2 end.
Definition zs_V : ivec := fun j => match j with O => mkr 0 5 | _ => mkr 1 2 end.
Lemma zs_solutions x : united 2 2 zs_A zs_b x -> 1 / 3 <= x 0%nat <= 2 /\ 1 <= x 1%nat <= 2.
Proof.
  intros (M & v & HM & Hv & S). assert (E0 := S 0%nat ltac:(lia)). assert (E1 := S 1%nat ltac:(lia)). unfold times in E0, E1. cbn [total] in E0, E1.
  assert (M00 := HM 0%nat 0%nat ltac:(lia) ltac:(lia)). assert (M01 := HM 0%nat 1%nat ltac:(lia) ltac:(lia)). assert (M10 := HM 1%nat 0%nat ltac:(lia) ltac:(lia)). assert (M11 := HM 1%nat 1%nat ltac:(lia) ltac:(lia)). assert (V0 := Hv 0%nat ltac:(lia)). assert (V1 := Hv 1%nat ltac:(lia)).
  unfold inI, zs_A, zs_b, r_point in *. cbn [rl rh] in *. assert (Q01 : M 0%nat 1%nat = 1) by lra. assert (Q10 : M 1%nat 0%nat = 0) by lra. assert (Q11 : M 1%nat 1%nat = 1) by lra. rewrite Q01 in E0. rewrite Q10, Q11 in E1.
  set (a := M 0%nat 0%nat) in *. set (t := x 0%nat) in *. set (u := x 1%nat) in *. assert (U : 1 <= u <= 2) by lra. assert (P : a * t = 3 - u) by lra. split; [|exact U].
  assert (0 < t) by (destruct (Rlt_dec 0 t); [assumption | exfalso; nra]). split; nra.
Qed.
Lemma zs_some : united 2 2 zs_A zs_b (fun j => match j with O => 1 / 3 | _ => 2 end).
Proof.
  exists (fun i j => match i, j with O, O => 3 | O, _ => 1 | _, O => 0 | _, _ => 1 end), (fun i => match i with O => 3 | _ => 2 end). refine (conj _ (conj _ _)).
  - intros [|i] [|j] _ _; unfold inI, zs_A, r_point; simpl; lra.
  - intros [|i] _; unfold inI, zs_b, r_point; simpl; lra.
  - intros [|i] _; unfold times; cbn [total]; lra.
Qed.
Definition zs_lp : lp_solver := fun _ _ c _ h => if Req_EM_T (c 0%nat) 0 then Some (fun j => match j with O => 2 | _ => - h 5%nat end) else Some (fun j => match j with O => (3 - h 7%nat) / 3 | _ => h 7%nat end).
Lemma zs_rows Q s y : 1 <= rl (Q 1%nat) -> rl (Q 1%nat) <= rh (Q 1%nat) <= 2 -> s = 0 \/ s = 1 ->
  (feasible (2 * (2 + 2) + 2) 2 (pss_A 2 2 zs_A (pss_S 0 Q s)) (pss_b 2 2 0 zs_b Q) y <->
   (2 * s - 1) * y 0%nat + y 1%nat <= 3 /\ 3 <= (2 * s + 1) * y 0%nat + y 1%nat /\ 1 <= y 1%nat <= 2 /\ rl (Q 1%nat) <= y 1%nat <= rh (Q 1%nat) /\ s * y 0%nat <= 10 ^ 15 /\ 0 <= y 0%nat /\ 0 <= y 1%nat).
Proof.
  intros Q1 Q2 Hs. assert (S1 : sgn (rl (Q 1%nat)) = 1) by (unfold sgn; destruct Rlt_dec; [reflexivity | exfalso; lra]). rewrite pss_rows. split.
  - intros (H1 & H2 & H3 & H4 & H5). assert (A0 := H1 0%nat ltac:(lia)). assert (A1 := H1 1%nat ltac:(lia)). assert (B0 := H2 0%nat ltac:(lia)). assert (B1 := H2 1%nat ltac:(lia)).
    assert (C1 := H3 1%nat ltac:(lia)). assert (D0 := H4 0%nat ltac:(lia)). assert (D1 := H4 1%nat ltac:(lia)). assert (E0 := H5 0%nat ltac:(lia)). assert (E1 := H5 1%nat ltac:(lia)). clear H1 H2 H3 H4 H5.
    unfold pss_S, zs_A, zs_b, r_point, r_mid, r_rad in *. cbn [Nat.eqb total rl rh] in *. rewrite S1 in *. lra.
  - intros (H1 & H2 & H3 & H4 & H5 & H6 & H7). refine (conj _ (conj _ (conj _ (conj _ _)))).
    + intros [|[|i]] Hi; try lia; unfold pss_S, zs_A, zs_b, r_point, r_mid, r_rad; cbn [Nat.eqb total rl rh]; rewrite S1; lra.
    + intros [|[|i]] Hi; try lia; unfold pss_S, zs_A, zs_b, r_point, r_mid, r_rad; cbn [Nat.eqb total rl rh]; rewrite S1; lra.
    + intros [|[|i]] Hi; try lia; unfold pss_S; cbn [Nat.eqb]; rewrite ?S1; [|lra]. assert (0 <= s * y 0%nat) by (destruct Hs as [-> | ->]; lra). lra.
    + intros [|[|i]] Hi; try lia; unfold pss_S; cbn [Nat.eqb]; rewrite ?S1; lra.
    + intros [|[|i]] Hi; try lia; assumption.
Qed.
Lemma zs_box Q : sub_box 2 0 Q zs_V -> 1 <= rl (Q 1%nat) /\ rl (Q 1%nat) <= rh (Q 1%nat) <= 2.
Proof. intro S. destruct (S 1%nat ltac:(lia) ltac:(lia)). unfold zs_V in *. cbn [rl rh] in *. lra. Qed.
Lemma zs_answers : lp_answers zs_lp 2 2 0 zs_A zs_b zs_V.
Proof.
  intros Q s SB Z Hs. destruct (zs_box Q SB) as [Q1 Q2].
  assert (S1 : s = 0 \/ s = 1) by (unfold sgn, zs_V in Hs; cbn [rl rh] in Hs; destruct (Rlt_dec 0 0), (Rlt_dec 0 5), (Rlt_dec 5 0); lra).
  unfold lp_good, zs_lp. cbn [Nat.eqb]. change (pss_b 2 2 0 zs_b Q 5%nat) with (- rl (Q 1%nat)). change (pss_b 2 2 0 zs_b Q 7%nat) with (rh (Q 1%nat)).
  destruct (Req_EM_T s 0) as [E|E]; cbn [lp_truthful]; split.
  - apply zs_rows; auto. subst s. cbv beta. lra.
  - intros y F. rewrite !(obj_value 2 0 s) by lia. subst s. lra.
  - apply zs_rows; auto. assert (s = 1) by lra. subst s. cbv beta. lra.
  - intros y F. apply zs_rows in F; auto. rewrite !(obj_value 2 0 s) by lia. assert (s = 1) by lra. subst s. lra.
Qed.
Lemma zs_add lp Q L : lp_answers lp 2 2 0 zs_A zs_b zs_V -> sub_box 2 0 Q zs_V -> add_half lp 2 2 0 zs_A zs_b zs_V Q 5 L = Some (insort (mkitem Q 0 false) L, Val 0).
Proof.
  intros HLP S. destruct (zs_box Q S) as [Q1 Q2]. unfold add_half, estimate.
  assert (Z : has0 (Q 1%nat) = false) by (unfold has0; destruct Rle_dec; [exfalso; lra | reflexivity]).
  assert (ZI : zero_in (others 2 0) Q = false) by (change (others 2 0) with [1%nat]; unfold zero_in; cbn [existsb]; rewrite Z; reflexivity). rewrite ZI.
  assert (S0 : sgn (rl (zs_V 0%nat)) = 0) by (unfold sgn, zs_V; cbn [rl]; destruct (Rlt_dec 0 0); lra).
  assert (ZF : zero_free 2 0 Q) by (intros [|[|j]] Hj N; try lia; unfold proper, inI; lra).
  assert (SP := pss_lp_spec lp 2 2 0 zs_A zs_b Q 0 ltac:(lia) (HLP Q 0 S ZF ltac:(left; now symmetry))).
  unfold exact_omega. rewrite S0. destruct (pss_lp lp 2 2 0 zs_A zs_b Q 0) as [r|].
  - destruct SP as (y & _ & Er & _). rewrite Rmult_0_l in Er. subst r. cbn [ov_lt]. destruct Rlt_dec; [reflexivity | exfalso; lra].
  - exfalso. apply (SP (fun j => match j with O => 2 | _ => rl (Q 1%nat) end)). apply zs_rows; auto. lra.
Qed.
Lemma zs_algo lp tol maxiter : lp_answers lp 2 2 0 zs_A zs_b zs_V -> algo lp 2 2 0 zs_A zs_b zs_V tol maxiter = Some 0.
Proof.
  intro HLP. assert (SV : sub_box 2 0 zs_V zs_V) by (intros [|j] _ N; [contradiction | unfold zs_V; simpl; lra]).
  unfold algo. destruct (Z.to_nat (maxiter + 1)) as [|f]; cbn [pss_loop nth_error iQ]; change (others 2 0) with [1%nat]; cbn [widest fold_left]; (destruct (Rlt_dec _ tol) as [_|_]; [reflexivity|]); [reflexivity|]. cbn [delete_nth].
  change (rh (zs_V 0%nat)) with 5. rewrite !zs_add by (auto; first [apply lower_half_sub | apply upper_half_sub]; auto; lia).
  cbn [insort iq ov_le]. destruct (Rlt_dec 0 0) as [D|_]; [exfalso; lra|]. destruct (Rle_dec 0 0) as [_|D]; [|exfalso; lra]. cbn [update]. destruct (Rlt_dec 0 5) as [_|D]; [|exfalso; lra]. cbn [filter iq]. destruct (Rle_dec 0 0) as [_|D]; [|exfalso; lra]. reflexivity.
Qed.
