(** A 2 x 2 system that meets the hypotheses of the theorems about the accuracy of
    PPS: the system of PpsCase.v with an estimator that calls HBR on matrices of
    numbers. *)
From Coq Require Import Reals List Arith Bool ZArith Lia Lra Psatz.
From Verif Require Import Exact SpecExact ExactProofs Estim SpecEstim EstimProofs HbrProofs HbrCall Pss Pps SpecPps PpsProofs PpsLoop PpsMore PpsCase EstimMat PpsCaseAll PpsHbr PpsAcc PpsEnds.
Import ListNotations.
Open Scope R_scope.

Definition inv2 (M : mat) : option mat :=
  let d := M 0%nat 0%nat * M 1%nat 1%nat - M 0%nat 1%nat * M 1%nat 0%nat in
  if Req_EM_T d 0 then None else Some (fun i j => (if (i =? j)%nat then M (swap2 i) (swap2 j) else - M i j) / d).
Lemma inv2_exact : inverses_exact inv2 2.
Proof.
  intros M Z E. unfold inv2 in E. cbv zeta in E. destruct (Req_EM_T _ _) as [|D]; [discriminate|]. inversion E; subst Z; clear E. intros i j Hi Hj.
  cbn [total]. destruct (below2 i Hi) as [-> | ->]; destruct (below2 j Hj) as [-> | ->]; cbn [Nat.eqb swap2 Nat.sub]; split; field; exact D.
Qed.
Definition ct_hbr (Q : imat) (r : ivec) : option ivec := if exact_mat 2 Q then hbr_call inv2 1 Q r else cs_hbr Q r.
Lemma ct_points Q : exact_mat 2 Q = true -> forall i j, (i < 2)%nat -> (j < 2)%nat -> rl (Q i j) = rh (Q i j).
Proof. intros E i j Hi Hj. eapply exact_points; [exact Hi | exact E | exact Hi | exact Hj]. Qed.
Lemma ct_exact b : exact_on_numbers ct_hbr 2 cs_A b.
Proof.
  intros Q r v j HQ Hr HP E Hj. unfold ct_hbr in E. assert (X : exact_mat 2 Q = true).
  { unfold exact_mat. apply forallb_forall. intros [a c] Hp. apply in_prod_iff in Hp. destruct Hp as [P1 P2]. apply in_seq in P1. apply in_seq in P2. cbn [fst snd].
    assert (rl (Q a c) = rh (Q a c)) by (apply HP; lia). unfold r_rad. destruct (Req_EM_T _ _); [reflexivity | exfalso; lra]. }
  rewrite X in E. exact (hbr_exact_on_numbers inv2 1 cs_A b inv2_exact Q r v j HQ Hr HP E Hj).
Qed.
Lemma ct_est b : estimates_enclose cs_hbr 2 cs_A b -> estimates_enclose ct_hbr 2 cs_A b.
Proof.
  intros H Q r v x HQ Hr E U. unfold ct_hbr in E. destruct (exact_mat 2 Q) eqn:X; [|exact (H Q r v x HQ Hr E U)].
  intros j Hj. destruct (hbr_hull_numbers inv2 1 Q r v inv2_exact (ct_points Q X)) with (j := j) as (L & _); auto.
  intros i Hi. destruct (Hr i Hi) as [[]]. unfold proper. lra.
Qed.
Lemma ct_mids Q : inside_mat 2 Q cs_A -> in_imat 2 2 Q (mids Q).
Proof. intros HQ i j Hi Hj. destruct (HQ i j Hi Hj) as [[]]. unfold inI, mids, r_mid. lra. Qed.
Lemma ct_det Q : inside_mat 2 Q cs_A -> mids Q 0%nat 0%nat * mids Q 1%nat 1%nat - mids Q 0%nat 1%nat * mids Q 1%nat 0%nat <> 0.
Proof. intro HQ. destruct (cs_entries Q (mids Q) HQ (ct_mids Q HQ)) as (M1 & M2 & M3 & M4). nra. Qed.
Lemma ct_calls b : calls_return ct_hbr ca_inv cs_solve 2 cs_A b.
Proof.
  intros Q r HQ Hr. pose proof (ct_det Q HQ) as D. split; [|split; [eexists; reflexivity|]].
  - unfold ct_hbr. destruct (exact_mat 2 Q) eqn:X; [|eexists; reflexivity]. unfold hbr_call.
    assert (EC : exists C, inv2 (mids Q) = Some C) by (unfold inv2; cbv zeta; destruct (Req_EM_T _ _); [contradiction | eauto]). destruct EC as (C & EC). rewrite EC.
    apply inv2_exact in EC. pose proof (cm_eye 1 Q C (ct_points Q X) EC) as Y.
    assert (EB : exists B, inv2 (r_compmat (rimm 2 C Q)) = Some B).
    { unfold inv2. cbv zeta. rewrite !Y by lia. cbn [Nat.eqb]. destruct (Req_EM_T _ _); [exfalso; lra | eauto]. }
    destruct EB as (B & EB). rewrite EB. apply inv2_exact in EB.
    destruct (hbr_value 1 Q r C B EB (pre_h 1 Q C (ct_points Q X) EC)) as (l & -> & _). eauto.
  - unfold cs_solve. cbv zeta. destruct (Req_EM_T _ _); [contradiction | eauto].
Qed.
Lemma ct_proper : proper_mat 2 2 cs_A /\ proper_vec 2 cs_b.
Proof. split; [intros i j Hi Hj; unfold cs_A; destruct (i =? j)%nat | intros i Hi]; unfold proper; cbn [cs_b rl rh]; lra. Qed.
Lemma ct_hull : coordinate_range (united 2 2 cs_A cs_b) 0 (mkr (18 / 23) (43 / 23)).
Proof.
  destruct cs_min as [L (M & v & Z & HM & Hv & Hx & _)]. destruct cs_max as [U (M' & v' & Z' & HM' & Hv' & Hx' & _)]. cbn [vec2] in L, U. split; [|split].
  - intros x Hx0. split; cbn [rl rh]; [now apply L|]. assert (N : united 2 2 cs_A (negated cs_b) (fun j => - x j)).
    { destruct Hx0 as (M0 & v0 & HM0 & Hv0 & Hx0). exists M0, (fun i => - v0 i). split; [exact HM0|]. split.
      - intros i Hi. destruct (Hv0 i Hi). unfold inI, negated. cbn [rl rh]. lra.
      - intros i Hi. unfold times. rewrite (total_ext 2 _ (fun j => - (M0 i j * x j))) by (intros; ring). rewrite total_opp. f_equal. now apply Hx0. }
    apply U in N. lra.
  - eexists. split; [exists M, v; split; [exact HM|]; split; [exact Hv | exact Hx]|]. reflexivity.
  - exists (fun j => - vec2 (- (43 / 23)) (- (18 / 23)) j). split; [|cbn [vec2 rh]; lra]. exists M', (fun i => - v' i). split; [exact HM'|]. split.
    + intros i Hi. destruct (Hv' i Hi) as [V1 V2]. unfold negated in V1, V2. cbn [rl rh] in V1, V2. unfold inI. lra.
    + intros i Hi. unfold times. rewrite (total_ext 2 _ (fun j => - (M' i j * vec2 (- (43 / 23)) (- (18 / 23)) j))) by (intros; ring). rewrite total_opp. f_equal. now apply Hx'.
Qed.

(** ** The distance to the hull *)
Theorem pps_hull : forall hbr inverse solve det hang n A b tol maxiter nu X H x1 x2, (nu < n)%nat -> proper_mat n n A -> proper_vec n b ->
  estimates_enclose hbr n A b -> estimates_enclose hbr n A (negated b) -> inverses_enclose inverse n A -> solutions_exact solve n ->
  exact_on_numbers hbr n A b -> exact_on_numbers hbr n A (negated b) ->
  generic_minimum n A b nu x1 -> generic_minimum n A (negated b) nu x2 -> 0 <= tol -> (2 ^ (n * n + n + 1) <= maxiter)%nat ->
  pps hbr inverse solve det hang n A b tol (Z.of_nat maxiter) nu = POk X -> coordinate_range (united n n A b) nu H ->
  rl H - tol <= rl X <= rl H /\ rh H <= rh X <= rh H + tol.
Proof.
  intros hbr inverse solve det hang n A b tol maxiter nu X H x1 x2 Hnu PA Pb E1 E2 Hi Hs N1 N2 G1 G2 Ht HN E (R1 & (xl & Ul & El) & (xh & Uh & Eh)).
  destruct (pps_accurate hbr inverse solve det hang n A b tol maxiter nu X Hnu PA Pb Hs N1 N2 Ht HN E) as ((y1 & Y1 & D1) & (y2 & Y2 & D2)).
  pose proof (pps_encloses hbr inverse solve det hang n A b tol (Z.of_nat maxiter) nu X x1 x2 Hnu E1 E2 Hi Hs G1 G2 E) as En.
  destruct (En xl Ul) as [L1 L2]. destruct (En xh Uh) as [H1 H2]. destruct (R1 y1 Y1) as [A1 A2]. destruct (R1 y2 Y2) as [B1 B2].
  unfold Rabs in D1, D2. destruct (Rcase_abs _), (Rcase_abs _); lra.
Qed.
