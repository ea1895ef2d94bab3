(** Longer iterations: a larger iteration limit and a smaller tolerance never
    widen what Krawczyk, HansenSengupta and Gauss_Seidel return. *)
From Coq Require Import ZArith Reals List Bool Arith Lia Lra.
From Flocq Require Import Core IEEE754.BinarySingleNaN.
From Verif Require Import Base PyNum Kernel Spec Expr XReal XArith KernelProofs ExprProofs KernelAlg KernelMore Witness Arrays Construct SpecArray ArrayProofs ArrayMore ArrayMat ConstructProofs ConstructMore ConstructUtil Solvers SpecSolvers SolversProofs GSProofs SolversRefute NewtonProofs.
Import ListNotations.
Open Scope R_scope.

Lemma num_le_lt a b c : num_le a b = true -> num_lt b c = true -> num_lt a c = true.
Proof.
  rewrite num_le_x, !num_lt_x. destruct (xval a) as [| | |x], (xval b) as [| | |y], (xval c) as [| | |w]; try discriminate; try reflexivity; auto.
  rewrite xleb_fin, !xltb_fin. lra.
Qed.
Lemma num_le_trans a b c : num_le a b = true -> num_le b c = true -> num_le a c = true.
Proof.
  rewrite !num_le_x. destruct (xval a) as [| | |x], (xval b) as [| | |y], (xval c) as [| | |w]; try discriminate; try reflexivity; auto.
  rewrite !xleb_fin. lra.
Qed.
Lemma member_not_nan X r : member X r -> isnan_itv X = false.
Proof.
  rewrite member_x. intros [A B]. unfold isnan_itv. destruct (is_nan_num (lo X)) eqn:E; [apply is_nan_num_x in E; rewrite E in A; contradiction|].
  destruct (is_nan_num (hi X)) eqn:E'; [apply is_nan_num_x in E'; rewrite E' in B; contradiction | reflexivity].
Qed.

(** ** Krawczyk and HansenSengupta *)
Section Newton.
Variables (distance : itv -> itv -> pynum) (m : rmode) (z : R) (op : itv -> itv -> M itv).

Lemma keeps_zero_part x0 X : keeps_zero x0 m z op -> (forall r, member X r -> member x0 r) -> keeps_zero X m z op.
Proof.
  intros [K KZ] S. split; [exact K|]. intros Y c Z cr (GY & MY & SY) Gc Mc MYc Sc H. apply (KZ Y c Z cr); auto. split; [exact GY|]. split; auto.
Qed.
Lemma newton_loop_shrinks x0 tol tol' : modest x0 -> keeps_zero x0 m z op -> num_le tol' tol = true ->
  forall fuel fuel' e X c Z Z' cr, (fuel <= fuel')%nat -> kept x0 z X -> good c -> member c cr -> member X cr -> (forall r, member c r -> member X r) ->
  returns (newton_loop distance op fuel tol e X c) m Z -> returns (newton_loop distance op fuel' tol' e X c) m Z' -> isnan_itv Z' = false ->
  isnan_itv Z = false /\ forall r, member Z' r -> member Z r.
Proof.
  intros Mx KZ T.
  assert (Base : forall fuel' e X c Z' cr, kept x0 z X -> good c -> member c cr -> member X cr -> (forall r, member c r -> member X r) ->
    returns (newton_loop distance op fuel' tol' e X c) m Z' -> isnan_itv Z' = false -> isnan_itv X = false /\ forall r, member Z' r -> member X r).
  { intros fuel' e X c Z' cr KX Gc Mc MXc Sc H N. assert (SX := proj2 (proj2 KX)). split.
    - exact (member_not_nan X z (proj1 (proj2 KX))).
    - refine (proj2 (proj2 (newton_loop_keeps distance X m (sub_modest x0 z X Mx KX) z op tol' (keeps_zero_part x0 X KZ SX) fuel' e X c Z' cr _ Gc Mc MXc Sc H N))).
      destruct KX as (GX & Mz & _). split; [exact GX|]. split; auto. }
  induction fuel as [|n IH]; intros fuel' e X c Z Z' cr Hf KX Gc Mc MXc Sc H H' N.
  - cbn [newton_loop] in H. apply returns_ret in H. subst Z. exact (Base fuel' e X c Z' cr KX Gc Mc MXc Sc H' N).
  - destruct fuel' as [|n']; [lia|]. cbn [newton_loop] in H. destruct (num_lt tol e) eqn:L.
    2: { apply returns_ret in H. subst Z. exact (Base (S n') e X c Z' cr KX Gc Mc MXc Sc H' N). }
    cbn [newton_loop] in H'. rewrite (num_le_lt _ _ _ T L) in H'.
    apply keeps_returns in H; [|apply (proj1 KZ)]. destruct H as (zz & Hzz & H).
    apply keeps_returns in H; [|apply keeps_intersect]. destruct H as (Y & HY & H).
    apply keeps_returns in H'; [|apply (proj1 KZ)]. destruct H' as (zz' & Hzz' & H'). assert (zz' = zz) by (unfold returns in *; congruence). subst zz'.
    apply keeps_returns in H'; [|apply keeps_intersect]. destruct H' as (Y' & HY' & H'). assert (Y' = Y) by (unfold returns in *; congruence). subst Y'.
    destruct (isnan_itv Y) eqn:NY; [apply returns_ret in H'; subst Z'; congruence|].
    apply keeps_returns in H; [|apply keeps_mid_itv]. destruct H as (c1 & Hc1 & H).
    apply keeps_returns in H'; [|apply keeps_mid_itv]. destruct H' as (c2 & Hc2 & H'). assert (c2 = c1) by (unfold returns in *; congruence). subst c2.
    destruct KX as (GX & Mz & SX). assert (KX : kept x0 z X) by (split; auto).
    assert (E := proj2 KZ X c zz cr KX Gc Mc MXc (fun r Hr => SX r (Sc r Hr)) Hzz).
    destruct (intersect_keep X zz m Y z GX Mz E HY NY) as (GY & MY & SY).
    assert (KY : kept x0 z Y) by (split; [exact GY|split; [exact MY|auto]]).
    assert (MoY := sub_modest x0 z Y Mx KY).
    destruct (mid_itv_spec Y m c1 MoY Hc1) as (Gc' & r & Mr & MYr).
    refine (IH n' _ Y c1 Z Z' r ltac:(lia) KY Gc' Mr MYr _ H H' N). intros t Ht.
    assert (t = r) by exact (mid_itv_point Y m c1 t r MoY Hc1 Ht Mr). now subst t.
Qed.
End Newton.

Lemma newton_shrinks func distance x0 f op fuel fuel' tol tol' m Z Z' z : modest x0 -> encloses_on x0 func f -> keeps_zero x0 m z op ->
  member x0 z -> (fuel <= fuel')%nat -> num_le tol' tol = true ->
  returns (newton func distance op fuel tol x0) m Z -> returns (newton func distance op fuel' tol' x0) m Z' -> isnan_itv Z' = false ->
  isnan_itv Z = false /\ forall r, member Z' r -> member Z r.
Proof.
  intros Mx Hf KZ Mz Hn T H H' N. unfold newton in H, H'.
  apply keeps_returns in H; [|intro; apply Hf]. destruct H as (F & HF & H).
  apply keeps_returns in H'; [|intro; apply Hf]. destruct H' as (F' & HF' & H'). assert (F' = F) by (unfold returns in *; congruence). subst F'.
  destruct (py_contains F (ONum (PInt 0))); [|discriminate].
  apply keeps_returns in H; [|apply keeps_mid_itv]. destruct H as (c & Hc & H).
  apply keeps_returns in H'; [|apply keeps_mid_itv]. destruct H' as (c' & Hc' & H'). assert (c' = c) by (unfold returns in *; congruence). subst c'.
  destruct (mid_itv_spec x0 m c Mx Hc) as (Gc & cr & Mc & Mxc).
  refine (newton_loop_shrinks distance m z op x0 tol tol' Mx KZ T fuel fuel' _ x0 c Z Z' cr Hn (modest_kept x0 z Mx Mz) Gc Mc Mxc _ H H' N).
  intros t Ht. assert (t = cr) by exact (mid_itv_point x0 m c t cr Mx Hc Ht Mc). now subst t.
Qed.
Theorem krawczyk_shrinks func J distance x0 f f' maxiter maxiter' tol tol' m Z Z' z : modest x0 -> encloses_on x0 func f -> encloses_on x0 J f' ->
  (forall r, member x0 r -> derivable_pt_lim f r (f' r)) ->
  (forall X L la, part x0 X -> returns (J X) m L -> returns (slope_recip L) m la -> finite_num la) ->
  member x0 z -> f z = 0 -> (maxiter <= maxiter')%Z -> num_le tol' tol = true ->
  returns (krawczyk func J distance x0 maxiter tol) m Z -> returns (krawczyk func J distance x0 maxiter' tol') m Z' -> isnan_itv Z' = false ->
  isnan_itv Z = false /\ forall r, member Z' r -> member Z r.
Proof.
  intros Mx Hf HJ Hd Hla Mz Fz Hi T H H' N. assert (Hn : (Z.to_nat (maxiter + 1) <= Z.to_nat (maxiter' + 1))%nat) by lia.
  exact (newton_shrinks func distance x0 f _ _ _ tol tol' m Z Z' z Mx Hf (kraw_keeps func J x0 f f' m Hf HJ Hd Hla z Fz) Mz Hn T H H' N).
Qed.
Theorem hansen_sengupta_shrinks func J distance x0 f f' maxiter maxiter' tol tol' m Z Z' z : modest x0 -> encloses_on x0 func f -> encloses_on x0 J f' ->
  (forall r, member x0 r -> derivable_pt_lim f r (f' r)) ->
  (forall X L la, part x0 X -> returns (J X) m L -> returns (slope_recip L) m la -> finite_num la) ->
  member x0 z -> f z = 0 -> (maxiter <= maxiter')%Z -> num_le tol' tol = true ->
  returns (hansen_sengupta func J distance x0 maxiter tol) m Z -> returns (hansen_sengupta func J distance x0 maxiter' tol') m Z' -> isnan_itv Z' = false ->
  isnan_itv Z = false /\ forall r, member Z' r -> member Z r.
Proof.
  intros Mx Hf HJ Hd Hla Mz Fz Hi T H H' N. assert (Hn : (Z.to_nat maxiter <= Z.to_nat maxiter')%nat) by lia.
  exact (newton_shrinks func distance x0 f _ _ _ tol tol' m Z Z' z Mx Hf (hs_keeps func J x0 f f' m Hf HJ Hd Hla z Fz) Mz Hn T H H' N).
Qed.

(** ** Gauss_Seidel *)
Section GS.
Variables (dist : nat -> ivec -> ivec -> pynum) (n : nat) (A : imat) (b : ivec) (m : rmode) (Mr : nat -> nat -> R) (v x : nat -> R).
Hypothesis HA : forall i l, (i < n)%nat -> (l < n)%nat -> enc (A i l) (Mr i l).
Hypothesis Hb : forall i, (i < n)%nat -> enc (b i) (v i).
Hypothesis He : forall i, (i < n)%nat -> sumR (map (fun l => Mr i l * x l) (seq 0 n)) = v i.

Lemma gs_loop_shrinks tol tol' : num_le tol' tol = true -> forall fuel fuel' d X P Z Z', (fuel <= fuel')%nat ->
  (forall i, (i < n)%nat -> good (P i) /\ member (P i) (x i)) ->
  ((forall i, (i < n)%nat -> X i = P i) \/ (num_le tol d = true /\ fuel <> 0%nat)) ->
  returns (gs_loop dist n fuel tol d A b X P) m Z -> returns (gs_loop dist n fuel' tol' d A b X P) m Z' ->
  forall i, (i < n)%nat -> forall r, member (Z' i) r -> member (Z i) r.
Proof.
  intro T.
  assert (Base : forall fuel' d X P Z', (forall i, (i < n)%nat -> good (P i) /\ member (P i) (x i)) -> (forall i, (i < n)%nat -> X i = P i) ->
    returns (gs_loop dist n fuel' tol' d A b X P) m Z' -> forall i, (i < n)%nat -> forall r, member (Z' i) r -> member (X i) r).
  { intros fuel' d X P Z' HP HX H' i Hi. rewrite (HX i Hi).
    assert (K : forall i, (i < n)%nat -> kept (P i) (x i) (P i)) by (intros j Hj; destruct (HP j Hj); split; auto).
    refine (proj2 (proj2 (gs_loop_keep dist n tol' A b P m Mr v x HA Hb He fuel' d X P Z' K (or_introl _) H' i Hi))). intros j Hj. rewrite (HX j Hj). auto. }
  induction fuel as [|f IH]; intros fuel' d X P Z Z' Hf HP HX H H'.
  - assert (Z = X) by (cbn [gs_loop] in H; destruct (num_le tol d); apply returns_ret in H; congruence). subst Z.
    destruct HX as [HX|[_ Q]]; [|congruence]. exact (Base fuel' d X P Z' HP HX H').
  - destruct fuel' as [|f']; [lia|]. cbn [gs_loop] in H. destruct (num_le tol d) eqn:L.
    2: { apply returns_ret in H. subst Z. destruct HX as [HX|[Q _]]; [|congruence]. exact (Base (S f') d X P Z' HP HX H'). }
    cbn [gs_loop] in H'. rewrite (num_le_trans _ _ _ T L) in H'.
    apply keeps_returns in H; [|apply keeps_gs_sweep]. destruct H as (X1 & HX1 & H).
    apply keeps_returns in H'; [|apply keeps_gs_sweep]. destruct H' as (X2 & HX2 & H'). assert (X2 = X1) by (unfold returns in *; congruence). subst X2.
    assert (K := gs_sweep_keep n A b P P m Mr v x HA Hb He (fun j Hj => conj (proj1 (HP j Hj)) (conj (proj2 (HP j Hj)) (fun r Hr => Hr))) n 0 X X1 ltac:(lia) ltac:(intros; lia) HX1).
    refine (IH f' _ X1 X1 Z Z' ltac:(lia) _ (or_introl (fun i _ => eq_refl)) H H'). intros j Hj. destruct (K j Hj) as (G & Mj & _). auto.
Qed.
End GS.
Theorem gauss_seidel_shrinks dist n A b x0 C hm tol tol' maxiter maxiter' m Z Z' : (0 < n)%nat ->
  (forall i l, (i < n)%nat -> (l < n)%nat -> good (A i l)) -> (forall i, (i < n)%nat -> good (b i)) ->
  (forall i, (i < n)%nat -> good (x0 i)) -> (forall i l, (i < n)%nat -> (l < n)%nat -> num_ok (C i l)) ->
  num_le tol' tol = true -> (0 <= maxiter <= maxiter')%Z ->
  returns (gauss_seidel dist n A b (Some x0) C hm tol maxiter) m Z -> returns (gauss_seidel dist n A b (Some x0) C hm tol' maxiter') m Z' ->
  (exists (Mr : nat -> nat -> R) v x, (forall i l, (i < n)%nat -> (l < n)%nat -> member (A i l) (Mr i l)) /\ (forall i, (i < n)%nat -> member (b i) (v i)) /\
    (forall i, (i < n)%nat -> Rsum n (fun l => Mr i l * x l) = v i) /\ (forall i, (i < n)%nat -> member (x0 i) (x i))) ->
  forall i, (i < n)%nat -> forall r, member (Z' i) r -> member (Z i) r.
Proof.
  intros Hn GA Gb G0 HC T Hmx H H' (Mr & v & x & MA & Mb & He & Mx).
  unfold gauss_seidel in H, H'.
  apply keeps_returns in H; [|apply keeps_tab2; intros; apply keeps_mat_entry]. destruct H as (A' & HA' & H).
  apply keeps_returns in H; [|apply keeps_tab; intros; apply keeps_mat_entry]. destruct H as (b' & Hb' & H).
  apply keeps_returns in H'; [|apply keeps_tab2; intros; apply keeps_mat_entry]. destruct H' as (A2 & HA2 & H'). assert (A2 = A') by (unfold returns in *; congruence). subst A2.
  apply keeps_returns in H'; [|apply keeps_tab; intros; apply keeps_mat_entry]. destruct H' as (b2 & Hb2 & H'). assert (b2 = b') by (unfold returns in *; congruence). subst b2.
  destruct hm; [|discriminate]. cbv zeta in H, H'.
  destruct (tab2_spec _ _ _ _ _ _ (fun i l => keeps_mat_entry _ _ _) HA') as [_ EA].
  destruct (tab_spec _ _ _ _ _ _ (fun i => keeps_mat_entry _ _ _) Hb') as [_ EB].
  refine (gs_loop_shrinks dist n A' b' m (fun i l => Rsum n (fun k => num_val (C i k) * Mr k l)) (fun i => Rsum n (fun k => num_val (C i k) * v k)) x _ _ _ tol tol' T _ _ _ _ _ Z Z' _ _ _ H H').
  - intros i l Hi Hl. refine (mat_entry_enc n (C i) (fun k => A k l) m _ Hn _ _ (EA i l ltac:(lia) ltac:(lia)) (fun k => Mr k l) _); intros k Hk; auto.
  - intros i Hi. refine (mat_entry_enc n (C i) b m _ Hn _ _ (EB i ltac:(lia)) v _); intros k Hk; auto.
  - intros i Hi. rewrite (Rsum_ext n (fun k => num_val (C i k) * v k) (fun k => Rsum n (fun l => num_val (C i k) * Mr k l * x l))).
    + rewrite Rsum_swap.
      rewrite <- (Rsum_sumR n (fun l => Rsum n (fun k => num_val (C i k) * Mr k l) * x l)).
      apply Rsum_ext. intros l Hl. rewrite Rmult_comm, Rsum_scal. apply Rsum_ext. intros. ring.
    + intros k Hk. rewrite <- (He k Hk), Rsum_scal. apply Rsum_ext. intros. ring.
  - lia.
  - auto.
  - right. split; [|lia]. rewrite num_le_x in T |- *. destruct (xval tol'), (xval tol); try reflexivity; discriminate.
Qed.
