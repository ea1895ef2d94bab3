(** PPS: the whole call, the exceptions, a system for which the answer is wrong,
    and a system that meets the hypotheses. *)
From Coq Require Import Reals List Arith Bool ZArith Lia Lra Psatz.
From Verif Require Import Exact SpecExact ExactProofs Estim SpecEstim EstimProofs Pss Pps SpecPps PpsProofs PpsLoop.
Import ListNotations.
Open Scope R_scope.

Theorem pps_encloses : forall hbr inverse solve det hang n A b tol maxiter nu X x1 x2, (nu < n)%nat ->
  estimates_enclose hbr n A b -> estimates_enclose hbr n A (negated b) -> inverses_enclose inverse n A -> solutions_exact solve n ->
  generic_minimum n A b nu x1 -> generic_minimum n A (negated b) nu x2 ->
  pps hbr inverse solve det hang n A b tol maxiter nu = POk X -> forall x, united n n A b x -> inI X (x nu).
Proof.
  intros hbr inverse solve det hang n A b tol maxiter nu X x1 x2 Hnu E1 E2 Hi Hs (m1 & M1 & v1 & Z1 & A1 & B1 & S1 & I1 & N1 & N2)
    (m2 & M2 & v2 & Z2 & A2 & B2 & S2 & I2 & O1 & O2) E x Hx.
  unfold pps in E. destruct (Req_EM_T _ _); [discriminate|]. apply pbind_ok in E. destruct E as (iA & EA & E). apply por_ok in EA.
  apply pbind_ok in E. destruct E as (lo & L1 & E). apply pbind_ok in E. destruct E as (hi & L2 & E). inversion E; subst X; clear E.
  assert (lo <= x1 nu) by (eapply (algo_below hbr inverse solve n nu tol hang A b x1 v1 M1 Z1); eauto).
  assert (hi <= x2 nu) by (eapply (algo_below hbr inverse solve n nu tol hang A (negated b) x2 v2 M2 Z2); eauto).
  pose proof (m1 x Hx). assert (x2 nu <= - x nu).
  { apply (m2 (fun j => - x j)). destruct Hx as (M & v & HM & Hv & Hxx). exists M, (fun i => - v i). split; [exact HM|]. split.
    - intros i Hii. destruct (Hv i Hii). unfold negated; split; cbn [rl rh]; lra.
    - intros i Hii. unfold times. rewrite (total_ext n _ (fun j => - (M i j * x j))) by (intros; ring). rewrite total_opp. f_equal. now apply Hxx. }
  split; cbn [rl rh]; lra.
Qed.

(** ** [rt] is never read *)
Lemma split_lk hbr inverse solve n nu hang ind fl Q r Y0 g Wch sch omega L :
  match split hbr inverse solve n nu hang ind fl Q r Y0 g Wch sch omega None (L, []) with
  | POk (LL, _) => snd LL = [] | PNameError => False | _ => True end.
Proof.
  unfold split. destruct (hbr Q r); cbn [por pbind]; [|exact I]. destruct (solve _ _); cbn [por pbind]; [|exact I]. cbv zeta.
  destruct (lt_inf _ omega && ind); [destruct (propagate _ _ _ _ _ _); cbn [pbind]; [|exact I]|cbn [pbind]];
  destruct (lt_inf (rl (i nu)) omega); try exact I; try reflexivity; (destruct fl; [destruct (inverse Q); cbn [por pbind]; [|exact I]|cbn [pbind]]); reflexivity.
Qed.
Lemma descend_lk hbr inverse solve n nu hang p omega L :
  match descend hbr inverse solve n nu hang p omega None (L, []) with
  | POk (LL, _) => snd LL = [] | PNameError => False | _ => True end.
Proof.
  unfold descend. cbv zeta. destruct (mat_arg _ _) as [im jm]. cbn [fst snd].
  assert (ONE : forall ind fl Q r Y0 g Wch sch L,
    match pbind (split hbr inverse solve n nu hang ind fl Q r Y0 g Wch sch omega None (L, [])) (fun r1 => POk (fst r1, vnu nu (snd r1))) with
    | POk (LL, _) => snd LL = [] | PNameError => False | _ => True end).
  { intros ind fl Q r Y0 g Wch sch L0. pose proof (split_lk hbr inverse solve n nu hang ind fl Q r Y0 g Wch sch omega L0) as H.
    destruct (split _ _ _ _ _ _ _ _ _ _ _ _ _ _ _ _ _) as [[LL Mn]| | | |]; cbn [pbind fst snd]; auto. }
  assert (TWO : forall ind fl Q r Y0 g Wch sch ind2 fl2 Q2 r2 Y2 g2 Wch2 sch2 L,
    match pbind (split hbr inverse solve n nu hang ind fl Q r Y0 g Wch sch omega None (L, [])) (fun r1 =>
          pbind (split hbr inverse solve n nu hang ind2 fl2 Q2 r2 Y2 g2 Wch2 sch2 omega None (fst r1)) (fun r2 => POk (fst r2, Rmin (vnu nu (snd r1)) (vnu nu (snd r2))))) with
    | POk (LL, _) => snd LL = [] | PNameError => False | _ => True end).
  { intros ind fl Q r Y0 g Wch sch ind2 fl2 Q2 r2 Y2 g2 Wch2 sch2 L0. pose proof (split_lk hbr inverse solve n nu hang ind fl Q r Y0 g Wch sch omega L0) as H.
    destruct (split _ _ _ _ _ _ ind fl _ _ _ _ _ _ _ _ _) as [[[L1 Lk1] Mn]| | | |]; cbn [pbind fst snd]; auto. cbn [snd] in H. subst Lk1.
    pose proof (split_lk hbr inverse solve n nu hang ind2 fl2 Q2 r2 Y2 g2 Wch2 sch2 omega L1) as H2.
    destruct (split _ _ _ _ _ _ _ _ _ _ _ _ _ _ _ _ _) as [[LL Mn2]| | | |]; cbn [pbind fst snd]; auto. }
  destruct (Rlt_dec _ _); [destruct (_ =? 0)%Z; [apply TWO|]; destruct (_ =? 1)%Z; apply ONE | destruct (_ =? 0)%Z; [apply TWO|]; destruct (_ =? 1)%Z; apply ONE].
Qed.
Lemma result_not_name oc : result oc <> PNameError.
Proof. destruct oc; discriminate. Qed.
Lemma loop_no_name hbr inverse solve n nu tol hang : forall fuel L omega oc,
  pps_loop hbr inverse solve n nu tol hang fuel (L, []) omega None oc <> PNameError.
Proof.
  induction fuel as [|f IH]; intros L omega oc; cbn [pps_loop fst snd].
  - destruct L; [discriminate|]. destruct (exact_mat _ _); [apply result_not_name|]. destruct (far _ _ _); apply result_not_name.
  - destruct L as [|p rest]; [discriminate|]. destruct (exact_mat _ _); [apply result_not_name|]. destruct (far _ _ _); [|apply result_not_name].
    pose proof (descend_lk hbr inverse solve n nu hang p omega rest) as H.
    destruct (descend _ _ _ _ _ _ _ _ _ _) as [[[L' Lk'] mu]| | | |]; cbn [pbind fst snd]; try discriminate; [|contradiction].
    cbn [snd] in H. subst Lk'. cbn [filter]. destruct (tl L') as [|a r']; [apply result_not_name|].
    destruct (filter _ (a :: r')) as [|p' r2]; [apply result_not_name | apply IH].
Qed.
Theorem pps_no_name_error : forall hbr inverse solve det hang n A b tol maxiter nu,
  pps hbr inverse solve det hang n A b tol maxiter nu <> PNameError.
Proof.
  intros. unfold pps. destruct (Req_EM_T _ _); [discriminate|]. destruct (inverse A) as [iA|]; cbn [por pbind]; [|discriminate].
  assert (forall c, pps_algo hbr inverse solve n nu tol hang A c iA maxiter <> PNameError) as H.
  { intro c. unfold pps_algo. destruct (hbr A c); cbn [por pbind]; [apply loop_no_name | discriminate]. }
  pose proof (H b) as H1. destruct (pps_algo _ _ _ _ _ _ _ A b _ _); cbn [pbind]; try discriminate; [|contradiction].
  pose proof (H (fun i => r_neg (b i))) as H2. destruct (pps_algo _ _ _ _ _ _ _ A _ _ _); cbn [pbind]; try discriminate; contradiction.
Qed.
(** ** A matrix without uncertainty *)
Theorem pps_point_matrix : forall hbr inverse solve det hang n A b tol maxiter nu iA vx, (forall i j, (i < n)%nat -> (j < n)%nat -> rl (A i j) = rh (A i j)) ->
  det (mids A) <> 0 -> inverse A = Some iA -> hbr A b = Some vx -> pps hbr inverse solve det hang n A b tol maxiter nu = PUnbound.
Proof.
  intros hbr inverse solve det hang n A b tol maxiter nu iA vx HA HD HI HH. unfold pps. destruct (Req_EM_T _ _); [contradiction|]. rewrite HI. cbn [por pbind].
  unfold pps_algo at 1. rewrite HH. cbn [por pbind].
  assert (E : exact_mat n A = true).
  { unfold exact_mat. apply forallb_forall. intros [i j] H. apply in_prod_iff in H. destruct H as [H1 H2]. apply in_seq in H1. apply in_seq in H2. cbn [fst snd].
    unfold r_rad. rewrite HA by lia. destruct (Req_EM_T _ _); [reflexivity | exfalso; lra]. }
  destruct (Z.to_nat (maxiter + 1)); cbn [pps_loop fst snd pQ]; rewrite E; reflexivity.
Qed.

(** ** A block-triangular system with a wrong answer *)
Definition dg_A : imat := fun i j => match i, j with 0%nat, 0%nat => mkr 1 2 | S _, S _ => mkr 1 1 | _, _ => mkr 0 0 end.
Definition dg_b (c : R) : ivec := fun i => match i with 0%nat => mkr (-1) 1 | _ => mkr c c end.
(** The exact hull of a diagonal system with positive diagonal, its inverse, its solution *)
Definition quo (a d : rit) : rit := mkr (Rmin (rl a / rl d) (rl a / rh d)) (Rmax (rh a / rl d) (rh a / rh d)).
Definition dg_hull (Q : imat) (r : ivec) : option ivec := Some (fun i => quo (r i) (Q i i)).
Definition dg_inv (Q : imat) : option imat := Some (fun i j => if (i =? j)%nat then mkr (/ rh (Q i i)) (/ rl (Q i i)) else mkr 0 0).
Definition dg_solve (M : mat) (v : vec) : option vec :=
  if Req_EM_T (M 0%nat 1%nat) 0 then if Req_EM_T (M 1%nat 0%nat) 0 then if Req_EM_T (M 0%nat 0%nat) 0 then None else if Req_EM_T (M 1%nat 1%nat) 0 then None
  else Some (fun i => v i / M i i) else None else None.

Lemma below2 i : (i < 2)%nat -> i = 0%nat \/ i = 1%nat. Proof. lia. Qed.
Lemma dg_inside Q : inside_mat 2 Q dg_A -> Q 0%nat 1%nat = mkr 0 0 /\ Q 1%nat 0%nat = mkr 0 0 /\ Q 1%nat 1%nat = mkr 1 1 /\ 1 <= rl (Q 0%nat 0%nat) <= rh (Q 0%nat 0%nat) /\ rh (Q 0%nat 0%nat) <= 2.
Proof.
  intro H. pose proof (H 0%nat 0%nat ltac:(lia) ltac:(lia)) as H1. pose proof (H 0%nat 1%nat ltac:(lia) ltac:(lia)) as H2. pose proof (H 1%nat 0%nat ltac:(lia) ltac:(lia)) as H3. pose proof (H 1%nat 1%nat ltac:(lia) ltac:(lia)) as H4.
  cbn [dg_A rl rh] in *. destruct (Q 0%nat 1%nat) as [a1 a2]; destruct (Q 1%nat 0%nat) as [a3 a4]; destruct (Q 1%nat 1%nat) as [a5 a6]; cbn [rl rh] in *. repeat split; try f_equal; lra.
Qed.
Lemma quo_in a d p q y : 0 < rl d -> inI a p -> inI d q -> q * y = p -> inI (quo a d) y.
Proof.
  intros D [A1 A2] [D1 D2] E. assert (Hq : 0 < q) by lra. assert (y = p / q) as -> by (rewrite <- E; field; lra).
  unfold quo; split; cbn [rl rh].
  - assert (rl a / q <= p / q) by (apply Rmult_le_compat_r; [left; now apply Rinv_0_lt_compat | lra]).
    destruct (Rle_lt_dec 0 (rl a)) as [P|P].
    + eapply Rle_trans; [apply Rmin_r|]. eapply Rle_trans; [|exact H]. apply Rmult_le_compat_l; [exact P|]. apply Rinv_le_contravar; lra.
    + eapply Rle_trans; [apply Rmin_l|]. eapply Rle_trans; [|exact H]. assert (/ q <= / rl d) by (apply Rinv_le_contravar; lra). unfold Rdiv. nra.
  - assert (p / q <= rh a / q) by (apply Rmult_le_compat_r; [left; now apply Rinv_0_lt_compat | lra]).
    destruct (Rle_lt_dec 0 (rh a)) as [P|P].
    + eapply Rle_trans; [exact H|]. eapply Rle_trans; [|apply Rmax_l]. apply Rmult_le_compat_l; [exact P|]. apply Rinv_le_contravar; lra.
    + eapply Rle_trans; [exact H|]. eapply Rle_trans; [|apply Rmax_r]. assert (/ rh d <= / q) by (apply Rinv_le_contravar; lra). unfold Rdiv. nra.
Qed.
Lemma dg_estimates b : estimates_enclose dg_hull 2 dg_A b.
Proof.
  intros Q r w x HQ Hr E (M & v & HM & Hv & Hx) i Hi. inversion E; subst w; clear E. destruct (dg_inside Q HQ) as (E1 & E2 & E3 & E4 & E5).
  pose proof (Hx i Hi) as Xi. unfold times in Xi. cbn [total] in Xi.
  destruct (below2 i Hi) as [-> | ->].
  - apply (quo_in _ _ (v 0%nat) (M 0%nat 0%nat)); [lra | apply Hv; lia | apply HM; lia|].
    destruct (HM 0%nat 1%nat ltac:(lia) ltac:(lia)) as [G1 G2]. rewrite E1 in G1, G2. cbn [rl rh] in *. assert (M 0%nat 1%nat = 0) as G by lra. rewrite G in Xi. lra.
  - apply (quo_in _ _ (v 1%nat) (M 1%nat 1%nat)); [rewrite E3; cbn [rl]; lra | apply Hv; lia | apply HM; lia|].
    destruct (HM 1%nat 0%nat ltac:(lia) ltac:(lia)) as [G1 G2]. rewrite E2 in G1, G2. cbn [rl rh] in *. assert (M 1%nat 0%nat = 0) as G by lra. rewrite G in Xi. lra.
Qed.
Lemma dg_inverses : inverses_enclose dg_inv 2 dg_A.
Proof.
  intros Q Y M Z HQ E HM HZ i j Hi Hj. inversion E; subst Y; clear E. destruct (dg_inside Q HQ) as (E1 & E2 & E3 & E4 & E5).
  destruct (HM 0%nat 1%nat ltac:(lia) ltac:(lia)) as [G1 G2]. rewrite E1 in G1, G2. cbn [rl rh] in *.
  destruct (HM 1%nat 0%nat ltac:(lia) ltac:(lia)) as [G3 G4]. rewrite E2 in G3, G4. cbn [rl rh] in *.
  destruct (HM 1%nat 1%nat ltac:(lia) ltac:(lia)) as [G5 G6]. rewrite E3 in G5, G6. cbn [rl rh] in *.
  destruct (HM 0%nat 0%nat ltac:(lia) ltac:(lia)) as [G7 G8].
  assert (M 0%nat 1%nat = 0) as F1 by lra. assert (M 1%nat 0%nat = 0) as F2 by lra. assert (M 1%nat 1%nat = 1) as F3 by lra.
  destruct (HZ i j Hi Hj) as [K _]. cbn [total] in K.
  destruct (below2 i Hi) as [-> | ->]; destruct (below2 j Hj) as [-> | ->]; cbn [Nat.eqb] in *; rewrite ?F1, ?F2, ?F3 in K; try rewrite E3; split; cbn [rl rh]; try lra.
  - assert (Z 0%nat 0%nat = / M 0%nat 0%nat) as -> by (apply (Rmult_eq_reg_l (M 0%nat 0%nat)); [rewrite Rinv_r; lra | lra]). apply Rinv_le_contravar; lra.
  - assert (Z 0%nat 0%nat = / M 0%nat 0%nat) as -> by (apply (Rmult_eq_reg_l (M 0%nat 0%nat)); [rewrite Rinv_r; lra | lra]). apply Rinv_le_contravar; lra.
  - assert (M 0%nat 0%nat * Z 0%nat 1%nat = 0) as K' by lra. apply Rmult_integral in K'. destruct K'; lra.
  - assert (M 0%nat 0%nat * Z 0%nat 1%nat = 0) as K' by lra. apply Rmult_integral in K'. destruct K'; lra.
Qed.
Lemma dg_solutions : solutions_exact dg_solve 2.
Proof.
  intros M v x E i Hi. unfold dg_solve in E. repeat destruct (Req_EM_T _ _); try discriminate. inversion E; subst x. unfold times; cbn [total].
  destruct (below2 i Hi) as [-> | ->]; rewrite ?e, ?e0; field; auto.
Qed.

Lemma ge0_t x : 0 <= rl x -> 0 <= rh x -> ge0 x = true.
Proof. unfold ge0. intros. destruct (Rle_dec _ _); [|contradiction]. destruct (Rle_dec _ _); [reflexivity | contradiction]. Qed.
Lemma ge0_f x : rl x < 0 -> ge0 x = false.
Proof. unfold ge0. intros. destruct (Rle_dec _ _); [exfalso; lra | reflexivity]. Qed.
Lemma le0_t x : rl x <= 0 -> rh x <= 0 -> le0 x = true.
Proof. unfold le0. intros. destruct (Rle_dec _ _); [|contradiction]. destruct (Rle_dec _ _); [reflexivity | contradiction]. Qed.
Lemma le0_f x : 0 < rh x -> le0 x = false.
Proof. unfold le0. intros. destruct (Rle_dec _ _); [|reflexivity]. destruct (Rle_dec _ _); [exfalso; lra | reflexivity]. Qed.

Section Run.
Variables (c : R).
Hypothesis Hc : c = 1 \/ c = -1.
Definition dg_start : pitem := mkp (rl (quo (mkr (-1) 1) (mkr 1 2))) dg_A (dg_b c)
  (fun i j => if (i =? j)%nat then mkr (/ rh (dg_A i i)) (/ rl (dg_A i i)) else mkr 0 0)
  (fun i => quo (dg_b c i) (dg_A i i)) (fun _ _ => 0%Z) (fun _ => 0%Z) (fun _ => 0%Z).
Definition dg_q : pitem := monotony 0%nat dg_start.
Lemma quo1 : quo (mkr (-1) 1) (mkr 1 2) = mkr (-1) 1.
Proof. unfold quo; cbn [rl rh]. rewrite Rmin_left, Rmax_left by lra. f_equal; lra. Qed.
Lemma quo2 : quo (mkr c c) (mkr 1 1) = mkr c c.
Proof. unfold quo; cbn [rl rh]. rewrite Rmin_left, Rmax_left by lra. f_equal; lra. Qed.
Ltac rmm := unfold Rmin, Rmax; repeat (destruct (Rle_dec _ _)).
Lemma d00 : deriv 0%nat (pY dg_start) (px dg_start) 0%nat 0%nat = mkr (-1) 1.
Proof.
  unfold deriv, r_neg. cbn [pY px dg_start Nat.eqb dg_A dg_b rl rh]. rewrite quo1. unfold r_mul; cbn [rl rh]. f_equal; rmm; lra.
Qed.
Lemma d01 : deriv 0%nat (pY dg_start) (px dg_start) 0%nat 1%nat = if Rlt_dec 0 c then mkr (-1) (- / 2) else mkr (/ 2) 1.
Proof.
  unfold deriv, r_neg. cbn [pY px dg_start Nat.eqb dg_A dg_b rl rh]. rewrite quo2. unfold r_mul; cbn [rl rh].
  destruct Hc as [-> | ->]; destruct (Rlt_dec 0 _); try (exfalso; lra); f_equal; rmm; lra.
Qed.
Lemma d1x j : deriv 0%nat (pY dg_start) (px dg_start) 1%nat j = mkr 0 0.
Proof. unfold deriv, r_neg. cbn [pY px dg_start Nat.eqb]. unfold r_mul; cbn [rl rh]. rewrite !Rmult_0_l. f_equal; rmm; lra. Qed.
Lemma W00 : pW dg_q 0%nat 0%nat = 0%Z.
Proof. unfold dg_q. cbn [monotony pW]. rewrite d00. unfold mono_sign. rewrite ge0_f, le0_f by (cbn [rl rh]; lra). reflexivity. Qed.
Lemma W01 : pW dg_q 0%nat 1%nat = if Rlt_dec 0 c then (-1)%Z else 1%Z.
Proof.
  unfold dg_q. cbn [monotony pW]. rewrite d01. unfold mono_sign. destruct (Rlt_dec 0 c).
  - rewrite ge0_f, le0_t by (cbn [rl rh]; lra). reflexivity.
  - rewrite ge0_t, le0_f by (cbn [rl rh]; lra). reflexivity.
Qed.
Lemma W1x j : pW dg_q 1%nat j = (-1)%Z.
Proof. unfold dg_q. cbn [monotony pW]. rewrite d1x. unfold mono_sign. rewrite ge0_t, le0_t by (cbn [rl rh]; lra). reflexivity. Qed.
Lemma Q00 : pQ dg_q 0%nat 0%nat = mkr 1 2.
Proof. unfold dg_q. cbn [monotony pQ]. rewrite d00. unfold mono_entry. rewrite ge0_f, le0_f by (cbn [rl rh]; lra). reflexivity. Qed.
Lemma mono_point d a : mono_entry d (mkr a a) = mkr a a.
Proof. unfold mono_entry. destruct (ge0 d); destruct (le0 d); reflexivity. Qed.
Lemma Q01 : pQ dg_q 0%nat 1%nat = mkr 0 0. Proof. unfold dg_q. cbn [monotony pQ]. apply mono_point. Qed.
Lemma Q10 : pQ dg_q 1%nat 0%nat = mkr 0 0. Proof. unfold dg_q. cbn [monotony pQ]. apply mono_point. Qed.
Lemma Q11 : pQ dg_q 1%nat 1%nat = mkr 1 1. Proof. unfold dg_q. cbn [monotony pQ]. apply mono_point. Qed.
Lemma r0 : pr dg_q 0%nat = mkr (-1) (-1).
Proof.
  unfold dg_q. cbn [monotony pr]. unfold mono_entry. cbn [pY dg_start Nat.eqb dg_A rl rh]. rewrite ge0_t, le0_f by (cbn [rl rh]; lra). reflexivity.
Qed.
Lemma r1 : pr dg_q 1%nat = mkr c c. Proof. unfold dg_q. cbn [monotony pr]. apply mono_point. Qed.
Lemma ms00 : mat_size 0%nat dg_q 0%nat 0%nat = 1.
Proof. unfold mat_size. rewrite Q00. change (deriv 0%nat (pY dg_q) (px dg_q) 0%nat 0%nat) with (deriv 0%nat (pY dg_start) (px dg_start) 0%nat 0%nat). rewrite d00. unfold wid, r_mag; cbn [rl rh]. rewrite Rabs_R1, (Rabs_left1 (-1)) by lra. rmm; lra. Qed.
Lemma ms_pt i j a : pQ dg_q i j = mkr a a -> mat_size 0%nat dg_q i j = 0.
Proof. intro E. unfold mat_size. rewrite E. unfold wid; cbn [rl rh]. ring. Qed.
Lemma vs_pt i a : pr dg_q i = mkr a a -> vec_size 0%nat dg_q i = 0.
Proof. intro E. unfold vec_size. rewrite E. unfold wid; cbn [rl rh]. ring. Qed.
Lemma marg : mat_arg 2%nat (mat_size 0%nat dg_q) = (0%nat, 0%nat).
Proof.
  unfold mat_arg. cbv zeta. assert (argmax (2 * 2 - 1)%nat (fun k => mat_size 0%nat dg_q (k / 2)%nat (k mod 2)%nat) = 0%nat) as E; [|rewrite E; reflexivity].
  change (2 * 2 - 1)%nat with 3%nat. cbn [argmax].
  change (1 / 2)%nat with 0%nat. change (1 mod 2)%nat with 1%nat. change (0 / 2)%nat with 0%nat. change (0 mod 2)%nat with 0%nat.
  rewrite ms00, (ms_pt 0%nat 1%nat 0 Q01). destruct (Rlt_dec 1 0) as [|_]; [exfalso; lra|].
  change (2 / 2)%nat with 1%nat. change (2 mod 2)%nat with 0%nat. change (0 / 2)%nat with 0%nat. change (0 mod 2)%nat with 0%nat.
  rewrite ms00, (ms_pt 1%nat 0%nat 0 Q10). destruct (Rlt_dec 1 0) as [|_]; [exfalso; lra|].
  change (3 / 2)%nat with 1%nat. change (3 mod 2)%nat with 1%nat. change (0 / 2)%nat with 0%nat. change (0 mod 2)%nat with 0%nat.
  rewrite ms00, (ms_pt 1%nat 1%nat 1 Q11). destruct (Rlt_dec 1 0) as [|_]; [exfalso; lra|]. reflexivity.
Qed.
Lemma vs0 : vec_size 0%nat dg_q (vec_arg 2%nat (vec_size 0%nat dg_q)) = 0.
Proof.
  unfold vec_arg. change (2 - 1)%nat with 1%nat. cbn [argmax]. destruct (Rlt_dec _ _); [apply (vs_pt 1%nat c), r1 | apply (vs_pt 0%nat (-1)), r0].
Qed.
Lemma refined : refine 2%nat 0%nat 0%nat (pW dg_q) 0%nat 0%nat = if Rlt_dec 0 c then (-1)%Z else 1%Z.
Proof.
  unfold refine. cbn [seq list_prod map app find refines Nat.eqb andb negb].
  rewrite W00, W01, !W1x. destruct (Rlt_dec 0 c) eqn:EC; cbn [Z.eqb Pos.eqb negb andb]; rewrite upd2_same, !W1x, W01, EC; reflexivity.
Qed.
Lemma dg_exact e Y x W s t : exact_mat 2%nat (pQ (mkp (-e) (upd2 (pQ dg_q) 0%nat 0%nat (r_point e)) (pr dg_q) Y x W s t)) = true.
Proof.
  unfold exact_mat. cbn [seq list_prod map app forallb fst snd pQ]. unfold upd2. cbn [Nat.eqb andb].
  rewrite Q01, Q10, Q11. unfold r_rad, r_point; cbn [rl rh].
  repeat (destruct (Req_EM_T _ _) as [_|NE]; [|exfalso; apply NE; lra]). reflexivity.
Qed.
Lemma not_exact : exact_mat 2%nat dg_A = false.
Proof.
  unfold exact_mat. cbn [seq list_prod map app forallb fst snd dg_A]. unfold r_rad; cbn [rl rh]. destruct (Req_EM_T _ _); [exfalso; lra | reflexivity].
Qed.
(** One iteration gives the value for the point [e] of the first entry. *)
Lemma dg_run tol hang f e iA : (if Rlt_dec 0 c then e = 2 else e = 1) -> dg_inv dg_A = Some iA ->
  pps_algo dg_hull dg_inv dg_solve 2%nat 0%nat tol hang dg_A (dg_b c) iA (Z.of_nat f) = POk (- / e).
Proof.
  intros He EI. inversion EI; subst iA; clear EI. unfold pps_algo. cbn [dg_hull por pbind].
  replace (Z.to_nat (Z.of_nat f + 1)) with (S f) by lia. cbn [pps_loop fst snd pQ]. rewrite not_exact. cbn [far].
  match goal with |- context [descend _ _ _ _ _ _ ?p _ _ _] => change p with dg_start end.
  assert (He' : 0 < e /\ 1 <= e <= 2) by (destruct (Rlt_dec 0 c); lra).
  assert (ED : exists Y x W s t, descend dg_hull dg_inv dg_solve 2%nat 0%nat hang dg_start None None ([], []) =
    POk (([dg_q; mkp (- / e) (upd2 (pQ dg_q) 0%nat 0%nat (r_point e)) (pr dg_q) Y x W s t], []), - / e)).
  { unfold descend. cbv zeta. fold dg_q. rewrite marg, ms00, vs0. destruct (Rlt_dec 0 1) as [_|]; [|exfalso; lra].
    assert (SP : forall g, exists Y x W s t, pbind (split dg_hull dg_inv dg_solve 2%nat 0%nat hang false true (upd2 (pQ dg_q) 0%nat 0%nat (r_point e)) (pr dg_q) (pY dg_q) g false false None None ([dg_q], []))
      (fun r1 => POk (fst r1, vnu 0%nat (snd r1))) = POk (([dg_q; mkp (- / e) (upd2 (pQ dg_q) 0%nat 0%nat (r_point e)) (pr dg_q) Y x W s t], []), - / e)).
    { intro g. unfold split. cbn [dg_hull por pbind].
      assert (ES : exists Mn, dg_solve (mids (upd2 (pQ dg_q) 0%nat 0%nat (r_point e))) (fun i => r_mid (pr dg_q i)) = Some Mn /\ Mn 0%nat = - / e).
      { unfold dg_solve, mids. unfold upd2. cbn [Nat.eqb andb]. rewrite Q01, Q10, Q11. unfold r_mid, r_point; cbn [rl rh].
        repeat (destruct (Req_EM_T _ _); try (exfalso; lra)). eexists. split; [reflexivity|]. cbv beta. cbn [Nat.eqb andb]. rewrite r0. cbn [rl rh]. field. lra. }
      destruct ES as (Mn & ES & EM). rewrite ES. cbn [por pbind lt_inf andb dg_inv].
      assert (EG : rl (quo (pr dg_q 0%nat) (upd2 (pQ dg_q) 0%nat 0%nat (r_point e) 0%nat 0%nat)) = - / e).
      { rewrite upd2_same, r0. unfold quo, r_point; cbn [rl rh]. rewrite Rmin_left by lra. field. lra. }
      rewrite EG. unfold insert_item. cbn [length map pg bisect Nat.ltb Nat.leb]. change ((0 + 1) / 2)%nat with 0%nat. cbn [nth].
      do 5 eexists. cbn [fst snd]. unfold vnu. rewrite EM. destruct (Rlt_dec (pg dg_q) (- / e)); cbn [bisect Nat.ltb Nat.leb insert_at]; reflexivity. }
    cbn [fst snd]. rewrite refined, Q00. cbn [rl rh]. destruct (Rlt_dec 0 c); subst e; cbn [Z.eqb Pos.eqb]; apply SP. }
  destruct ED as (Y & x & W & s & t & ED). rewrite ED. cbn [pbind fst snd tl filter lower_mu not_above pg].
  destruct (Rle_dec (- / e) (- / e)) as [_|]; [|exfalso; lra].
  assert (EX : exact_mat 2%nat (upd2 (pQ dg_q) 0%nat 0%nat (r_point e)) = true) by exact (dg_exact e Y x W s t).
  destruct f; cbn [pps_loop fst snd pQ]; rewrite EX; reflexivity.
Qed.
End Run.
Theorem pps_block_triangular : exists A b hbr inverse solve det x, (forall i j, (i < 2)%nat -> (j < 2)%nat -> proper (A i j)) /\
  estimates_enclose hbr 2 A b /\ estimates_enclose hbr 2 A (negated b) /\ inverses_enclose inverse 2 A /\ solutions_exact solve 2 /\
  united 2 2 A b x /\ forall tol hang (maxiter : nat), exists X, pps hbr inverse solve det hang 2 A b tol (Z.of_nat maxiter) 0 = POk X /\ ~ inI X (x 0%nat).
Proof.
  exists dg_A, (dg_b 1), dg_hull, dg_inv, dg_solve, (fun _ => 1), (fun i => match i with 0%nat => -1 | _ => 1 end).
  split. { intros i j Hi Hj. destruct (below2 i Hi) as [-> | ->]; destruct (below2 j Hj) as [-> | ->]; unfold proper; cbn [dg_A rl rh]; lra. }
  split; [apply dg_estimates|]. split; [apply dg_estimates|]. split; [apply dg_inverses|]. split; [apply dg_solutions|]. split.
  { exists (fun i j => if (i =? j)%nat then 1 else 0), (fun i => match i with 0%nat => -1 | _ => 1 end). split; [|split].
    - intros i j Hi Hj. destruct (below2 i Hi) as [-> | ->]; destruct (below2 j Hj) as [-> | ->]; unfold inI; cbn [dg_A rl rh Nat.eqb]; lra.
    - intros i Hi. destruct (below2 i Hi) as [-> | ->]; unfold inI; cbn [dg_b rl rh]; lra.
    - intros i Hi. unfold times; cbn [total]. destruct (below2 i Hi) as [-> | ->]; cbn [Nat.eqb]; lra. }
  intros tol hang f. exists (mkr (- / 2) (- - / 1)). split; [|unfold inI; cbn [rl rh]; lra].
  unfold pps. destruct (Req_EM_T 1 0); [exfalso; lra|]. unfold dg_inv at 1. cbn [por pbind].
  rewrite (dg_run 1 (or_introl eq_refl) tol hang f 2) by (try destruct (Rlt_dec 0 1); try reflexivity; lra). cbn [pbind].
  assert (EB : forall i, r_neg (dg_b 1 i) = dg_b (-1) i).
  { intros [|i]; unfold r_neg; cbn [dg_b rl rh]; f_equal; lra. }
  assert (pps_algo dg_hull dg_inv dg_solve 2%nat 0%nat tol hang dg_A (fun i => r_neg (dg_b 1 i)) (fun i j => if (i =? j)%nat then mkr (/ rh (dg_A i i)) (/ rl (dg_A i i)) else mkr 0 0) (Z.of_nat f) = POk (- / 1)) as E2.
  { assert ((fun i => r_neg (dg_b 1 i)) = dg_b (-1)) as -> by (apply FunctionalExtensionality.functional_extensionality; exact EB).
    apply (dg_run (-1) (or_intror eq_refl) tol hang f 1); [destruct (Rlt_dec 0 (-1)); [exfalso; lra | reflexivity] | reflexivity]. }
  rewrite E2. reflexivity.
Qed.
