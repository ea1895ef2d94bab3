(** Proofs about Subdiff. *)
From Coq Require Import Reals List Arith Bool ZArith Lia Lra Psatz.
From Verif Require Import Exact Recog SpecExact ExactProofs RecogProofs EstimProofs RohnProofs Spec KaucherProofs Subdiff SpecSubdiff.
Import ListNotations.
Open Scope R_scope.

(** ** The product *)
Lemma rk_mul_eq x y : rl (rk_mul x y) = klo (rl x) (rh x) (rl y) (rh y) /\ rh (rk_mul x y) = khi_ (rl x) (rh x) (rl y) (rh y).
Proof.
  destruct x as [p q], y as [c d]. unfold rk_mul. cbv zeta. unfold k_neg, k_pos. fold (rpos p) (rpos q) (rpos c) (rpos d).
  change (rpos p - p) with (rneg p). change (rpos q - q) with (rneg q). change (rpos c - c) with (rneg c). change (rpos d - d) with (rneg d).
  unfold klo, khi_. cbn [rl rh].
  destruct (Rle_dec p q); [destruct (Rle_dec c d)|]; cbn [r_mul rl rh]; [| |split; reflexivity].
  - split; signs p; signs q; signs c; signs d; try lra; mm.
  - split; signs p; signs q; signs c; signs d; try lra; mm.
Qed.
Lemma rk_mul_spec x y : kaucher_times x y (rk_mul x y).
Proof. unfold kaucher_times. destruct (rk_mul_eq x y) as [-> ->]. split; [apply klo_spec | apply khi_spec]. Qed.
Lemma kaucher_unique x y z : kaucher_times x y z -> z = rk_mul x y.
Proof.
  intros [H1 H2]. destruct (rk_mul_spec x y) as [K1 K2]. destruct z as [l h], (rk_mul x y) as [l' h']. simpl in *.
  f_equal; eapply extremum_unique; eassumption.
Qed.
(** ** The entries of the matrix *)
Lemma sgn_cases x : (0 < x /\ sgn x = 1) \/ (x < 0 /\ sgn x = -1) \/ (x = 0 /\ sgn x = 0).
Proof. unfold sgn. destruct (Rlt_dec 0 x); [auto|]. destruct (Rlt_dec x 0); [auto|]. right. right. split; lra. Qed.
Ltac sdfin := repeat split; solve [reflexivity | lra].
Lemma sd_k_cases a : (sd_k a = 0%nat /\ 0 < rl a /\ 0 < rh a) \/ (sd_k a = 2%nat /\ rl a < 0 /\ rh a < 0) \/
  (sd_k a = 1%nat /\ rl a < rh a /\ rl a <= 0 <= rh a) \/ (sd_k a = 3%nat /\ rh a <= rl a /\ rh a <= 0 <= rl a).
Proof.
  unfold sd_k. destruct (sgn_cases (rl a)) as [[H1 ->]|[[H1 ->]|[H1 ->]]], (sgn_cases (rh a)) as [[H2 ->]|[[H2 ->]|[H2 ->]]];
    repeat (match goal with |- context [Rlt_dec ?x ?y] => destruct (Rlt_dec x y); try lra end);
    first [left; sdfin | right; left; sdfin | right; right; left; sdfin | right; right; right; sdfin].
Qed.
Lemma sd_m_cases b : (sd_m b = 1%nat /\ 0 < rl b /\ 0 < rh b) \/ (sd_m b = 3%nat /\ rl b < 0 /\ rh b < 0) \/
  (sd_m b = 2%nat /\ rl b <= rh b /\ rl b <= 0 <= rh b) \/ (sd_m b = 4%nat /\ rh b < rl b /\ rh b <= 0 <= rl b).
Proof.
  unfold sd_m. destruct (sgn_cases (rl b)) as [[H1 ->]|[[H1 ->]|[H1 ->]]], (sgn_cases (rh b)) as [[H2 ->]|[[H2 ->]|[H2 ->]]];
    repeat (match goal with |- context [Rlt_dec ?x ?y] => destruct (Rlt_dec x y); try lra | |- context [Rle_dec ?x ?y] => destruct (Rle_dec x y); try lra end);
    first [left; sdfin | right; left; sdfin | right; right; left; sdfin | right; right; right; sdfin].
Qed.
Lemma rpos_pos a : 0 < a -> rpos a = a. Proof. intro. apply rpos_nn. lra. Qed.
Ltac pn := repeat (match goal with
  | |- context [rpos ?x] => first [rewrite (rpos_nn x) by lra | rewrite (rpos_np x) by lra]
  | |- context [rneg ?x] => first [rewrite (rneg_nn x) by lra | rewrite (rneg_np x) by lra] end).
Ltac rlt := repeat (match goal with |- context [Rlt_dec ?x ?y] => destruct (Rlt_dec x y) end).
(** Where the linearization is right: everywhere except when both factors are
    improper and contain zero inside and the lower endpoint comes from the upper
    endpoints. *)
Definition sd_good (a b : rit) : Prop := rl a <= rh a \/ rl b <= rh b \/ ~ (rh a < 0 <= rl a /\ rh b < 0 <= rl b) \/ rh a * rh b < rl a * rl b.
Lemma subgrad_hi a b : e21 (calc_subgrad a b) * rl b + e22 (calc_subgrad a b) * rh b = rh (rk_mul a b).
Proof.
  rewrite (proj2 (rk_mul_eq a b)). unfold calc_subgrad, khi_. destruct a as [p q], b as [c d]. 
  destruct (sd_k_cases (mkr p q)) as [(-> & H)|[(-> & H)|[(-> & H)|(-> & H)]]], (sd_m_cases (mkr c d)) as [(-> & G)|[(-> & G)|[(-> & G)|(-> & G)]]];
  cbn [rl rh Nat.mul Nat.add e11 e12 e21 e22] in *; pn; rlt; mm.
Qed.
Lemma subgrad_lo a b : sd_good a b -> e11 (calc_subgrad a b) * rl b + e12 (calc_subgrad a b) * rh b = rl (rk_mul a b).
Proof.
  intro Gd. unfold sd_good in Gd. rewrite (proj1 (rk_mul_eq a b)). unfold calc_subgrad, klo. destruct a as [p q], b as [c d]. 
  destruct (sd_k_cases (mkr p q)) as [(-> & H)|[(-> & H)|[(-> & H)|(-> & H)]]], (sd_m_cases (mkr c d)) as [(-> & G)|[(-> & G)|[(-> & G)|(-> & G)]]];
  cbn [rl rh Nat.mul Nat.add e11 e12 e21 e22] in *; pn; rlt; mm.
Qed.
Lemma good_proper a b : proper a \/ proper b -> sd_good a b.
Proof. unfold sd_good, proper. tauto. Qed.
(** ** The whole matrix *)
Lemma total_double n f : total (2 * n) f = total n (fun j => f j + f (n + j)%nat).
Proof. replace (2 * n)%nat with (n + n)%nat by lia. rewrite total_app. now rewrite <- total_plus. Qed.
Lemma flat_unflat n v r : (r < 2 * n)%nat -> flat n (unflat n v) r = v r.
Proof. intro H. unfold flat, unflat. destruct (Nat.ltb_spec r n); simpl; [reflexivity|]. f_equal. lia. Qed.
Lemma flat_lo n x i : (i < n)%nat -> flat n x i = rl (x i).
Proof. intro H. unfold flat. destruct (Nat.ltb_spec i n); [reflexivity|lia]. Qed.
Lemma flat_hi n x i : flat n x (n + i)%nat = rh (x i).
Proof. unfold flat. destruct (Nat.ltb_spec (n + i) n); [lia|]. now replace (n + i - n)%nat with i by lia. Qed.
Ltac nb := repeat (match goal with |- context [(?x <? ?y)%nat] => destruct (Nat.ltb_spec x y); try lia end).
Lemma sd_F_lo n A y v i : (i < n)%nat -> times (2 * n) (sd_F n A y) v i =
  total n (fun j => e11 (calc_subgrad (A i j) (unflat n y j)) * v j + e12 (calc_subgrad (A i j) (unflat n y j)) * v (n + j)%nat).
Proof.
  intro Hi. unfold times. rewrite total_double. apply total_ext. intros j Hj. unfold sd_F. cbv zeta. nb. replace (n + j - n)%nat with j by lia. reflexivity.
Qed.
Lemma sd_F_hi n A y v i : (i < n)%nat -> times (2 * n) (sd_F n A y) v (n + i)%nat =
  total n (fun j => e21 (calc_subgrad (A i j) (unflat n y j)) * v j + e22 (calc_subgrad (A i j) (unflat n y j)) * v (n + j)%nat).
Proof.
  intro Hi. unfold times. rewrite total_double. apply total_ext. intros j Hj. unfold sd_F. cbv zeta. nb. replace (n + j - n)%nat with j by lia. replace (n + i - n)%nat with i by lia. reflexivity.
Qed.
(** Substituting a vector: the Kaucher product *)
Definition kmv (n : nat) (A : imat) (x : ivec) : ivec := fun i => isum n (fun j => rk_mul (A i j) (x j)).
Lemma kmv_row n A x i : kaucher_row n A x i (kmv n A x i).
Proof. exists (fun j => rk_mul (A i j) (x j)). split; [intros; apply rk_mul_spec|]. unfold kmv. now rewrite isum_lo, isum_hi. Qed.
Lemma kaucher_row_eq n A x i Z : kaucher_row n A x i Z <-> Z = kmv n A x i.
Proof.
  split; [|intros ->; apply kmv_row]. intros (T & HT & E1 & E2). destruct Z as [l h]. simpl in *. subst. unfold kmv.
  rewrite (total_ext n (fun j => rl (T j)) (fun j => rl (rk_mul (A i j) (x j)))) by (intros j Hj; now rewrite (kaucher_unique _ _ _ (HT j Hj))).
  rewrite (total_ext n (fun j => rh (T j)) (fun j => rh (rk_mul (A i j) (x j)))) by (intros j Hj; now rewrite (kaucher_unique _ _ _ (HT j Hj))).
  rewrite <- isum_lo, <- isum_hi. now destruct (isum _ _).
Qed.
Lemma sd_F_self n A x : (forall i j, (i < n)%nat -> (j < n)%nat -> sd_good (A i j) (unflat n x j)) ->
  solves (2 * n) (2 * n) (sd_F n A x) (flat n (kmv n A (unflat n x))) x.
Proof.
  intros G i Hi. destruct (lt_dec i n) as [L|L].
  - rewrite sd_F_lo, flat_lo by exact L. unfold kmv. rewrite isum_lo. apply total_ext. intros j Hj. rewrite <- subgrad_lo by auto. reflexivity.
  - replace i with (n + (i - n))%nat by lia. rewrite sd_F_hi, flat_hi by lia. unfold kmv. rewrite isum_hi. apply total_ext. intros j Hj. rewrite <- subgrad_hi. reflexivity.
Qed.
(** The matrix applied to the endpoints reproduces the product. *)
Theorem linearization n A x : (forall i j, (i < n)%nat -> (j < n)%nat -> proper (A i j) \/ proper (mkr (x j) (x (n + j)%nat))) ->
  forall i, (i < n)%nat -> kaucher_row n A (unflat n x) i (mkr (times (2 * n) (sd_F n A x) x i) (times (2 * n) (sd_F n A x) x (n + i)%nat)).
Proof.
  intros H i Hi. apply kaucher_row_eq. assert (S := sd_F_self n A x ltac:(intros; apply good_proper; now apply H)).
  rewrite (S i) by lia. rewrite (S (n + i)%nat) by lia. rewrite flat_lo, flat_hi by exact Hi. now destruct (kmv _ _ _ _).
Qed.
Theorem linearization_refuted : exists A x, ~ kaucher_row 1 A (unflat 1 x) 0 (mkr (times 2 (sd_F 1 A x) x 0%nat) (times 2 (sd_F 1 A x) x 1%nat)).
Proof.
  exists (fun _ _ => mkr 2 (-1)), (fun j => match j with O => 1 | _ => -4 end). intro H. apply kaucher_row_eq in H. apply (f_equal rl) in H. cbn [rl] in H.
  assert (S := sd_F_lo 1 (fun _ _ => mkr 2 (-1)) (fun j => match j with O => 1 | _ => -4 end) (fun j => match j with O => 1 | _ => -4 end) 0 ltac:(lia)).
  change (2 * 1)%nat with 2%nat in S. rewrite S in H. unfold kmv in H. rewrite isum_lo in H. cbn [total] in H.
  change (unflat 1 _ 0%nat) with (mkr 1 (-4)) in H. cbv beta iota in H. rewrite (proj1 (rk_mul_eq _ _)) in H.
  unfold calc_subgrad, klo in H.
  destruct (sd_k_cases (mkr 2 (-1))) as [(_ & K)|[(_ & K)|[(_ & K)|(E1 & K)]]]; cbn [rl rh] in K; try lra.
  destruct (sd_m_cases (mkr 1 (-4))) as [(_ & K')|[(_ & K')|[(_ & K')|(E2 & K')]]]; cbn [rl rh] in K'; try lra.
  rewrite E1, E2 in H. cbn [rl rh Nat.mul Nat.add e11 e12] in H. revert H. pn. rlt; try lra. unfold Rmax. repeat destruct Rle_dec; lra.
Qed.
(** ** Iterations *)
Lemma res_zero n A b x i : kmv n A (unflat n x) i = b i <-> sd_res n A b x i = mkr 0 0.
Proof.
  unfold sd_res. fold (kmv n A (unflat n x) i). destruct (kmv n A (unflat n x) i) as [l h], (b i) as [c d]. unfold r_add, rk_opp; cbn [rl rh]. split; intro H; injection H; intros; f_equal; lra.
Qed.
Section It.
Context (solve : nat -> mat -> vec -> option vec) (OK : solver_ok solve).
Context (n : nat) (A : imat) (b : ivec) (tol tau nmv : R).
Definition goodx (x : vec) : Prop := forall i j, (i < n)%nat -> (j < n)%nat -> sd_good (A i j) (unflat n x j).
(** tau = 1: the new iterate solves the linearized system. *)
Lemma step_newton x y r q : tau = 1 -> goodx x -> sd_step solve n A b tau nmv x = Some (y, r, q) -> solves (2 * n) (2 * n) (sd_F n A x) (flat n b) y.
Proof.
  intros T G H. unfold sd_step in H. destruct (solve _ _ _) as [d|] eqn:E; [|discriminate]. injection H as <- _ _. destruct (OK _ _ _ _ E) as [S _].
  intros i Hi. assert (S1 := S i Hi). assert (S2 := sd_F_self n A x G i Hi). unfold times in *. subst tau.
  rewrite (total_ext _ _ (fun j => sd_F n A x i j * x j + - (sd_F n A x i j * d j))) by (intros; ring). rewrite total_plus, total_opp, S1, S2.
  destruct (lt_dec i n) as [L|L].
  - rewrite !flat_lo by exact L. unfold sd_res. fold (kmv n A (unflat n x) i). simpl. ring.
  - replace i with (n + (i - n))%nat by lia. rewrite !flat_hi. unfold sd_res. fold (kmv n A (unflat n x) (i - n)%nat). simpl. ring.
Qed.
Lemma formal_iff x : formal_solution n A b x <-> forall i, (i < n)%nat -> kmv n A x i = b i.
Proof. unfold formal_solution. split; intros H i Hi; specialize (H i Hi); [apply kaucher_row_eq in H; congruence | apply kaucher_row_eq; congruence]. Qed.
(** Two iterates with the same matrix: the second is a formal solution. *)
Lemma step_same x y r q : tau = 1 -> goodx x -> goodx y -> sd_step solve n A b tau nmv x = Some (y, r, q) ->
  (forall i j, (i < 2 * n)%nat -> (j < 2 * n)%nat -> sd_F n A y i j = sd_F n A x i j) -> formal_solution n A b (unflat n y).
Proof.
  intros T Gx Gy H E. apply formal_iff. intros i Hi. assert (S1 := step_newton x y r q T Gx H). assert (S2 := sd_F_self n A y Gy).
  assert (K : forall k, (k < 2 * n)%nat -> flat n (kmv n A (unflat n y)) k = flat n b k).
  { intros k Hk. rewrite <- (S1 k Hk), <- (S2 k Hk). unfold times. apply total_ext. intros j Hj. now rewrite E. }
  assert (K1 := K i ltac:(lia)). assert (K2 := K (n + i)%nat ltac:(lia)). rewrite !flat_lo in K1 by exact Hi. rewrite !flat_hi in K2. destruct (kmv _ _ _ _), (b i); simpl in *; congruence.
Qed.
Lemma mag_zero i : r_mag i = 0 -> i = mkr 0 0.
Proof.
  destruct i as [l h]. unfold r_mag; cbn [rl rh]. intro H. assert (M1 := Rmax_l (Rabs l) (Rabs h)). assert (M2 := Rmax_r (Rabs l) (Rabs h)).
  assert (Z : forall t, Rabs t <= 0 -> t = 0) by (intros t L; destruct (Req_dec t 0) as [|Ne]; [assumption|apply Rabs_pos_lt in Ne; lra]). f_equal; apply Z; lra.
Qed.
Lemma total_zero_nn k f : (forall j, (j < k)%nat -> 0 <= f j) -> total k f = 0 -> forall j, (j < k)%nat -> f j = 0.
Proof.
  induction k as [|k IH]; intros H E j Hj; [lia|]. simpl in E. assert (0 <= total k f) by (apply total_nn; intros; apply H; lia). assert (0 <= f k) by (apply H; lia).
  destruct (Nat.eq_dec j k) as [->|]; [lra|]. apply IH; [intros; apply H; lia | lra | lia].
Qed.
(** A zero residual: a formal solution was reached, and it is kept. *)
Lemma step_zero x y r q : sd_step solve n A b tau nmv x = Some (y, r, q) ->
  (r = 0 <-> formal_solution n A b (unflat n x)) /\ (r = 0 -> forall i, (i < 2 * n)%nat -> y i = x i).
Proof.
  intro H. unfold sd_step in H. destruct (solve _ _ _) as [d|] eqn:E; [|discriminate]. injection H as <- Er _. destruct (OK _ _ _ _ E) as [S Inj].
  assert (Z : r = 0 -> forall i, (i < n)%nat -> sd_res n A b x i = mkr 0 0).
  { intros R0 i Hi. apply mag_zero. rewrite <- Er, vsum_eq in R0. apply (total_zero_nn n (fun i => r_mag (sd_res n A b x i))); [|exact R0|exact Hi].
    intros j _. unfold r_mag. assert (M := Rmax_l (Rabs (rl (sd_res n A b x j))) (Rabs (rh (sd_res n A b x j)))). assert (P := Rabs_pos (rl (sd_res n A b x j))). lra. }
  split; [split|].
  - intro R0. apply formal_iff. intros i Hi. apply res_zero. now apply Z.
  - intro F. rewrite <- Er, vsum_eq. apply formal_iff in F || idtac. rewrite (total_ext n _ (fun _ => 0)); [apply total_0; auto|]. intros j Hj.
    rewrite (proj1 (res_zero n A b x j)) by (apply (proj1 (formal_iff _)); auto). unfold r_mag; cbn [rl rh]. rewrite Rabs_R0. unfold Rmax. destruct Rle_dec; reflexivity.
  - intros R0 i Hi. rewrite (Inj d); [ring| |exact Hi]. intros k Hk. rewrite (S k Hk). destruct (lt_dec k n) as [L|L].
    + rewrite flat_lo, Z by auto. reflexivity.
    + replace k with (n + (k - n))%nat by lia. rewrite flat_hi, Z by (auto; lia). reflexivity.
Qed.
Lemma unflat_ext x y j : (forall i, (i < 2 * n)%nat -> y i = x i) -> (j < n)%nat -> unflat n y j = unflat n x j.
Proof. intros H Hj. unfold unflat. now rewrite !H by lia. Qed.
Lemma formal_ext X Y : (forall j, (j < n)%nat -> Y j = X j) -> formal_solution n A b X -> formal_solution n A b Y.
Proof.
  intros E F i Hi. specialize (F i Hi). destruct F as (T & HT & E1 & E2). exists T. split; [|auto]. intros j Hj. rewrite E by exact Hj. auto.
Qed.
(** A formal solution that is reached is returned. *)
Lemma loop_formal fuel x y : 0 <= tol -> formal_solution n A b (unflat n x) -> sd_loop solve n A b tol tau nmv fuel x = Some y -> formal_solution n A b (unflat n y).
Proof.
  intros Ht F H. destruct fuel as [|f]; simpl in H; [injection H as <-; exact F|]. destruct (sd_step _ _ _ _ _ _ x) as [[[z r] q]|] eqn:E; [|discriminate].
  destruct (step_zero x z r q E) as [Z1 Z2]. assert (R0 : r = 0) by (now apply Z1). rewrite R0 in H. unfold Rdiv in H. rewrite Rmult_0_l in H.
  destruct (Rlt_dec tol 0); [lra|]. injection H as <-. apply (formal_ext (unflat n x)); [|exact F]. intros j Hj. apply unflat_ext; [now apply Z2|exact Hj].
Qed.
(** A real matrix: the starting point is the formal solution. *)
Lemma super_point x : (forall i j, (i < n)%nat -> (j < n)%nat -> rl (A i j) = rh (A i j)) ->
  solves (2 * n) (2 * n) (super n A) (flat n b) x -> formal_solution n A b (unflat n x).
Proof.
  intros PM S. apply formal_iff. intros i Hi. assert (S1 := S i ltac:(lia)). assert (S2 := S (n + i)%nat ltac:(lia)). rewrite flat_lo in S1 by exact Hi. rewrite flat_hi in S2.
  unfold times in S1, S2. rewrite total_double in S1, S2. 
  assert (T : forall j, (j < n)%nat -> 
     super n A i j * x j + super n A i (n + j)%nat * x (n + j)%nat = rl (rk_mul (A i j) (unflat n x j)) /\
     super n A (n + i)%nat j * x j + super n A (n + i)%nat (n + j)%nat * x (n + j)%nat = rh (rk_mul (A i j) (unflat n x j))).
  { intros j Hj. rewrite (proj1 (rk_mul_eq _ _)), (proj2 (rk_mul_eq _ _)). unfold super, unflat; cbv zeta; cbn [rl rh]. nb. cbn [Bool.eqb]. 
    replace (n + j - n)%nat with j by lia. replace (n + i - n)%nat with i by lia. unfold r_mid. rewrite <- (PM i j Hi Hj).
    replace (/ 2 * (rl (A i j) + rl (A i j))) with (rl (A i j)) by field. set (a := rl (A i j)). set (c := x j). set (d := x (n + j)%nat). unfold klo, khi_.
    destruct (Rle_dec 0 a); [rewrite ?(rpos_nn a), ?(rneg_nn a) by lra | rewrite ?(rpos_np a), ?(rneg_np a) by lra]; split; signs c; signs d; mm. }
  unfold kmv. assert (L : rl (isum n (fun j => rk_mul (A i j) (unflat n x j))) = rl (b i)). { rewrite isum_lo, <- S1. apply total_ext. intros j Hj. symmetry. now apply T. }
  assert (U : rh (isum n (fun j => rk_mul (A i j) (unflat n x j))) = rh (b i)). { rewrite isum_hi, <- S2. apply total_ext. intros j Hj. symmetry. now apply T. }
  destruct (isum _ _), (b i); simpl in *; congruence.
Qed.
(** An answer that a further iteration would not change. *)
Lemma loop_settled fuel : tol <= 0 -> 0 <= nmv -> tau <> 0 -> forall x y z, sd_loop solve n A b tol tau nmv fuel x = Some y ->
  sd_loop solve n A b tol tau nmv (S fuel) x = Some z -> (forall i, (i < 2 * n)%nat -> z i = y i) -> formal_solution n A b (unflat n y).
Proof.
  intros Ht Hn Hu. induction fuel as [|f IH]; intros x y z H1 H2 E.
  - simpl in H1. injection H1 as <-. simpl in H2. destruct (sd_step _ _ _ _ _ _ x) as [[[w r] q]|] eqn:Es; [|discriminate].
    assert (W : w = z) by (destruct (Rlt_dec tol (r / q)); congruence). subst w. apply (proj1 (step_zero x z r q Es)).
    unfold sd_step in Es. destruct (solve _ _ _) as [d|] eqn:Ed; [|discriminate]. injection Es as Ez Er _. destruct (OK _ _ _ _ Ed) as [S _].
    assert (D : forall i, (i < 2 * n)%nat -> d i = 0).
    { intros i Hi. specialize (E i Hi). rewrite <- Ez in E. assert (P : d i * tau = 0) by lra. apply Rmult_integral in P. tauto. }
    rewrite <- Er, vsum_eq. rewrite (total_ext n _ (fun _ => 0)); [apply total_0; auto|]. intros i Hi.
    assert (Z : forall k, (k < 2 * n)%nat -> flat n (sd_res n A b x) k = 0).
    { intros k Hk. rewrite <- (S k Hk). unfold times. rewrite (total_ext _ _ (fun _ => 0)) by (intros j Hj; rewrite D by exact Hj; ring). now apply total_0. }
    assert (Z1 := Z i ltac:(lia)). assert (Z2 := Z (n + i)%nat ltac:(lia)). rewrite flat_lo in Z1 by exact Hi. rewrite flat_hi in Z2. unfold r_mag. rewrite Z1, Z2, Rabs_R0. unfold Rmax. destruct Rle_dec; reflexivity.
  - cbn [sd_loop] in H1. change (sd_loop solve n A b tol tau nmv (S (S f)) x) with
      (match sd_step solve n A b tau nmv x with None => None | Some (w, r, q) => if Rlt_dec tol (r / q) then sd_loop solve n A b tol tau nmv (S f) w else Some w end) in H2.
    destruct (sd_step _ _ _ _ _ _ x) as [[[w r] q]|] eqn:Es; [|discriminate]. destruct (Rlt_dec tol (r / q)) as [L|L]; [now apply (IH w y z)|].
    injection H1 as <-. destruct (step_zero x w r q Es) as [Z1 Z2].
    assert (R0 : r = 0).
    { unfold sd_step in Es. destruct (solve _ _ _) as [d|] eqn:Ed; [|discriminate]. injection Es as _ Er Eq.
      assert (Rn : 0 <= r). { rewrite <- Er, vsum_eq. apply total_nn. intros j _. unfold r_mag. assert (M := Rmax_l (Rabs (rl (sd_res n A b x j))) (Rabs (rh (sd_res n A b x j)))). assert (P := Rabs_pos (rl (sd_res n A b x j))). lra. }
      assert (Q : 0 < q). { rewrite <- Eq. destruct Rle_dec; lra. }
      destruct (Rle_lt_or_eq_dec 0 r Rn) as [Lt|Eq0]; [|lra]. exfalso. apply L. assert (0 < r / q) by (now apply Rdiv_lt_0_compat). lra. }
    apply (formal_ext (unflat n x)); [|now apply Z1]. intros j Hj. apply unflat_ext; [now apply Z2|exact Hj].
Qed.
End It.

(** ** The function *)
Theorem subdiff_point_matrix solve n A b tol tau nmv maxiter X : solver_ok solve -> 0 <= tol ->
  (forall i j, (i < n)%nat -> (j < n)%nat -> rl (A i j) = rh (A i j)) ->
  subdiff solve n A b tol tau nmv maxiter = Some X -> formal_solution n A b X.
Proof.
  intros OK Ht PM H. unfold subdiff in H. destruct (solve _ _ _) as [x|] eqn:E; [|discriminate]. destruct (sd_loop _ _ _ _ _ _ _ _ x) as [y|] eqn:El; [|discriminate]. injection H as <-.
  refine (loop_formal solve OK n A b tol tau nmv (Z.to_nat (maxiter + 1)) x y Ht _ El). apply super_point; [exact PM|]. now apply OK in E.
Qed.
Theorem subdiff_settled solve n A b tau nmv maxiter X Y : solver_ok solve -> 0 <= nmv -> tau <> 0 -> (-1 <= maxiter)%Z ->
  subdiff solve n A b 0 tau nmv maxiter = Some X -> subdiff solve n A b 0 tau nmv (maxiter + 1) = Some Y -> (forall j, (j < n)%nat -> Y j = X j) ->
  formal_solution n A b X.
Proof.
  intros OK Hn Hu Hm H1 H2 E. unfold subdiff in *. destruct (solve _ _ _) as [x|] eqn:Es; [|discriminate].
  replace (Z.to_nat (maxiter + 1 + 1)) with (S (Z.to_nat (maxiter + 1))) in H2 by lia.
  destruct (sd_loop _ _ _ _ _ _ _ (Z.to_nat (maxiter + 1)) x) as [y|] eqn:E1; [|discriminate]. injection H1 as <-.
  destruct (sd_loop _ _ _ _ _ _ _ (S _) x) as [z|] eqn:E2; [|discriminate]. injection H2 as <-.
  apply (loop_settled solve OK n A b 0 tau nmv (Z.to_nat (maxiter + 1)) ltac:(lra) Hn Hu x y z E1 E2). intros i Hi.
  destruct (lt_dec i n) as [L|L]; [specialize (E i L) | specialize (E (i - n)%nat ltac:(lia))]; unfold unflat in E; injection E as Ea Eb; [exact Ea|].
  now replace (n + (i - n))%nat with i in Eb by lia.
Qed.
(** Proper matrix and tau = 1: the same matrix twice means success. *)
Theorem subdiff_same_matrix solve n A b nmv x y r q : solver_ok solve -> proper_mat n n A ->
  sd_step solve n A b 1 nmv x = Some (y, r, q) -> (forall i j, (i < 2 * n)%nat -> (j < 2 * n)%nat -> sd_F n A y i j = sd_F n A x i j) -> formal_solution n A b (unflat n y).
Proof. intros OK PA H E. apply (step_same solve OK n A b 1 nmv x y r q); auto; intros i j Hi Hj; apply good_proper; left; now apply PA. Qed.

(** ** What formal solutions are good for *)
Lemma between_in a c x : a <= c -> a <= x <= c -> Spec.between a c x.
Proof. intros H1 H2. unfold Spec.between. rewrite Rmin_left, Rmax_right by lra. exact H2. Qed.
Lemma between_in' a c x : c <= a -> c <= x <= a -> Spec.between a c x.
Proof. intros H1 H2. unfold Spec.between. rewrite Rmin_right, Rmax_left by lra. exact H2. Qed.
Lemma mul_extreme a b v x : a <= x <= b -> Rmin (a * v) (b * v) <= x * v <= Rmax (a * v) (b * v).
Proof. intro H. assert (K : a * v <= x * v <= b * v \/ b * v <= x * v <= a * v).
  { destruct (Rle_dec 0 v); [left | right]; split; nra. }
  unfold Rmin, Rmax. repeat destruct Rle_dec; split; lra. Qed.
Lemma proper_term a X z t v : proper a -> proper X -> kaucher_times a X z -> inI a t -> inI X v -> rl z <= t * v <= rh z.
Proof.
  intros Pa Px K Ht Hv. apply kaucher_unique in K. subst z. unfold rk_mul. cbv zeta. unfold proper, inI in *. destruct (Rle_dec (rl a) (rh a)); [|lra]. destruct (Rle_dec (rl X) (rh X)); [|lra].
  unfold r_mul; cbn [rl rh]. assert (E1 := mul_extreme (rl a) (rh a) v t Ht). assert (E2 := mul_extreme (rl X) (rh X) (rl a) v Hv). assert (E3 := mul_extreme (rl X) (rh X) (rh a) v Hv).
  rewrite !(Rmult_comm (rl X)), !(Rmult_comm (rh X)), !(Rmult_comm v) in *. revert E1 E2 E3. unfold Rmin, Rmax. repeat destruct Rle_dec; lra.
Qed.
(** A proper formal solution lies in the tolerable solution set. *)
Theorem formal_tolerable n A b X : proper_mat n n A -> proper_vec n X -> formal_solution n A b X -> forall v, in_ivec n X v -> tolerable n n A b v.
Proof.
  intros PA PX F v Hv M HM i Hi. destruct (F i Hi) as (T & HT & E1 & E2). unfold inI. rewrite E1, E2. unfold times.
  split; apply total_le; intros j Hj; apply (proper_term (A i j) (X j)); auto.
Qed.
Definition dual_mat (A : imat) : imat := fun i j => mkr (rh (A i j)) (rl (A i j)).
Lemma dual_term a X z v : proper a -> proper X -> kaucher_times (mkr (rh a) (rl a)) X z -> inI X v -> rl z <= Rmax (v * rl a) (v * rh a) /\ Rmin (v * rl a) (v * rh a) <= rh z.
Proof.
  intros Pa Px K Hv. apply kaucher_unique in K. subst z. rewrite (proj1 (rk_mul_eq _ _)), (proj2 (rk_mul_eq _ _)). destruct a as [p q], X as [c d]. unfold proper, inI in *. cbn [rl rh] in *.
  unfold klo, khi_. split; signs p; signs q; signs c; signs d; try lra; mm.
Qed.
(** A proper formal solution of the system with the dual matrix lies in the
    united solution set. *)
Theorem formal_united n A b X : proper_mat n n A -> proper_vec n X -> proper_vec n b -> formal_solution n (dual_mat A) b X -> forall v, in_ivec n X v -> united n n A b v.
Proof.
  intros PA PX Pb F v Hv.
  assert (Q : forall i, (i < n)%nat -> let w := Rmax (rl (b i)) (rl (imv n A v i)) in inI (b i) w /\ inI (imv n A v i) w).
  { intros i Hi. destruct (F i Hi) as (T & HT & E1 & E2). cbv zeta.
    assert (L : rl (b i) <= rh (imv n A v i)). { rewrite E1. unfold imv. rewrite isum_hi. apply total_le. intros j Hj. apply (dual_term (A i j) (X j) (T j) (v j)); auto. now apply HT. }
    assert (U : rl (imv n A v i) <= rh (b i)). { rewrite E2. unfold imv. rewrite isum_lo. apply total_le. intros j Hj. apply (dual_term (A i j) (X j) (T j) (v j)); auto. now apply HT. }
    assert (P : proper (imv n A v i)) by (apply isum_proper; intros; apply scale_proper). assert (P2 := Pb i Hi). unfold inI, proper in *. unfold Rmax. destruct Rle_dec; lra. }
  destruct (imv_attained n n A v (fun i => Rmax (rl (b i)) (rl (imv n A v i))) PA ltac:(intros; now apply Q)) as (M & HM & E).
  exists M, (fun i => Rmax (rl (b i)) (rl (imv n A v i))). split; [exact HM|split; [intros i Hi; now apply Q | exact E]].
Qed.
