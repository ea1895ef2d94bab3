(** When Subdiff stops. *)
From Coq Require Import Reals List Arith Bool ZArith Lia Lra Psatz.
From Verif Require Import Exact SpecExact ExactProofs Spec KaucherProofs Subdiff SpecSubdiff SubdiffProofs SubdiffEx.
Import ListNotations.
Open Scope R_scope.

Section Stop.
Context (solve : nat -> mat -> vec -> option vec) (OK : solver_ok solve).
Context (n : nat) (A : imat) (b : ivec) (tol tau nmv : R) (PA : proper_mat n n A).

Lemma res_misfit x : misfit n A b (as_box n x) (vsum n (fun i => r_mag (sd_res n A b x i))).
Proof.
  exists (kmv n A (unflat n x)). split; [intros i _; apply kmv_row|]. rewrite vsum_total. apply total_ext. intros i Hi.
  unfold sd_res, r_mag. fold (kmv n A (unflat n x) i). cbn. reflexivity.
Qed.
Lemma step_newton_run x y r q : sd_step solve n A b tau nmv x = Some (y, r, q) ->
  newton n A b tau x y /\ misfit n A b (as_box n x) r /\ q = divisor nmv (norm1 n y).
Proof.
  unfold sd_step. destruct (solve _ _ _) as [d|] eqn:E; [|discriminate]. intro H.
  assert (Ey : y = fun r => x r - d r * tau) by (now inversion H).
  assert (Er : r = vsum n (fun i => r_mag (sd_res n A b x i))) by (now inversion H).
  assert (Eq : q = if Rle_dec (vsum (2 * n) (fun r => Rabs (y r))) nmv then 1 else vsum (2 * n) (fun r => Rabs (y r))) by (rewrite Ey; now inversion H).
  clear H. split; [|split].
  - exists (sd_F n A x), d. destruct (OK _ _ _ _ E) as [So _].
    assert (G : goodx n A x) by (intros i j Hi Hj; apply good_proper; left; now apply PA).
    assert (Sx := sd_F_self n A x G). split; [|split].
    + exact (linearization n A x (fun i j Hi Hj => or_introl (PA i j Hi Hj))).
    + intros i Hi. rewrite (So i ltac:(lia)), (So (n + i)%nat ltac:(lia)), (Sx i ltac:(lia)), (Sx (n + i)%nat ltac:(lia)).
      rewrite !flat_lo by exact Hi. rewrite !flat_hi. unfold sd_res. fold (kmv n A (unflat n x) i). cbn. split; ring.
    + intros j _. rewrite Ey. ring.
  - rewrite Er. apply res_misfit.
  - rewrite Eq. unfold divisor, norm1. now rewrite vsum_total.
Qed.
Lemma loop_run fuel : forall x y, sd_loop solve n A b tol tau nmv fuel x = Some y ->
  exists xs k, xs O = x /\ xs k = y /\ newton_run n A b tol tau nmv fuel k xs.
Proof.
  induction fuel as [|fuel IH]; intros x y E; cbn [sd_loop] in E.
  { injection E as <-. exists (fun _ => x), 0%nat. split; [reflexivity|]. split; [reflexivity|]. split; [lia|]. split; [intros i Hi; lia|]. split; [intros i Hi; lia|]. intro; lia. }
  destruct (sd_step solve n A b tau nmv x) as [[[z r] q]|] eqn:Es; [|discriminate].
  destruct (step_newton_run x z r q Es) as (N & M & Q).
  destruct (Rlt_dec tol (r / q)) as [L|L].
  - destruct (IH z y E) as (xs & k & X0 & Xk & R1 & R2 & R3 & R4).
    exists (fun i => match i with O => x | S i' => xs i' end), (S k). split; [reflexivity|]. split; [exact Xk|]. split; [lia|]. split; [|split].
    + intros [|i] Hi; [rewrite X0; exact N|]. apply R2. lia.
    + intros [|i] Hi; [exists r; rewrite X0, <- Q; split; assumption|]. apply R3. lia.
    + intro Hk. destruct R4 as (i & r' & Ek & Mr & T); [lia|]. exists (S i), r'. split; [now rewrite Ek|]. split; [exact Mr|exact T].
  - injection E as <-. exists (fun i => match i with O => x | S _ => z end), 1%nat. split; [reflexivity|]. split; [reflexivity|]. split; [lia|]. split; [|split].
    + intros [|i] Hi; [exact N|lia].
    + intros i Hi. lia.
    + intros _. exists 0%nat, r. split; [reflexivity|]. split; [exact M|]. rewrite <- Q. lra.
Qed.
End Stop.

Lemma super_centre n A : super n (centre A) = super n A.
Proof.
  apply FunctionalExtensionality.functional_extensionality. intro r. apply FunctionalExtensionality.functional_extensionality. intro c.
  unfold super. cbv zeta. set (i := if (r <? n)%nat then r else (r - n)%nat). set (j := if (c <? n)%nat then c else (c - n)%nat).
  replace (r_mid (centre A i j)) with (r_mid (A i j)); [reflexivity|]. unfold r_mid, centre. cbn. field.
Qed.
Theorem subdiff_run solve n A b tol tau nmv maxiter X : solver_ok solve -> proper_mat n n A ->
  subdiff solve n A b tol tau nmv maxiter = Some X ->
  exists xs k, formal_solution n (centre A) b (as_box n (xs O)) /\ newton_run n A b tol tau nmv (Z.to_nat (maxiter + 1)) k xs /\ X = as_box n (xs k).
Proof.
  intros OK PA E. unfold subdiff in E. destruct (solve _ _ _) as [x|] eqn:E0; [|discriminate].
  destruct (sd_loop solve n A b tol tau nmv (Z.to_nat (maxiter + 1)) x) as [y|] eqn:El; [|discriminate]. injection E as <-.
  destruct (loop_run solve OK n A b tol tau nmv PA _ x y El) as (xs & k & X0 & Xk & R). exists xs, k. split; [|split; [exact R|now rewrite Xk]].
  rewrite X0. apply super_point; [intros i j _ _; reflexivity|]. rewrite super_centre. now apply OK in E0.
Qed.

(** Back substitution for four unknowns and upper triangular matrices; no answer
    otherwise. *)
Definition upper4 (F : mat) : Prop := F 1%nat 0%nat = 0 /\ F 2%nat 0%nat = 0 /\ F 2%nat 1%nat = 0 /\ F 3%nat 0%nat = 0 /\ F 3%nat 1%nat = 0 /\ F 3%nat 2%nat = 0 /\
  F 0%nat 0%nat <> 0 /\ F 1%nat 1%nat <> 0 /\ F 2%nat 2%nat <> 0 /\ F 3%nat 3%nat <> 0.
Lemma both_dec (P Q : Prop) : {P} + {~ P} -> {Q} + {~ Q} -> {P /\ Q} + {~ (P /\ Q)}.
Proof. intros [p|p] [q|q]; [left|right|right|right]; tauto. Defined.
Lemma not_dec (P : Prop) : {P} + {~ P} -> {~ P} + {~ ~ P}.
Proof. intros [p|p]; [right|left]; tauto. Defined.
Lemma upper4_dec F : {upper4 F} + {~ upper4 F}.
Proof. unfold upper4. repeat apply both_dec; try apply not_dec; apply Req_EM_T. Defined.
Definition back4 (F : mat) (v : vec) : vec :=
  let x3 := v 3%nat / F 3%nat 3%nat in
  let x2 := (v 2%nat - F 2%nat 3%nat * x3) / F 2%nat 2%nat in
  let x1 := (v 1%nat - F 1%nat 2%nat * x2 - F 1%nat 3%nat * x3) / F 1%nat 1%nat in
  let x0 := (v 0%nat - F 0%nat 1%nat * x1 - F 0%nat 2%nat * x2 - F 0%nat 3%nat * x3) / F 0%nat 0%nat in
  fun i => match i with 0%nat => x0 | 1%nat => x1 | 2%nat => x2 | _ => x3 end.
Definition solve4 (N : nat) (F : mat) (v : vec) : option vec :=
  match N with 4%nat => if upper4_dec F then Some (back4 F v) else None | _ => None end.
Lemma solve4_ok : solver_ok solve4.
Proof.
  intros N F v y H. unfold solve4 in H. destruct N as [|[|[|[|[|N]]]]]; try discriminate. destruct (upper4_dec F) as [U|]; [|discriminate]. injection H as <-.
  destruct U as (E10 & E20 & E21 & E30 & E31 & E32 & N0 & N1 & N2 & N3). split.
  - intros [|[|[|[|i]]]] Hi; try lia; unfold times, back4; cbn [total]; cbv zeta; rewrite ?E10, ?E20, ?E21, ?E30, ?E31, ?E32; field; auto.
  - intros z Hz. assert (H0 := Hz 0%nat ltac:(lia)). assert (H1 := Hz 1%nat ltac:(lia)). assert (H2 := Hz 2%nat ltac:(lia)). assert (H3 := Hz 3%nat ltac:(lia)).
    unfold times in H0, H1, H2, H3. cbn [total] in H0, H1, H2, H3. rewrite ?E10, ?E20, ?E21, ?E30, ?E31, ?E32 in *.
    assert (Z3 : z 3%nat = 0). { assert (P : F 3%nat 3%nat * z 3%nat = 0) by lra. apply Rmult_integral in P. tauto. }
    rewrite Z3 in *. assert (Z2 : z 2%nat = 0). { assert (P : F 2%nat 2%nat * z 2%nat = 0) by lra. apply Rmult_integral in P. tauto. }
    rewrite Z2 in *. assert (Z1 : z 1%nat = 0). { assert (P : F 1%nat 1%nat * z 1%nat = 0) by lra. apply Rmult_integral in P. tauto. }
    rewrite Z1 in *. assert (Z0 : z 0%nat = 0). { assert (P : F 0%nat 0%nat * z 0%nat = 0) by lra. apply Rmult_integral in P. tauto. }
    intros [|[|[|[|i]]]] Hi; try lia; assumption.
Qed.

(** [1,9] x + y = 3, [1,3] y = 4: the step from the formal solution of the centre
    changes the sign of an endpoint. *)
Definition st_A : imat := fun i j => match i, j with O, O => mkr 1 9 | O, _ => mkr 1 1 | _, O => mkr 0 0 | _, _ => mkr 1 3 end.
Definition st_b : ivec := fun i => match i with O => mkr 3 3 | _ => mkr 4 4 end.
Lemma pos_subgrad a c p q : 0 < a -> 0 < c -> 0 < p -> 0 < q -> calc_subgrad (mkr a c) (mkr p q) = mke a 0 0 c.
Proof.
  intros Ha Hc Hp Hq. unfold calc_subgrad.
  destruct (sd_k_cases (mkr a c)) as [(E1 & K)|[(_ & K)|[(_ & K)|(_ & K)]]]; cbn [rl rh] in K; try lra.
  destruct (sd_m_cases (mkr p q)) as [(E2 & K')|[(_ & K')|[(_ & K')|(_ & K')]]]; cbn [rl rh] in K'; try lra. now rewrite E1, E2.
Qed.
Lemma zero_subgrad p q : 0 < p -> 0 < q -> calc_subgrad (mkr 0 0) (mkr p q) = mke 0 0 0 0.
Proof.
  intros Hp Hq. unfold calc_subgrad.
  destruct (sd_k_cases (mkr 0 0)) as [(_ & K)|[(_ & K)|[(_ & K)|(E1 & K)]]]; cbn [rl rh] in K; try lra.
  destruct (sd_m_cases (mkr p q)) as [(E2 & K')|[(_ & K')|[(_ & K')|(_ & K')]]]; cbn [rl rh] in K'; try lra. now rewrite E1, E2.
Qed.
Lemma pos_mul a c p q : 0 <= a -> 0 <= c -> 0 <= p -> 0 <= q -> rk_mul (mkr a c) (mkr p q) = mkr (a * p) (c * q).
Proof.
  intros Ha Hc Hp Hq. destruct (rk_mul_eq (mkr a c) (mkr p q)) as [E1 E2]. destruct (rk_mul _ _) as [l h]. cbn [rl rh] in *. rewrite E1, E2. unfold klo, khi_.
  f_equal; rewrite ?(rpos_nn a), ?(rpos_nn c), ?(rpos_nn p), ?(rpos_nn q), ?(rneg_nn a), ?(rneg_nn c), ?(rneg_nn p), ?(rneg_nn q) by lra; rewrite !Rmult_0_l, ?Rmult_0_r;
  unfold Rmax; repeat destruct Rle_dec; nra.
Qed.
Lemma st_super : upper4 (super 2 st_A) /\ super 2 st_A 0%nat 0%nat = 5 /\ super 2 st_A 0%nat 1%nat = 1 /\ super 2 st_A 0%nat 2%nat = 0 /\ super 2 st_A 0%nat 3%nat = 0 /\ super 2 st_A 1%nat 1%nat = 2 /\ super 2 st_A 1%nat 2%nat = 0 /\ super 2 st_A 1%nat 3%nat = 0 /\
  super 2 st_A 2%nat 2%nat = 5 /\ super 2 st_A 2%nat 3%nat = 1 /\ super 2 st_A 3%nat 3%nat = 2.
Proof. unfold upper4, super, r_mid. cbn. repeat (match goal with |- context [Rle_dec ?a ?b] => destruct (Rle_dec a b); [|lra] end). repeat split; lra. Qed.
Definition st_x : vec := back4 (super 2 st_A) (flat 2 st_b).
Lemma st_x_is : st_x 0%nat = 1 / 5 /\ st_x 1%nat = 2 /\ st_x 2%nat = 1 / 5 /\ st_x 3%nat = 2.
Proof.
  destruct st_super as (_ & E00 & E01 & E02 & E03 & E11 & E12 & E13 & E22 & E23 & E33). unfold st_x, back4. cbv zeta.
  rewrite E00, E01, E02, E03, E11, E12, E13, E22, E23, E33. unfold flat, st_b. cbn. repeat split; field.
Qed.
Lemma st_box : unflat 2 st_x 0%nat = mkr (1 / 5) (1 / 5) /\ unflat 2 st_x 1%nat = mkr 2 2.
Proof. destruct st_x_is as (X0 & X1 & X2 & X3). unfold unflat. cbn [Nat.add]. now rewrite X0, X1, X2, X3. Qed.
Lemma st_F : let F := sd_F 2 st_A st_x in upper4 F /\ F 0%nat 0%nat = 1 /\ F 0%nat 1%nat = 1 /\ F 0%nat 2%nat = 0 /\ F 0%nat 3%nat = 0 /\ F 1%nat 1%nat = 1 /\ F 1%nat 2%nat = 0 /\ F 1%nat 3%nat = 0 /\
  F 2%nat 2%nat = 9 /\ F 2%nat 3%nat = 1 /\ F 3%nat 3%nat = 3.
Proof.
  destruct st_box as (B0 & B1). cbv zeta. unfold upper4, sd_F. cbn [Nat.ltb Nat.leb Nat.sub]. cbv zeta iota. rewrite B0, B1. cbn [st_A].
  rewrite !zero_subgrad by lra. rewrite !pos_subgrad by lra. cbn [e11 e12 e21 e22]. repeat split; lra.
Qed.
Lemma st_res : sd_res 2 st_A st_b st_x 0%nat = mkr (- 4 / 5) (4 / 5) /\ sd_res 2 st_A st_b st_x 1%nat = mkr (-2) 2.
Proof.
  destruct st_box as (B0 & B1). unfold sd_res. cbn [isum]. rewrite B0, B1. cbn [st_A st_b]. rewrite !pos_mul by lra.
  unfold r_add, rk_opp, r_point. cbn [rl rh]. split; f_equal; lra.
Qed.
Definition st_d : vec := back4 (sd_F 2 st_A st_x) (flat 2 (sd_res 2 st_A st_b st_x)).
Lemma st_d_is : st_d 0%nat = 6 / 5 /\ st_d 1%nat = -2 /\ st_d 2%nat = 2 / 135 /\ st_d 3%nat = 2 / 3.
Proof.
  destruct st_F as (_ & E00 & E01 & E02 & E03 & E11 & E12 & E13 & E22 & E23 & E33). destruct st_res as (R0 & R1). unfold st_d, back4. cbv zeta.
  rewrite E00, E01, E02, E03, E11, E12, E13, E22, E23, E33. unfold flat. cbn [Nat.ltb Nat.leb Nat.sub]. rewrite R0, R1. cbn [rl rh]. repeat split; field.
Qed.
Definition st_y : vec := fun r => st_x r - st_d r * 1.
Lemma st_y_is : st_y 0%nat = -1 /\ st_y 1%nat = 4 /\ st_y 2%nat = 5 / 27 /\ st_y 3%nat = 4 / 3.
Proof. destruct st_x_is as (X0 & X1 & X2 & X3). destruct st_d_is as (D0 & D1 & D2 & D3). unfold st_y. rewrite X0, X1, X2, X3, D0, D1, D2, D3. repeat split; field. Qed.
Lemma st_norm : norm1 2 st_y = 176 / 27.
Proof.
  destruct st_y_is as (Y0 & Y1 & Y2 & Y3). unfold norm1. cbn [Nat.mul Nat.add total]. rewrite Y0, Y1, Y2, Y3.
  rewrite (Rabs_left (-1)), (Rabs_right 4), (Rabs_right (5 / 27)), (Rabs_right (4 / 3)) by lra. field.
Qed.
Lemma st_run maxiter : (0 <= maxiter)%Z -> subdiff solve4 2 st_A st_b (1 / 2) 1 0 maxiter = Some (as_box 2 st_y).
Proof.
  intro Hm. unfold subdiff. change (solve4 (2 * 2) (super 2 st_A) (flat 2 st_b)) with (if upper4_dec (super 2 st_A) then Some st_x else None).
  destruct (upper4_dec (super 2 st_A)) as [_|N]; [|destruct (N (proj1 st_super))].
  replace (Z.to_nat (maxiter + 1)) with (S (Z.to_nat maxiter)) by lia. cbn [sd_loop].
  replace (sd_step solve4 2 st_A st_b 1 0 st_x) with (Some (st_y, 14 / 5, 176 / 27)).
  - destruct (Rlt_dec (1 / 2) (14 / 5 / (176 / 27))) as [L|_]; [lra|]. reflexivity.
  - unfold sd_step. change (solve4 (2 * 2) (sd_F 2 st_A st_x) (flat 2 (sd_res 2 st_A st_b st_x))) with (if upper4_dec (sd_F 2 st_A st_x) then Some st_d else None).
    destruct (upper4_dec (sd_F 2 st_A st_x)) as [_|N]; [|destruct (N (proj1 st_F))].
    cbv zeta. change (vsum (2 * 2) (fun r => Rabs (st_x r - st_d r * 1))) with (norm1 2 st_y).
    rewrite st_norm. destruct (Rle_dec (176 / 27) 0) as [L|_]; [lra|].
    assert (V : vsum 2 (fun i => r_mag (sd_res 2 st_A st_b st_x i)) = 14 / 5).
    { cbn [vsum]. destruct st_res as (-> & ->). unfold r_mag. cbn [rl rh]. rewrite (Rabs_left (- 4 / 5)), (Rabs_right (4 / 5)), (Rabs_left (-2)), (Rabs_right 2) by lra.
      rewrite !Rmax_left by lra. lra. }
    now rewrite V.
Qed.
Lemma st_misfit : misfit 2 st_A st_b (as_box 2 st_y) 8.
Proof.
  destruct st_y_is as (Y0 & Y1 & Y2 & Y3).
  assert (B0 : as_box 2 st_y 0%nat = mkr (-1) (5 / 27)) by (unfold as_box; cbn [Nat.add]; now rewrite Y0, Y2).
  assert (B1 : as_box 2 st_y 1%nat = mkr 4 (4 / 3)) by (unfold as_box; cbn [Nat.add]; now rewrite Y1, Y3).
  exists (kmv 2 st_A (as_box 2 st_y)). split; [intros i _; apply kmv_row|].
  assert (M : rk_mul (mkr 1 9) (mkr (-1) (5 / 27)) = mkr (-9) (5 / 3)).
  { destruct (rk_mul_eq (mkr 1 9) (mkr (-1) (5 / 27))) as [E1 E2]. destruct (rk_mul _ _) as [l h]. cbn [rl rh] in *. rewrite E1, E2. unfold klo, khi_.
    rewrite ?(rpos_nn 1), ?(rpos_nn 9), ?(rpos_nn (5 / 27)), ?(rneg_nn 1), ?(rneg_nn 9), ?(rneg_nn (5 / 27)), ?(rpos_np (-1)), ?(rneg_np (-1)) by lra.
    f_equal; unfold Rmax; repeat destruct Rle_dec; lra. }
  assert (M0 : rk_mul (mkr 0 0) (mkr (-1) (5 / 27)) = mkr 0 0).
  { destruct (rk_mul_eq (mkr 0 0) (mkr (-1) (5 / 27))) as [E1 E2]. destruct (rk_mul (mkr 0 0) (mkr (-1) (5 / 27))) as [l h]. cbn [rl rh] in E1, E2. rewrite E1, E2. unfold klo, khi_.
    rewrite ?(rpos_nn 0), ?(rneg_nn 0) by lra. f_equal; unfold Rmax; repeat destruct Rle_dec; lra. }
  cbn [total]. unfold kmv. cbn [isum]. rewrite B0, B1. cbn [st_A st_b]. rewrite M, M0, !pos_mul by lra. unfold r_add, r_point. cbn [rl rh].
  rewrite (Rabs_left (0 + -9 + 1 * 4 - 3)) by lra. rewrite (Rabs_pos_eq (0 + 5 / 3 + 1 * (4 / 3) - 3)) by lra. rewrite (Rabs_pos_eq (0 + 0 + 1 * 4 - 4)), (Rabs_pos_eq (0 + 0 + 3 * (4 / 3) - 4)) by lra.
  unfold Rmax. repeat destruct Rle_dec; lra.
Qed.
Theorem tolerance_x : proper_mat 2 2 st_A /\ (forall maxiter, (0 <= maxiter)%Z -> subdiff solve4 2 st_A st_b (1 / 2) 1 0 maxiter = Some (as_box 2 st_y)) /\
  misfit 2 st_A st_b (as_box 2 st_y) 8 /\ 1 / 2 < 8 / norm1 2 st_y.
Proof.
  split; [intros [|[|i]] [|[|j]] _ _; unfold proper; cbn; lra|]. split; [exact st_run|]. split; [exact st_misfit|]. rewrite st_norm. lra.
Qed.
