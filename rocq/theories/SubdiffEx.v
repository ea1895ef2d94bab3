(** A concrete run of Subdiff with one unknown and a solver for two equations. *)
From Coq Require Import Reals List Arith Bool ZArith Lia Lra Psatz FunctionalExtensionality.
From Verif Require Import Exact SpecExact ExactProofs Spec KaucherProofs Subdiff SpecSubdiff SubdiffProofs.
Import ListNotations.
Open Scope R_scope.

(** Cramer's rule for two unknowns; no answer otherwise. *)
Definition solve2 (N : nat) (F : mat) (v : vec) : option vec :=
  match N with
  | 2%nat =>
      let d := F 0%nat 0%nat * F 1%nat 1%nat - F 0%nat 1%nat * F 1%nat 0%nat in
      if Req_EM_T d 0 then None
      else Some (fun i => match i with O => (v 0%nat * F 1%nat 1%nat - F 0%nat 1%nat * v 1%nat) / d | _ => (F 0%nat 0%nat * v 1%nat - v 0%nat * F 1%nat 0%nat) / d end)
  | _ => None
  end.
Lemma solve2_ok : solver_ok solve2.
Proof.
  intros N F v y H. unfold solve2 in H. destruct N as [|[|[|N]]]; try discriminate. destruct (Req_EM_T _ 0) as [|D]; [discriminate|]. injection H as <-. split.
  - intros [|[|i]] Hi; try lia; unfold times; cbn [total]; field; exact D.
  - intros z Hz. assert (H0 := Hz 0%nat ltac:(lia)). assert (H1 := Hz 1%nat ltac:(lia)). unfold times in H0, H1. cbn [total] in H0, H1.
    set (a := F 0%nat 0%nat) in *. set (b := F 0%nat 1%nat) in *. set (c := F 1%nat 0%nat) in *. set (d := F 1%nat 1%nat) in *.
    assert (Z0 : (a * d - b * c) * z 0%nat = 0) by (replace ((a * d - b * c) * z 0%nat) with (d * (0 + a * z 0%nat + b * z 1%nat) - b * (0 + c * z 0%nat + d * z 1%nat)) by ring; rewrite H0, H1; ring).
    assert (Z1 : (a * d - b * c) * z 1%nat = 0) by (replace ((a * d - b * c) * z 1%nat) with (a * (0 + c * z 0%nat + d * z 1%nat) - c * (0 + a * z 0%nat + b * z 1%nat)) by ring; rewrite H0, H1; ring).
    intros [|[|i]] Hi; try lia; [apply Rmult_integral in Z0 | apply Rmult_integral in Z1]; tauto.
Qed.
Definition sx_A : imat := fun _ _ => mkr 1 2.
Definition sx_b : ivec := fun _ => mkr 2 6.
Definition v2 (p q : R) : vec := fun i => match i with O => p | _ => q end.
(** [1,2] * [2,3] = [2,6] *)
Lemma sx_mul p q : 0 < p -> 0 < q -> rk_mul (mkr 1 2) (mkr p q) = mkr p (2 * q).
Proof.
  intros Hp Hq. destruct (rk_mul_eq (mkr 1 2) (mkr p q)) as [E1 E2]. destruct (rk_mul _ _) as [l h]. cbn [rl rh] in *. rewrite E1, E2. unfold klo, khi_. 
  f_equal; rewrite ?(rpos_nn 1), ?(rpos_nn 2), ?(rpos_nn p), ?(rpos_nn q), ?(rneg_nn 1), ?(rneg_nn 2), ?(rneg_nn p), ?(rneg_nn q) by lra; mm.
Qed.
Lemma sx_subgrad p q : 0 < p -> 0 < q -> calc_subgrad (mkr 1 2) (mkr p q) = mke 1 0 0 2.
Proof.
  intros Hp Hq. unfold calc_subgrad.
  destruct (sd_k_cases (mkr 1 2)) as [(E1 & K)|[(_ & K)|[(_ & K)|(_ & K)]]]; cbn [rl rh] in K; try lra.
  destruct (sd_m_cases (mkr p q)) as [(E2 & K')|[(_ & K')|[(_ & K')|(_ & K')]]]; cbn [rl rh] in K'; try lra. now rewrite E1, E2.
Qed.
Lemma sx_step p q : 0 < p -> 0 < q -> exists y r s, sd_step solve2 1 sx_A sx_b 1 0 (v2 p q) = Some (y, r, s) /\ y 0%nat = 2 /\ y 1%nat = 3 /\
  r = Rmax (Rabs (p - 2)) (Rabs (2 * q - 6)) /\ s = 5.
Proof.
  intros Hp Hq. unfold sd_step, solve2. cbn [Nat.mul Nat.add].
  assert (U : unflat 1 (v2 p q) 0%nat = mkr p q) by reflexivity.
  assert (F00 : sd_F 1 sx_A (v2 p q) 0%nat 0%nat = 1) by (unfold sd_F, sx_A; cbv zeta; cbn [Nat.ltb Nat.leb Nat.sub]; rewrite U, sx_subgrad by assumption; reflexivity).
  assert (F01 : sd_F 1 sx_A (v2 p q) 0%nat 1%nat = 0) by (unfold sd_F, sx_A; cbv zeta; cbn [Nat.ltb Nat.leb Nat.sub]; rewrite U, sx_subgrad by assumption; reflexivity).
  assert (F10 : sd_F 1 sx_A (v2 p q) 1%nat 0%nat = 0) by (unfold sd_F, sx_A; cbv zeta; cbn [Nat.ltb Nat.leb Nat.sub]; rewrite U, sx_subgrad by assumption; reflexivity).
  assert (F11 : sd_F 1 sx_A (v2 p q) 1%nat 1%nat = 2) by (unfold sd_F, sx_A; cbv zeta; cbn [Nat.ltb Nat.leb Nat.sub]; rewrite U, sx_subgrad by assumption; reflexivity).
  assert (Rs : sd_res 1 sx_A sx_b (v2 p q) 0%nat = mkr (p - 2) (2 * q - 6)).
  { unfold sd_res, sx_A, sx_b. cbn [isum]. rewrite U, sx_mul by assumption. unfold r_add, r_point, rk_opp; cbn [rl rh]. f_equal; ring. }
  rewrite F00, F01, F10, F11. destruct (Req_EM_T (1 * 2 - 0 * 0) 0) as [E|_]; [lra|]. eexists _, _, _. split; [reflexivity|]. unfold flat. cbn [Nat.ltb Nat.leb Nat.sub vsum]. rewrite Rs. cbn [rl rh v2]. unfold r_mag; cbn [rl rh].
  split; [field|]. split; [field|]. split; [ring|].
  replace (p - ((p - 2) * 2 - 0 * (2 * q - 6)) / (1 * 2 - 0 * 0) * 1) with 2 by field. replace (q - (1 * (2 * q - 6) - (p - 2) * 0) / (1 * 2 - 0 * 0) * 1) with 3 by field.
  rewrite !Rabs_right by lra. destruct Rle_dec; lra.
Qed.
Lemma vec_ext2 (y : vec) : y 0%nat = 2 -> y 1%nat = 3 -> forall k, (k < 2)%nat -> y k = v2 2 3 k.
Proof. intros H0 H1 [|[|k]] Hk; try lia; assumption. Qed.
(** Two passes reach the formal solution [2,3]. *)
Theorem subdiff_case : exists X, subdiff solve2 1 sx_A sx_b 0 1 0 0 = Some X /\ X 0%nat = mkr 2 3 /\ formal_solution 1 sx_A sx_b X.
Proof.
  unfold subdiff, solve2. cbn [Nat.mul Nat.add].
  assert (S00 : super 1 sx_A 0%nat 0%nat = 3 / 2) by (unfold super, sx_A, r_mid; cbn; destruct Rle_dec; lra).
  assert (S01 : super 1 sx_A 0%nat 1%nat = 0) by (unfold super, sx_A, r_mid; cbn; destruct Rle_dec; lra).
  assert (S10 : super 1 sx_A 1%nat 0%nat = 0) by (unfold super, sx_A, r_mid; cbn; destruct Rle_dec; lra).
  assert (S11 : super 1 sx_A 1%nat 1%nat = 3 / 2) by (unfold super, sx_A, r_mid; cbn; destruct Rle_dec; lra).
  rewrite S00, S01, S10, S11. destruct (Req_EM_T _ 0) as [E|_]; [lra|]. fold solve2. change (Z.to_nat (0 + 1)) with 1%nat. cbn [sd_loop].
  match goal with |- context [sd_step _ _ _ _ _ _ ?x] => assert (X0 : x = v2 (4 / 3) 4) end.
  { apply functional_extensionality. intros [|k]; cbn; field. }
  rewrite X0. destruct (sx_step (4 / 3) 4 ltac:(lra) ltac:(lra)) as (y & r & s & -> & Y0 & Y1 & _ & _).
  assert (F : formal_solution 1 sx_A sx_b (unflat 1 y)).
  { intros [|i] Hi; [|lia]. apply kaucher_row_eq. unfold kmv. cbn [isum]. unfold sx_A, unflat. cbn [Nat.add]. rewrite Y0, Y1, sx_mul by lra. unfold r_add, r_point, sx_b; cbn [rl rh]. f_equal; lra. }
  assert (X1 : unflat 1 y 0%nat = mkr 2 3) by (unfold unflat; cbn [Nat.add]; now rewrite Y0, Y1).
  destruct (Rlt_dec 0 (r / s)); exists (unflat 1 y); auto.
Qed.
