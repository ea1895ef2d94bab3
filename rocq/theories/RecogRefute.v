(** Counterexamples for the recognizing functionals and the linear constraint. *)
From Coq Require Import ZArith Reals List Arith Lia Lra Psatz Bool.
From Coq Require Import Floats.SpecFloat.
From Flocq Require Import Core IEEE754.BinarySingleNaN.
From Verif Require Import Base PyNum Kernel Spec XReal Witness.
From Verif Require Import Exact Recog SpecExact ExactProofs RecogProofs RecogMore.
Import ListNotations.
Open Scope R_scope.

Definition cA : imat := fun _ _ => mkr 0 10.
Definition cb : ivec := fun _ => mkr 4 6.
Definition cx : vec := fun _ => 1.
Ltac cases1 := repeat match goal with |- context [Rle_dec ?a ?b] => destruct (Rle_dec a b); try lra end.
Lemma c_imv y : 0 <= y -> imv 1 cA (fun _ => y) 0%nat = mkr 0 (10 * y).
Proof.
  intro Y. unfold imv. simpl. unfold r_scale, r_add; simpl. rewrite Rmin_left, Rmax_right by nra. f_equal; ring.
Qed.
Lemma c_mig y : 1/2 <= y -> r_mig (r_csub 5 (mkr 0 (10 * y))) = 0.
Proof. intro Y. unfold r_mig. assert (has0 (r_csub 5 (mkr 0 (10 * y))) = true) as -> by (apply has0_iff; simpl; lra). reflexivity. Qed.
Lemma c_uni y : 1/2 <= y -> uni_value 0%nat 1%nat cA cb (fun _ => y) ones = 1.
Proof.
  intro Y. unfold uni_value, vmin, uni_constituent, ones. rewrite c_imv by lra. unfold r_rad, r_mid; simpl.
  replace (/ 2 * (6 + 4)) with 5 by lra. rewrite c_mig by lra. lra.
Qed.
Lemma c_grad : snd (uni_fg 0%nat 1%nat cA cb ones cx) 0%nat = -10.
Proof.
  unfold uni_fg, uni_calcfg. cbv zeta. simpl. unfold cf_infs, cf_sups, mv, mids, rads, vabs, r_mid, r_rad; simpl. unfold cx.
  rewrite Rabs_R1. destruct Rle_dec; [|lra]. unfold pick, sups_of, ones; simpl. destruct Rle_dec; lra.
Qed.
Lemma uni_grad_x : exists k n A b x y, proper_mat (S k) n A /\ proper_vec (S k) b /\ same_orthant n x y /\
  - uni_value k n A b y ones < - uni_value k n A b x ones + dot n (snd (uni_fg k n A b ones x)) (minus y x).
Proof.
  exists 0%nat, 1%nat, cA, cb, cx, (fun _ => 1/2). split; [intros i j _ _; unfold proper; simpl; lra|]. split; [intros i _; unfold proper; simpl; lra|].
  split; [intros j _; unfold cx; split; lra|].
  unfold dot, total. rewrite c_grad. unfold minus. unfold cx at 1. rewrite !c_uni by lra. unfold cx. lra.
Qed.

(** A zero row, and so an unsatisfiable constraint 0 <= -1, is dropped. *)
Definition zC : mat := fun i _ => match i with O => 1 | _ => 0 end.
Definition zub : nat -> bound := fun i => match i with O => BFin 5 | _ => BFin (-1) end.
Lemma zero_row_x : exists r n C ub rows x, linear_constraint r n C None (Some ub) = Some rows /\
  fst (linear_penalty n 1 rows x) = 0 /\ exists k v, (k < r)%nat /\ ub k = BFin v /\ v < times n C x k.
Proof.
  exists 2%nat, 1%nat, zC, zub, [(zC 0%nat, 5)], (fun _ => 0). split; [|split].
  - unfold linear_constraint, lc_rows, lc_upper. simpl. unfold row_any. simpl. destruct Req_EM_T; [lra|]. simpl. destruct Req_EM_T; [|lra]. reflexivity.
  - unfold linear_penalty. simpl. unfold penalty_row. simpl. destruct Rlt_dec; simpl; lra.
  - exists 1%nat, (-1). split; [lia|]. split; [reflexivity|]. unfold times; simpl. lra.
Qed.
Lemma lc_fails r n C lb ub :
  (forall f k, lb = Some f -> (k < r)%nat -> (exists j, (j < n)%nat /\ C k j <> 0) -> f k = BInf) ->
  (forall f k, ub = Some f -> (k < r)%nat -> (exists j, (j < n)%nat /\ C k j <> 0) -> f k = BInf) ->
  linear_constraint r n C lb ub = None.
Proof.
  intros H1 H2. unfold linear_constraint. replace (lc_rows r n C lb ub) with (@nil (vec * R)); [reflexivity|].
  unfold lc_rows. assert (E : forall (f : nat -> bound) g, (forall k, (k < r)%nat -> (exists j, (j < n)%nat /\ C k j <> 0) -> f k = BInf) ->
     flat_map (fun k => match f k with BFin v => if row_any n (C k) then [g k v] else [] | BInf => [] end) (seq 0 r) = @nil (vec * R)).
  { intros f g H. assert (forall l, (forall k, In k l -> (k < r)%nat) -> flat_map (fun k => match f k with BFin v => if row_any n (C k) then [g k v] else [] | BInf => [] end) l = @nil (vec * R)) as Q.
    { induction l as [|k l IH]; intro L; [reflexivity|]. simpl. rewrite IH by (intros; apply L; right; assumption).
      destruct (f k) eqn:Ef; [|reflexivity]. destruct row_any eqn:N; [|reflexivity]. apply row_any_iff in N.
      rewrite H in Ef; [discriminate | apply L; left; reflexivity | assumption]. }
    apply Q. intros k Hk. apply in_seq in Hk. lia. }
  assert (EL : forall f, lb = Some f -> lc_lower r n C f = []).
  { intros f Ef. exact (E f (fun k v => ((fun j => - C k j), - v)) (fun k => H1 f k Ef)). }
  assert (EU : forall f, ub = Some f -> lc_upper r n C f = []).
  { intros f Ef. exact (E f (fun k v => (C k, v)) (fun k => H2 f k Ef)). }
  destruct lb as [f|], ub as [g|]; rewrite ?EL, ?EU by reflexivity; reflexivity.
Qed.
