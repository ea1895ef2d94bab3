(** A row for the search directions: [-1, 1] and [1, 3], the right-hand side [-1, 3], the point (1, -1). *)
From Coq Require Import ZArith Reals List Bool Arith Lia Lra.
From Flocq Require Import Core IEEE754.BinarySingleNaN.
From Verif Require Import Base PyNum Kernel Spec Expr Arrays Construct SpecArray XReal XArith ExprProofs Witness HbrFl Exact UssFl RecogFl RecogOpt SpecRecogOpt IspaeFlCase SpecRecogGrad.
Import ListNotations.
Open Scope R_scope.

Definition r_l (k : nat) : flt := match k with O => neg1 | _ => f1 end.
Definition r_u (k : nat) : flt := match k with O => f1 | _ => three end.
Definition r_A : aitv := array_interval (mkarr [1%nat; 2%nat] [mkitv Classical (PFlt neg1) (PFlt f1); mkitv Classical (PFlt f1) (PFlt three)]).
Definition r_b : aitv := array_interval (mkarr [1%nat] [mkitv Classical (PFlt neg1) (PFlt three)]).
Definition r_x : list flt := [f1; neg1].
Lemma r_point : Forall (fun f => is_finite f = true) r_x.
Proof. repeat (constructor; [vm_compute; reflexivity|]). constructor. Qed.
Lemma below_1000 r : Rabs r <= 100 -> r <= bpow radix2 1000 /\ Rabs r <= bpow radix2 1000.
Proof.
  intro H. assert (B := small_bulk 1 ltac:(split; [lra|]; change 1 with (bpow radix2 0); apply bpow_le; lia)). assert (B2 : bpow radix2 960 <= bpow radix2 1000) by (apply bpow_le; lia). assert (Q := Rle_abs r). lra.
Qed.
Lemma r_row k : (k < length r_x)%nat -> aget (adat r_A) [0%nat; k] = Some (mkitv Classical (PFlt (r_l k)) (PFlt (r_u k))) /\ is_finite (r_l k) = true /\ is_finite (r_u k) = true /\ B2R (r_l k) <= B2R (r_u k) /\
  Rabs (B2R f1 * B2R (r_l k)) <= bpow radix2 1000 /\ Rabs (B2R f1 * B2R (r_u k)) <= bpow radix2 1000.
Proof.
  intro Hk. cbn [r_x length] in Hk. assert (K : k = 0%nat \/ k = 1%nat) by lia.
  destruct K as [-> | ->]; (split; [reflexivity|]; cbn [r_l r_u]; split; [vm_compute; reflexivity|]; split; [vm_compute; reflexivity|]); rewrite ?neg1_val, ?one_val, ?three_val;
    (split; [lra|]; split; apply below_1000; apply Rabs_le; lra).
Qed.
Definition parts_run : bool := match fst (calc_parts seq_dot r_A r_b (point r_x) mode_NE) with Ok _ => true | Err _ => false end.
Lemma r_parts : exists i s q, returns (calc_parts seq_dot r_A r_b (point r_x)) mode_NE (i, s, q).
Proof. assert (H : parts_run = true) by (vm_compute; reflexivity). unfold parts_run in H. unfold returns, outcome. destruct (fst (calc_parts seq_dot r_A r_b (point r_x) mode_NE)) as [[[i s] q]|]; [|discriminate H]. now exists i, s, q. Qed.
Definition doubles_run (f : aitv -> M (arr pynum)) (a : aitv) (t : arr flt -> bool) : bool :=
  match fst (f a mode_NE) with Ok v => match fst (f_of v mode_NE) with Ok d => t d | Err _ => false end | Err _ => false end.
Lemma doubles_ran f a t : doubles_run f a t = true -> exists v d, (returns (f a) mode_NE v /\ returns (f_of v) mode_NE d) /\ t d = true.
Proof.
  unfold doubles_run, returns, outcome. destruct (fst (f a mode_NE)) as [v|] eqn:E; [|discriminate]. destruct (fst (f_of v mode_NE)) as [d|] eqn:E2; [|discriminate]. intro H. exists v, d. auto.
Qed.
Definition upto3 (a : flt) : bool := flt_leb (fneg three) a && flt_leb a three.
Lemma upto3_ok a : upto3 a = true -> is_finite a = true /\ Rabs (B2R a) <= 3.
Proof.
  intro H. apply andb_prop in H. destruct H as [H1 H2]. assert (F3 : is_finite three = true) by (vm_compute; reflexivity). rewrite flt_leb_x in H1, H2. rewrite xflt_neg in H1. rewrite (proj1 (is_finite_x three) F3), three_val in H1, H2.
  destruct a as [s|[|]| |s mm e Ha]; try discriminate. 1: split; [reflexivity | cbn; rewrite Rabs_R0; lra].
  set (a := B754_finite s mm e Ha) in *. assert (F : is_finite a = true) by reflexivity. split; [exact F|]. rewrite (proj1 (is_finite_x a) F) in H1, H2. cbn [xopp] in H1. apply xleb_fin in H1. apply xleb_fin in H2. apply Rabs_le. lra.
Qed.
Definition t_of (C c : arr flt) : flt := fsub mode_NE (f_get c [0%nat]) (f_row seq_dot (length r_x) (fun l => f_get C [0%nat; l]) (fun l => nth l r_x f0)).
Definition uss_run : bool := doubles_run arr_mid r_A (fun C => doubles_run arr_rad r_A (fun G => doubles_run arr_mid r_b (fun c =>
  upto3 (t_of C c) && (upto3 (f_get C [0%nat; 0%nat]) && upto3 (f_get C [0%nat; 1%nat])) && (upto3 (f_get G [0%nat; 0%nat]) && upto3 (f_get G [0%nat; 1%nat]))))).
Lemma r_uss : exists C0 G0 c0 C G c, (returns (arr_mid r_A) mode_NE C0 /\ returns (f_of C0) mode_NE C) /\ (returns (arr_rad r_A) mode_NE G0 /\ returns (f_of G0) mode_NE G) /\ (returns (arr_mid r_b) mode_NE c0 /\ returns (f_of c0) mode_NE c) /\
  is_finite (t_of C c) = true /\ forall k, (k < length r_x)%nat -> is_finite (f_get C [0%nat; k]) = true /\ is_finite (f_get G [0%nat; k]) = true /\
    Rabs (B2R (f_get G [0%nat; k])) + Rabs (B2R (f_get C [0%nat; k])) <= bpow radix2 1000 /\ Rabs (B2R f1) * (Rabs (B2R (f_get G [0%nat; k])) + Rabs (B2R (f_get C [0%nat; k]))) <= bpow radix2 1000.
Proof.
  assert (H : uss_run = true) by (vm_compute; reflexivity). unfold uss_run in H. apply doubles_ran in H. destruct H as (C0 & C & HC & H). apply doubles_ran in H. destruct H as (G0 & G & HG & H). apply doubles_ran in H. destruct H as (c0 & c & Hc & H).
  apply andb_prop in H. destruct H as [H H2]. apply andb_prop in H. destruct H as [H0 H1]. apply andb_prop in H1. apply andb_prop in H2.
  exists C0, G0, c0, C, G, c. split; [exact HC|]. split; [exact HG|]. split; [exact Hc|]. split; [apply (upto3_ok _ H0)|].
  assert (L : forall k, (k < length r_x)%nat -> upto3 (f_get C [0%nat; k]) = true /\ upto3 (f_get G [0%nat; k]) = true).
  { intros k Hk. cbn [r_x length] in Hk. assert (K : k = 0%nat \/ k = 1%nat) by lia. destruct K as [-> | ->]; split; (apply H1 || apply H2). }
  intros k Hk. destruct (L k Hk) as [LC LG]. apply upto3_ok in LC. apply upto3_ok in LG. split; [apply LC|]. split; [apply LG|]. rewrite one_val, Rabs_R1, Rmult_1_l.
  assert (Q : Rabs (Rabs (B2R (f_get G [0%nat; k])) + Rabs (B2R (f_get C [0%nat; k]))) <= 100) by (assert (Q1 := Rabs_pos (B2R (f_get G [0%nat; k]))); assert (Q2 := Rabs_pos (B2R (f_get C [0%nat; k]))); rewrite Rabs_right; lra).
  split; apply (below_1000 _ Q).
Qed.
