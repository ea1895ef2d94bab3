(** Concrete runs of the solvers: counterexamples and satisfiable cases. *)
From Coq Require Import ZArith Reals List Bool Arith Lia Lra Psatz Floats.SpecFloat.
From Flocq Require Import Core IEEE754.BinarySingleNaN.
From Verif Require Import Base PyNum Kernel Spec Expr XReal XArith KernelProofs ExprProofs KernelAlg KernelMore Witness Arrays Construct SpecArray ArrayProofs ArrayMore ArrayMat Solvers SolversProofs GSProofs.
Import ListNotations.
Open Scope R_scope.

Definition view_vec (r : res ivec) (i : nat) := view_itv (match r with Ok v => Ok (v i) | Err e => Err e end).
Lemma view_ivec (c : M ivec) m i k l h : view_vec (outcome c m) i = Some (k, l, h) ->
  exists Z, returns c m Z /\ kd (Z i) = k /\ xval (lo (Z i)) = xview l /\ xval (hi (Z i)) = xview h.
Proof.
  unfold returns, view_vec. destruct (outcome c m) as [Z|e]; simpl; [|discriminate]. intro H; inversion H; subst.
  exists Z. rewrite !xval_view. auto.
Qed.
Definition ipt (z : Z) : itv := mkitv Classical (PInt z) (PInt z).
Lemma ipt_good z : (Z.abs z <= 2 ^ 26)%Z -> good (ipt z) /\ member (ipt z) (IZR z).
Proof.
  intro H. assert (Hm : member (ipt z) (IZR z)) by (split; simpl; lra). split; [|exact Hm].
  split; [reflexivity|]. split; [split; exact H|right; eauto].
Qed.
Definition zmat (l : list (list Z)) (i j : nat) : Z := nth j (nth i l []) 0%Z.
Definition zvec (l : list Z) (i : nat) : Z := nth i l 0%Z.

(** [[1,1,0],[0,1,1],[1,0,2]] x = (2,2,3): the solution is (1,1,1); the first
    component returned is 1/2. *)
Definition g3 := zmat [[1; 1; 0]; [0; 1; 1]; [1; 0; 2]]%Z.
Definition g3b := zvec [2; 2; 3]%Z.
Lemma gauss_3_x : exists A b m Z (Mr : nat -> nat -> R) v x,
  (forall i l, (i < 3)%nat -> (l < 3)%nat -> good (A i l)) /\ (forall i, (i < 3)%nat -> good (b i)) /\ returns (gauss 3 A b) m Z /\
  (forall i l, (i < 3)%nat -> (l < 3)%nat -> member (A i l) (Mr i l)) /\ (forall i, (i < 3)%nat -> member (b i) (v i)) /\
  (forall i, (i < 3)%nat -> Rsum 3 (fun l => Mr i l * x l) = v i) /\ ~ member_or_nan (Z 0%nat) (x 0%nat).
Proof.
  destruct (view_ivec (gauss 3 (fun i l => ipt (g3 i l)) (fun i => ipt (g3b i))) mode_NE 0 Classical
     (inr (S754_finite false 4503599627370496 (-53))) (inr (S754_finite false 4503599627370496 (-53)))) as (Z & HZ & _ & Hl & Hh); [vm_compute; reflexivity|].
  exists (fun i l => ipt (g3 i l)), (fun i => ipt (g3b i)), mode_NE, Z, (fun i l => IZR (g3 i l)), (fun i => IZR (g3b i)), (fun _ => 1).
  assert (B1 : forall i l, (i < 3)%nat -> (l < 3)%nat -> good (ipt (g3 i l)) /\ member (ipt (g3 i l)) (IZR (g3 i l))).
  { intros i l Hi Hl'. apply ipt_good. destruct i as [|[|[|]]]; try lia; destruct l as [|[|[|]]]; try lia; vm_compute; discriminate. }
  assert (B2 : forall i, (i < 3)%nat -> good (ipt (g3b i)) /\ member (ipt (g3b i)) (IZR (g3b i))).
  { intros i Hi. apply ipt_good. destruct i as [|[|[|]]]; try lia; vm_compute; discriminate. }
  split; [intros; now apply B1|]. split; [intros; now apply B2|]. split; [exact HZ|]. split; [intros; now apply B1|]. split; [intros; now apply B2|].
  split; [intros i Hi; destruct i as [|[|[|]]]; try lia; cbn; lra|].
  intros [N|H].
  - apply nan_itv_x in N. destruct N as [N _]. rewrite Hl in N. discriminate.
  - rewrite member_x, Hl, Hh in H. simpl in H. revert H. feval. lra.
Qed.
(** x = [0,2000] with the default starting box [-1000,1000]. *)
Definition gs1 : ivec := fun _ => mkitv Classical (PInt 0) (PInt 2000).
Definition dist0 : nat -> ivec -> ivec -> pynum := fun _ _ _ => PInt 0.
Lemma gs_default_x : exists n A b C tol maxiter m Z (Mr : nat -> nat -> R) v x i, (0 < n)%nat /\
  (forall i l, (i < n)%nat -> (l < n)%nat -> good (A i l)) /\ (forall i, (i < n)%nat -> good (b i)) /\
  (forall i l, (i < n)%nat -> (l < n)%nat -> num_ok (C i l)) /\ is_nan_num tol = false /\ (0 <= maxiter)%Z /\
  returns (gauss_seidel dist0 n A b None C true tol maxiter) m Z /\
  (forall i l, (i < n)%nat -> (l < n)%nat -> member (A i l) (Mr i l)) /\ (forall i, (i < n)%nat -> member (b i) (v i)) /\
  (forall i, (i < n)%nat -> Rsum n (fun l => Mr i l * x l) = v i) /\ (i < n)%nat /\ ~ member_or_nan (Z i) (x i).
Proof.
  destruct (view_ivec (gauss_seidel dist0 1 (fun _ _ => ipt 1) gs1 None (fun _ _ => PInt 1) true (PInt 1) 5) mode_NE 0 Classical
     (inr (S754_zero false)) (inr (S754_finite false 8796093022208000 (-43)))) as (Z & HZ & _ & Hl & Hh); [vm_compute; reflexivity|].
  exists 1%nat, (fun _ _ => ipt 1), gs1, (fun _ _ => PInt 1), (PInt 1), 5%Z, mode_NE, Z, (fun _ _ => 1), (fun _ => 1500), (fun _ => 1500), 0%nat.
  assert (Mb : member (gs1 0%nat) 1500) by (split; simpl; lra).
  split; [lia|]. split; [intros; now apply ipt_good|]. split; [intros; split; [reflexivity|split; [split; simpl; lia|right; eexists; exact Mb]]|].
  split; [intros; split; [simpl; lia | exact I]|]. split; [reflexivity|]. split; [lia|]. split; [exact HZ|].
  split; [intros; split; simpl; lra|]. split; [intros; exact Mb|]. split; [intros; cbn; lra|]. split; [lia|].
  intros [N|H].
  - apply nan_itv_x in N. destruct N as [N _]. rewrite Hl in N. discriminate.
  - rewrite member_x, Hl, Hh in H. simpl in H. revert H. feval. lra.
Qed.
(** A negative iteration limit returns the zero vector. *)
Lemma gs_maxiter_x : exists n A b x0 C tol maxiter m Z (Mr : nat -> nat -> R) v x i, (0 < n)%nat /\
  (forall i l, (i < n)%nat -> (l < n)%nat -> good (A i l)) /\ (forall i, (i < n)%nat -> good (b i)) /\ (forall i, (i < n)%nat -> good (x0 i)) /\
  (forall i l, (i < n)%nat -> (l < n)%nat -> num_ok (C i l)) /\ is_nan_num tol = false /\
  returns (gauss_seidel dist0 n A b (Some x0) C true tol maxiter) m Z /\
  (forall i l, (i < n)%nat -> (l < n)%nat -> member (A i l) (Mr i l)) /\ (forall i, (i < n)%nat -> member (b i) (v i)) /\
  (forall i, (i < n)%nat -> Rsum n (fun l => Mr i l * x l) = v i) /\ (forall i, (i < n)%nat -> member (x0 i) (x i)) /\ (i < n)%nat /\ ~ member_or_nan (Z i) (x i).
Proof.
  destruct (view_ivec (gauss_seidel dist0 1 (fun _ _ => ipt 1) gs1 (Some gs1) (fun _ _ => PInt 1) true (PInt 1) (-1)) mode_NE 0 Classical
     (inr (S754_zero false)) (inr (S754_zero false))) as (Z & HZ & _ & Hl & Hh); [vm_compute; reflexivity|].
  exists 1%nat, (fun _ _ => ipt 1), gs1, gs1, (fun _ _ => PInt 1), (PInt 1), (-1)%Z, mode_NE, Z, (fun _ _ => 1), (fun _ => 1500), (fun _ => 1500), 0%nat.
  assert (Mb : member (gs1 0%nat) 1500) by (split; simpl; lra).
  assert (Gb : good (gs1 0%nat)) by (split; [reflexivity|split; [split; simpl; lia|right; eexists; exact Mb]]).
  split; [lia|]. split; [intros; now apply ipt_good|]. split; [intros; exact Gb|]. split; [intros; exact Gb|].
  split; [intros; split; [simpl; lia | exact I]|]. split; [reflexivity|]. split; [exact HZ|].
  split; [intros; split; simpl; lra|]. split; [intros; exact Mb|]. split; [intros; cbn; lra|]. split; [intros; exact Mb|]. split; [lia|].
  intros [N|H].
  - apply nan_itv_x in N. destruct N as [N _]. rewrite Hl in N. discriminate.
  - rewrite member_x, Hl, Hh in H. simpl in H. lra.
Qed.
(** Runs that return: Gauss on a 2x2 interval system, Gauss_Seidel on a 2x2
    interval system with a starting box. *)
Definition e2A : imat := fun i l => if (i =? l)%nat then mkitv Classical (PInt 2) (PInt 4) else mkitv Classical (PInt (-1)) (PInt 1).
Definition e2b : ivec := fun _ => mkitv Classical (PInt 1) (PInt 2).
Definition e2x : ivec := fun _ => mkitv Classical (PInt (-10)) (PInt 10).
Definition e2C : nat -> nat -> pynum := fun i l => if (i =? l)%nat then PFlt (fl 1 (-2)) else PInt 0.
Lemma e2_good : (forall i l, (i < 2)%nat -> (l < 2)%nat -> good (e2A i l)) /\ (forall i, (i < 2)%nat -> good (e2b i)) /\
  (forall i, (i < 2)%nat -> good (e2x i)) /\ (forall i l, (i < 2)%nat -> (l < 2)%nat -> num_ok (e2C i l)).
Proof.
  split; [|split; [|split]].
  - intros i l _ _. unfold e2A. destruct (i =? l)%nat; (split; [reflexivity|split; [split; simpl; lia|right]]); [exists 3 | exists 0]; split; simpl; lra.
  - intros i _. split; [reflexivity|split; [split; simpl; lia|right; exists 1; split; simpl; lra]].
  - intros i _. split; [reflexivity|split; [split; simpl; lia|right; exists 1; split; simpl; lra]].
  - intros i l _ _. unfold e2C. destruct (i =? l)%nat; split; try exact I; try reflexivity. simpl. lia.
Qed.
Lemma e2_runs : (exists Z, returns (gauss 2 e2A e2b) mode_NE Z /\ ~ nan_itv (Z 0%nat)) /\
  (exists Z, returns (gauss_seidel dist0 2 e2A e2b (Some e2x) e2C true (PInt 1) 3) mode_NE Z).
Proof.
  split.
  - destruct (outcome (gauss 2 e2A e2b) mode_NE) as [Z|e] eqn:E.
    + exists Z. split; [exact E|]. intros [N _].
      assert (V : match outcome (gauss 2 e2A e2b) mode_NE with Ok v => is_nan_num (lo (v 0%nat)) = false | Err _ => False end) by (vm_compute; reflexivity).
      rewrite E in V. congruence.
    + exfalso. assert (V : match outcome (gauss 2 e2A e2b) mode_NE with Ok v => True | Err _ => False end) by (vm_compute; exact I). now rewrite E in V.
  - destruct (outcome (gauss_seidel dist0 2 e2A e2b (Some e2x) e2C true (PInt 1) 3) mode_NE) as [Z|e] eqn:E; [exists Z; exact E|].
    exfalso. assert (V : match outcome (gauss_seidel dist0 2 e2A e2b (Some e2x) e2C true (PInt 1) 3) mode_NE with Ok v => True | Err _ => False end) by (vm_compute; exact I). now rewrite E in V.
Qed.
