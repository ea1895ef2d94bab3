(** Consequences for the maximize methods and concrete runs. *)
From Coq Require Import ZArith List Bool Arith Lia Reals Lra.
From Flocq Require Import IEEE754.BinarySingleNaN.
From Verif Require Import PyNum XReal XArith Exact Recog SpecExact ExactProofs RecogProofs Ralgb5 RalgbProofs.
Import ListNotations.

(** the statement without the proof's abbreviations *)
Lemma ralgb5_best (OP : ops) (P : params OP) calcfg m x0 r t : ralgb5 OP P calcfg m x0 = (r, t) ->
  In (r_x _ r) t /\ r_f _ r = fst (calcfg (r_x _ r)) /\ In x0 t /\ r_ncalls _ r = length t.
Proof. intro E. assert (S := ralgb5_spec OP P calcfg m x0). cbv zeta in S. rewrite E in S. destruct S as (((A1 & A2) & B & _) & _ & _ & _ & _ & _ & C). auto. Qed.
Lemma ralgb5_no_better (OP : ops) (P : params OP) calcfg m x0 r t :
  (forall a, n_lt OP a a = false) -> (forall a b c, n_lt OP a b = true -> n_lt OP c b = false -> n_lt OP c a = false) ->
  ralgb5 OP P calcfg m x0 = (r, t) -> forall y, In y t -> n_lt OP (fst (calcfg y)) (r_f _ r) = false.
Proof. intros I T E. assert (S := ralgb5_spec OP P calcfg m x0). cbv zeta in S. rewrite E in S. destruct S as ((_ & _ & A) & _). exact (A (conj I T)). Qed.
Lemma ralgb5_counts (OP : ops) (P : params OP) calcfg m x0 r t : ralgb5 OP P calcfg m x0 = (r, t) ->
  In (r_code _ r) [1; 2; 3; 4; 5]%nat /\
  (r_code _ r = 2%nat -> exists y, In y t /\ n_lt OP (v_norm OP (snd (calcfg y))) (tolg _ P) = true) /\
  (r_code _ r = 4%nat -> (Z.of_nat (r_nit _ r) > maxiter _ P)%Z) /\
  (Z.of_nat (r_nit _ r) <= Z.max 0 (maxiter _ P + 1))%Z /\
  (r_ncalls _ r <= 1 + (r_nit _ r + 1) * 501)%nat.
Proof.
  intro E. assert (S := ralgb5_spec OP P calcfg m x0). cbv zeta in S. rewrite E in S. cbn [fst snd] in S.
  destruct S as ((_ & N & _) & A & B & C & D & H & _). cbn [fst snd] in N. rewrite N. auto.
Qed.

Open Scope R_scope.
Lemma real_order n big : (forall a, n_lt (real_ops n big) a a = false) /\
  (forall a b c, n_lt (real_ops n big) a b = true -> n_lt (real_ops n big) c b = false -> n_lt (real_ops n big) c a = false).
Proof.
  cbn [n_lt real_ops real_ops_with]. split.
  - intro a. destruct Rlt_dec as [H|]; [|reflexivity]. exfalso. lra.
  - intros a b c H1 H2. destruct (Rlt_dec a b); [|discriminate]. destruct (Rlt_dec c b); [discriminate|]. destruct (Rlt_dec c a) as [H|]; [exfalso; lra|reflexivity].
Qed.
Lemma tol_maximize_spec k n big P A b w x0 x v : proper_mat (S k) n A -> tol_maximize k n big P A b w x0 = (x, v) ->
  v = tol_value k n A b x w /\ tol_value k n A b x0 w <= v.
Proof.
  intros PM E. unfold tol_maximize in E. destruct (ralgb5 (real_ops n big) P (tol_fg k n A b w) n x0) as [r t] eqn:R.
  cbn [fst] in E. assert (Ex : x = r_x _ r) by congruence. assert (Ev : v = - r_f _ r) by congruence. clear E.
  destruct (ralgb5_best _ _ _ _ _ _ _ R) as (_ & F & I & _). destruct (real_order n big) as [O1 O2].
  assert (B := ralgb5_no_better _ _ _ _ _ _ _ O1 O2 R x0 I). cbn [n_lt real_ops real_ops_with] in B. rewrite tol_fg_value in F, B by assumption.
  rewrite Ev, Ex, F. split; [ring|]. destruct Rlt_dec as [|N]; [discriminate|]. rewrite F in N. lra.
Qed.
Lemma tol_maximize_sound k n big P A b w x0 x v : proper_mat (S k) n A -> positive (S k) w -> tol_maximize k n big P A b w x0 = (x, v) ->
  (0 <= v <-> tolerable (S k) n A b x) /\ (tolerable (S k) n A b x0 -> tolerable (S k) n A b x).
Proof.
  intros PM W E. destruct (tol_maximize_spec _ _ _ _ _ _ _ _ _ _ PM E) as [V L]. subst v. split.
  - apply tol_recognizes; assumption.
  - intro T. apply (tol_recognizes k n A b x w PM W). apply (tol_recognizes k n A b x0 w PM W) in T. lra.
Qed.
Lemma uni_maximize_sound k n big P A b w x0 x v : proper_mat (S k) n A -> positive (S k) w -> uni_maximize k n big P A b w x0 = (x, v) ->
  v = uni_value k n A b x w /\ uni_value k n A b x0 w <= v /\ (0 <= v <-> united (S k) n A b x).
Proof.
  intros PM W E. unfold uni_maximize in E. destruct (ralgb5 (real_ops n big) P (uni_fg k n A b w) n x0) as [r t] eqn:R.
  cbn [fst] in E. assert (Ex : x = r_x _ r) by congruence. assert (Ev : v = - r_f _ r) by congruence. clear E.
  destruct (ralgb5_best _ _ _ _ _ _ _ R) as (_ & F & I & _). destruct (real_order n big) as [O1 O2].
  assert (B := ralgb5_no_better _ _ _ _ _ _ _ O1 O2 R x0 I). cbn [n_lt real_ops real_ops_with] in B. rewrite uni_fg_value in F, B by assumption.
  assert (V : v = uni_value k n A b x w) by (rewrite Ev, Ex, F; ring). split; [exact V|]. split.
  - rewrite Ev, F. destruct Rlt_dec as [|N]; [discriminate|]. rewrite F in N. lra.
  - rewrite V. apply uni_recognizes; assumption.
Qed.

(** binary64 comparison, NaN included, meets the two conditions *)
Lemma flt_order : (forall a, n_lt flt_ops a a = false) /\
  (forall a b c, n_lt flt_ops a b = true -> n_lt flt_ops c b = false -> n_lt flt_ops c a = false).
Proof.
  cbn [n_lt flt_ops]. split.
  - intro a. rewrite flt_ltb_x. destruct (xltb (xflt a) (xflt a)) eqn:E; [|reflexivity]. destruct (xflt a); try discriminate. apply xltb_fin in E. exfalso. lra.
  - intros a b c. rewrite !flt_ltb_x. intros H1 H2. destruct (xltb (xflt c) (xflt a)) eqn:H3; [|reflexivity].
    destruct (xflt a), (xflt b), (xflt c); try discriminate; repeat match goal with H : xltb (XFin _) (XFin _) = true |- _ => apply xltb_fin in H end; try lra.
    assert (xltb (XFin r1) (XFin r0) = true) by (apply xltb_fin; lra). congruence.
Qed.
(** A run on f(x) = |x| from 1 with step 2 and maxiter = 0: one full iteration, nit = 1. *)
Definition abs_fg (x : list flt) : flt * list flt := (fabs (nth 0 x f0), [if flt_ltb (nth 0 x f0) f0 then fl (-1) 0 else f1]).
Definition abs_params : params flt_ops := mkparams flt_ops fhalf fhalf fhalf 0%Z (fl 2 0) 1 (fl 2 0) 3 f1 f1.
Lemma abs_run : let r := fst (ralgb5 flt_ops abs_params abs_fg 1 [f1]) in (r_nit _ r, r_code _ r, r_ncalls _ r) = (1, 4, 2)%nat.
Proof. vm_compute. reflexivity. Qed.
Lemma nit_x : exists OP P calcfg m x0, (0 <= maxiter OP P)%Z /\ (Z.of_nat (r_nit _ (fst (ralgb5 OP P calcfg m x0))) > maxiter OP P)%Z.
Proof.
  exists flt_ops, abs_params, abs_fg, 1%nat, [f1]. split; [cbn [maxiter abs_params]; lia|].
  assert (R := abs_run). cbv zeta in R. assert (E : r_nit _ (fst (ralgb5 flt_ops abs_params abs_fg 1 [f1])) = 1%nat) by congruence. rewrite E. cbn [maxiter abs_params]. lia.
Qed.
