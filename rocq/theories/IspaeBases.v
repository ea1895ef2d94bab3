(** The bases of ISPAE satisfy the differential equations that define the Hermite,
    Laguerre and Legendre polynomials. *)
From Coq Require Import Reals List Arith Bool Lia Lra Psatz.
From Verif Require Import Exact Models IspaeMore.
Open Scope R_scope.

Lemma lim_ext f g z l : (forall y, f y = g y) -> derivable_pt_lim g z l -> derivable_pt_lim f z l.
Proof. intros E H eps He. destruct (H eps He) as [dl Hd]. exists dl. intros h Hh Hl. rewrite !E. now apply Hd. Qed.
Lemma lim_val f z l l' : l = l' -> derivable_pt_lim f z l -> derivable_pt_lim f z l'. Proof. now intros ->. Qed.
Lemma lim_scal c f z l : derivable_pt_lim f z l -> derivable_pt_lim (fun y => c * f y) z (c * l).
Proof. intro H. apply (lim_val _ _ (0 * f z + c * l)); [ring|]. exact (derivable_pt_lim_mult (fun _ => c) f z 0 l (derivable_pt_lim_const c z) H). Qed.
Lemma lim_times f z l : derivable_pt_lim f z l -> derivable_pt_lim (fun y => y * f y) z (f z + z * l).
Proof. intro H. apply (lim_val _ _ (1 * f z + z * l)); [ring|]. exact (derivable_pt_lim_mult (fun y => y) f z 1 l (derivable_pt_lim_id z) H). Qed.
Lemma lim_minus f g z l k : derivable_pt_lim f z l -> derivable_pt_lim g z k -> derivable_pt_lim (fun y => f y - g y) z (l - k).
Proof. exact (derivable_pt_lim_minus f g z l k). Qed.

Lemma leg_step d y : basis Legendre (S (S d)) y = ((2 * INR (S d) + 1) * y * basis Legendre (S d) y - INR (S d) * basis Legendre d y) / (INR (S d) + 1).
Proof. unfold basis. rewrite !basis2_S. cbn [basis2]. destruct (basis2 Legendre d y). reflexivity. Qed.
Lemma lag_step d y : basis Laguerre (S (S d)) y = ((2 * INR (S d) + 1 - y) * basis Laguerre (S d) y - INR (S d) * basis Laguerre d y) / (INR (S d) + 1).
Proof. unfold basis. rewrite !basis2_S. cbn [basis2]. destruct (basis2 Laguerre d y). reflexivity. Qed.
Lemma her_step d y : basis Hermite (S (S d)) y = 2 * y * basis Hermite (S d) y - 2 * INR (S d) * basis Hermite d y.
Proof. unfold basis. rewrite !basis2_S. cbn [basis2]. destruct (basis2 Hermite d y). reflexivity. Qed.

Lemma leg_pair d : exists p' q', (forall x, derivable_pt_lim (basis Legendre d) x (p' x)) /\ (forall x, derivable_pt_lim (basis Legendre (S d)) x (q' x)) /\
  (forall x, p' x = x * q' x - INR (S d) * basis Legendre (S d) x) /\ (forall x, (1 - x * x) * q' x = INR (S d) * (basis Legendre d x - x * basis Legendre (S d) x)).
Proof.
  induction d as [|d (p' & q' & Dp & Dq & A & B)].
  - exists (fun _ => 0), (fun _ => 1). split; [intro x; apply (lim_ext _ (fun _ => 1)); [reflexivity | apply derivable_pt_lim_const]|].
    split; [intro x; apply (lim_ext _ (fun y => y)); [reflexivity | apply derivable_pt_lim_id]|]. split; intro x; unfold basis; simpl; ring.
  - assert (Q := pos_INR (S d)). set (c := INR (S d)) in *.
    exists q', (fun x => (c + 1) * basis Legendre (S d) x + x * q' x). split; [exact Dq|]. split; [|split].
    + intro x. apply (lim_ext _ (fun y => / (c + 1) * ((2 * c + 1) * (y * basis Legendre (S d) y) - c * basis Legendre d y))).
      { intro y. rewrite leg_step. fold c. field. lra. }
      eapply lim_val; [|apply lim_scal, lim_minus; [apply lim_scal, lim_times, Dq | apply lim_scal, Dp]].
      rewrite A. fold c. field. lra.
    + intro x. rewrite leg_step, (S_INR (S d)). fold c.
      replace (x * ((c + 1) * basis Legendre (S d) x + x * q' x) - (c + 1) * (((2 * c + 1) * x * basis Legendre (S d) x - c * basis Legendre d x) / (c + 1)))
        with (x * x * q' x + c * (basis Legendre d x - x * basis Legendre (S d) x)) by (field; lra).
      rewrite <- B. ring.
    + intro x. rewrite leg_step, (S_INR (S d)). fold c.
      replace ((1 - x * x) * ((c + 1) * basis Legendre (S d) x + x * q' x)) with ((1 - x * x) * (c + 1) * basis Legendre (S d) x + x * ((1 - x * x) * q' x)) by ring.
      rewrite B. fold c. field. lra.
Qed.

(** ((1 - x^2) P')' = - d (d + 1) P, P(1) = 1 *)
Theorem legendre_equation d : basis Legendre d 1 = 1 /\
  exists g, (forall x, derivable_pt_lim (basis Legendre d) x (g x)) /\
    forall x, derivable_pt_lim (fun y => (1 - y * y) * g y) x (- (INR d * (INR d + 1)) * basis Legendre d x).
Proof.
  split; [apply legendre_one|]. destruct d as [|d].
  - destruct (leg_pair 0) as (p' & q' & Dp & _). exists p'. split; [exact Dp|]. intro x.
    assert (Z : forall y, p' y = 0) by (intro y; apply (uniqueness_limite (basis Legendre 0) y); [apply Dp | apply (lim_ext _ (fun _ => 1)); [reflexivity | apply derivable_pt_lim_const]]).
    apply (lim_ext _ (fun _ => 0)); [intro y; rewrite Z; ring|]. eapply lim_val; [|apply derivable_pt_lim_const]. simpl. ring.
  - destruct (leg_pair d) as (p' & q' & Dp & Dq & A & B). exists q'. split; [exact Dq|]. intro x.
    apply (lim_ext _ (fun y => INR (S d) * (basis Legendre d y - y * basis Legendre (S d) y))); [exact B|].
    eapply lim_val; [|apply lim_scal, lim_minus; [apply Dp | apply lim_times, Dq]]. rewrite A. ring.
Qed.

Lemma lag_pair d : exists p' q', (forall x, derivable_pt_lim (basis Laguerre d) x (p' x)) /\ (forall x, derivable_pt_lim (basis Laguerre (S d)) x (q' x)) /\
  (forall x, q' x = p' x - basis Laguerre d x) /\ (forall x, x * q' x = INR (S d) * (basis Laguerre (S d) x - basis Laguerre d x)).
Proof.
  induction d as [|d (p' & q' & Dp & Dq & A & B)].
  - exists (fun _ => 0), (fun _ => -1). split; [intro x; apply (lim_ext _ (fun _ => 1)); [reflexivity | apply derivable_pt_lim_const]|].
    split; [intro x; apply (lim_ext _ (fun y => 1 - y)); [reflexivity|]; apply (lim_val _ _ (0 - 1)); [ring | apply (lim_minus (fun _ => 1) (fun y => y)); [apply derivable_pt_lim_const | apply derivable_pt_lim_id]]|].
    split; intro x; unfold basis; simpl; ring.
  - assert (Q := pos_INR (S d)). set (c := INR (S d)) in *.
    exists q', (fun x => q' x - basis Laguerre (S d) x). split; [exact Dq|]. split; [|split].
    + intro x. apply (lim_ext _ (fun y => / (c + 1) * (((2 * c + 1) * basis Laguerre (S d) y - y * basis Laguerre (S d) y) - c * basis Laguerre d y))).
      { intro y. rewrite lag_step. fold c. field. lra. }
      eapply lim_val; [|apply lim_scal, lim_minus; [apply lim_minus; [apply lim_scal, Dq | apply lim_times, Dq] | apply lim_scal, Dp]].
      assert (Ap : p' x = q' x + basis Laguerre d x) by (rewrite A; ring). rewrite Ap.
      replace ((2 * c + 1) * q' x - (basis Laguerre (S d) x + x * q' x) - c * (q' x + basis Laguerre d x)) with ((c + 1) * q' x - x * q' x - basis Laguerre (S d) x - c * basis Laguerre d x) by ring.
      rewrite B. field. lra.
    + reflexivity.
    + intro x. rewrite lag_step, (S_INR (S d)). fold c. replace (x * (q' x - basis Laguerre (S d) x)) with (x * q' x - x * basis Laguerre (S d) x) by ring.
      rewrite B. field. lra.
Qed.

(** (x L')' = x L' - d L, L(0) = 1 *)
Theorem laguerre_equation d : basis Laguerre d 0 = 1 /\
  exists g, (forall x, derivable_pt_lim (basis Laguerre d) x (g x)) /\
    forall x, derivable_pt_lim (fun y => y * g y) x (x * g x - INR d * basis Laguerre d x).
Proof.
  split; [apply laguerre_zero|]. destruct d as [|d].
  - destruct (lag_pair 0) as (p' & q' & Dp & _). exists p'. split; [exact Dp|]. intro x.
    assert (Z : forall y, p' y = 0) by (intro y; apply (uniqueness_limite (basis Laguerre 0) y); [apply Dp | apply (lim_ext _ (fun _ => 1)); [reflexivity | apply derivable_pt_lim_const]]).
    apply (lim_ext _ (fun _ => 0)); [intro y; rewrite Z; ring|]. eapply lim_val; [|apply derivable_pt_lim_const]. rewrite Z. simpl. ring.
  - destruct (lag_pair d) as (p' & q' & Dp & Dq & A & B). exists q'. split; [exact Dq|]. intro x.
    apply (lim_ext _ (fun y => INR (S d) * (basis Laguerre (S d) y - basis Laguerre d y))); [exact B|].
    eapply lim_val; [|apply lim_scal, lim_minus; [apply Dq | apply Dp]]. rewrite B, A. ring.
Qed.

(** H_0 = 1, H_{d+1}' = 2 (d + 1) H_d, H'' = 2 x H' - 2 d H *)
Theorem hermite_equation d : (forall x, basis Hermite 0 x = 1) /\
  exists g, (forall x, derivable_pt_lim (basis Hermite (S d)) x (g x)) /\ (forall x, g x = 2 * INR (S d) * basis Hermite d x) /\
    forall x, derivable_pt_lim g x (2 * x * g x - 2 * INR (S d) * basis Hermite (S d) x).
Proof.
  split; [reflexivity|]. exists (fun x => 2 * INR (S d) * basis Hermite d x). split; [apply hermite_deriv|]. split; [reflexivity|]. intro x.
  destruct d as [|d].
  - eapply lim_val; [|apply lim_scal, (lim_ext _ (fun _ => 1)); [reflexivity | apply derivable_pt_lim_const]]. unfold basis. simpl. ring.
  - eapply lim_val; [|apply lim_scal, hermite_deriv]. rewrite her_step, (S_INR (S d)). ring.
Qed.
