(** HBR on a matrix of numbers returns the hull of the solution set. *)
From Coq Require Import Reals List Arith Bool Lia Lra Psatz.
From Verif Require Import Exact SpecExact ExactProofs Estim SpecEstim EstimProofs RohnProofs HbrProofs HbrCall Pss Pps SpecPps.
Import ListNotations.
Open Scope R_scope.

Lemma scale_flat c q : rl q = rh q -> r_scale c q = r_point (c * r_mid q).
Proof.
  intro E. unfold r_scale, r_point, r_mid. rewrite E. replace (/ 2 * (rh q + rh q)) with (rh q) by lra.
  rewrite Rmin_left, Rmax_left by lra. reflexivity.
Qed.
Lemma isum_point n f g : (forall l, (l < n)%nat -> f l = r_point (g l)) -> isum n f = r_point (total n g).
Proof.
  induction n as [|n IH]; intro H; [reflexivity|]. cbn [isum total]. rewrite IH, H by (intros; try apply H; lia). reflexivity.
Qed.
Lemma mag_point c : r_mag (r_point c) = Rabs c.
Proof. unfold r_mag. cbn [rl rh r_point]. apply Rmax_left. lra. Qed.
Lemma mig_one : r_mig (r_point 1) = 1.
Proof. unfold r_mig, has0. cbn [rl rh r_point]. destruct (Rle_dec 1 0); [lra|]. rewrite Rabs_R1. apply Rmin_left. lra. Qed.
Lemma sym0 : sym 0 = r_point 0.
Proof. unfold sym, sort_itv, r_point. rewrite Ropp_0, Rmin_left, Rmax_left by lra. reflexivity. Qed.
Lemma add0 x : r_add x (r_point 0) = x.
Proof. destruct x as [a c]. unfold r_add. cbn [rl rh r_point]. now rewrite !Rplus_0_r. Qed.
Lemma div1 x y : proper x -> r_div x (r_point 1) = Some y -> y = x.
Proof.
  intros P. unfold r_div, has0. cbn [rl rh r_point]. destruct (Rle_dec 1 0); [lra|]. intro E. inversion E; clear E. destruct x as [a c]. unfold proper in P. cbn [rl rh] in *.
  unfold Rdiv. rewrite Rinv_1, !Rmult_1_r. unfold Rmin, Rmax. repeat destruct (Rle_dec _ _); try lra; reflexivity.
Qed.

Section Numbers.
Variables (k : nat) (Q : imat) (r : ivec) (C B : mat).
Notation n := (S k).
Hypothesis HQ : forall i j, (i < n)%nat -> (j < n)%nat -> rl (Q i j) = rh (Q i j).
Hypothesis Hr : forall i, (i < n)%nat -> proper (r i).
Hypothesis HC : inverse_of n (mids Q) C.
Hypothesis HB : inverse_of n (r_compmat (rimm n C Q)) B.

Lemma pre_point i j : (i < n)%nat -> (j < n)%nat -> rimm n C Q i j = r_point (if (i =? j)%nat then 1 else 0).
Proof.
  intros Hi Hj. unfold rimm. rewrite (isum_point n _ (fun l => C i l * mids Q l j)); [|intros l Hl; apply scale_flat; now apply HQ].
  now rewrite (proj2 (HC i j Hi Hj)).
Qed.
Lemma cm_eye i j : (i < n)%nat -> (j < n)%nat -> r_compmat (rimm n C Q) i j = if (i =? j)%nat then 1 else 0.
Proof.
  intros Hi Hj. unfold r_compmat. rewrite pre_point by assumption. destruct (i =? j)%nat; [apply mig_one|]. rewrite mag_point, Rabs_R0. ring.
Qed.
Lemma B_eye i j : (i < n)%nat -> (j < n)%nat -> B i j = if (i =? j)%nat then 1 else 0.
Proof.
  intros Hi Hj. destruct (HB i j Hi Hj) as [E _]. rewrite (total_pick n i) in E; [|exact Hi|].
  - rewrite cm_eye, Nat.eqb_refl, Rmult_1_l in E by assumption. exact E.
  - intros l Hl N. rewrite cm_eye by assumption. apply Nat.eqb_neq in N. rewrite Nat.eqb_sym, N. ring.
Qed.
Lemma pre_h : h_matrix n (rimm n C Q).
Proof.
  exists (fun _ => 1). split; [intros i Hi; lra|]. intros M HM i Hi.
  assert (E : forall j, (j < n)%nat -> M i j = if (i =? j)%nat then 1 else 0).
  { intros j Hj. destruct (HM i j Hi Hj) as [H1 H2]. rewrite pre_point in H1, H2 by assumption. cbn [rl rh r_point] in H1, H2. lra. }
  rewrite total_0.
  - rewrite (E i Hi), Nat.eqb_refl, Rabs_R1. lra.
  - intros j Hj. destruct (j =? i)%nat eqn:N; [reflexivity|]. rewrite (E j Hj), Nat.eqb_sym, N, Rabs_R0. ring.
Qed.
Lemma hbr_numbers l : hbr k Q r C B = Some l -> forall i, (i < n)%nat -> nth i l (mkr 0 0) = rimv n C r i.
Proof.
  intros E i Hi. destruct (hbr_value k Q r C B HB pre_h) as (l' & E' & _ & V). rewrite E in E'. inversion E'; subst l'; clear E'. specialize (V i Hi).
  assert (Be : h_beta k (rimv n C r) B i = 0).
  { unfold h_beta. rewrite (total_pick n i); [|exact Hi|].
    - rewrite B_eye, Nat.eqb_refl by assumption. field.
    - intros j Hj N. rewrite B_eye by assumption. apply Nat.eqb_neq in N. rewrite Nat.eqb_sym, N. ring. }
  assert (Al : h_alpha (rimm n C Q) B i = 0).
  { unfold h_alpha. rewrite pre_point, B_eye, !Nat.eqb_refl, mig_one by assumption. field. }
  rewrite Be, Al, sym0, !add0, pre_point, Nat.eqb_refl in V by assumption. apply div1 in V; [exact V|].
  apply isum_proper. intros. apply scale_proper.
Qed.
(** both ends of each component are attained *)
Definition corner (lo : bool) (j : nat) : vec := fun l => if Rle_dec 0 (C j l) then (if lo then rl (r l) else rh (r l)) else (if lo then rh (r l) else rl (r l)).
Lemma corner_solution lo j : (j < n)%nat -> united n n Q r (times n C (corner lo j)) /\ times n C (corner lo j) j = (if lo then rl else rh) (rimv n C r j).
Proof.
  intro Hj. split.
  - exists (mids Q), (corner lo j). split; [|split].
    + intros a c Ha Hc. unfold inI, mids, r_mid. rewrite (HQ a c Ha Hc). lra.
    + intros a Ha. pose proof (Hr a Ha) as P. unfold proper in P. unfold inI, corner. destruct (Rle_dec _ _), lo; lra.
    + intros a Ha. unfold times at 1. unfold times.
      rewrite (total_ext n _ (fun c => total n (fun l => (mids Q a c * C c l) * corner lo j l))); [|intros; rewrite <- total_scal; apply total_ext; intros; ring].
      rewrite total_swap. rewrite (total_ext n _ (fun l => (if (a =? l)%nat then 1 else 0) * corner lo j l)).
      * rewrite (total_pick n a); [rewrite Nat.eqb_refl; ring | exact Ha|]. intros l Hl N. apply Nat.eqb_neq in N. rewrite Nat.eqb_sym, N. ring.
      * intros l Hl. rewrite total_scal_r. now rewrite (proj1 (HC a l Ha Hl)).
  - unfold times, rimv. destruct lo; [rewrite isum_lo | rewrite isum_hi]; apply total_ext; intros l Hl; pose proof (Hr l Hl) as P; unfold proper in P; unfold corner.
    + destruct (Rle_dec 0 (C j l)); [rewrite scale_pos | rewrite scale_neg]; auto; cbn [rl rh]; lra.
    + destruct (Rle_dec 0 (C j l)); [rewrite scale_pos | rewrite scale_neg]; auto; cbn [rl rh]; lra.
Qed.
End Numbers.

Theorem hbr_hull_numbers inv k Q r v : inverses_exact inv (S k) -> (forall i j, (i < S k)%nat -> (j < S k)%nat -> rl (Q i j) = rh (Q i j)) ->
  (forall i, (i < S k)%nat -> proper (r i)) -> hbr_call inv k Q r = Some v ->
  forall j, (j < S k)%nat -> coordinate_range (united (S k) (S k) Q r) j (v j).
Proof.
  intros HI HQ Hr E j Hj. unfold hbr_call in E. destruct (inv (mids Q)) as [C|] eqn:EC; [|discriminate].
  destruct (inv (r_compmat (rimm (S k) C Q))) as [B|] eqn:EB; [|discriminate]. destruct (hbr k Q r C B) as [l|] eqn:El; [|discriminate]. inversion E; subst v; clear E.
  apply HI in EC. apply HI in EB. destruct (hbr_encloses k Q r C B EB (pre_h k Q C HQ EC)) as (l' & E' & _ & V). rewrite El in E'. inversion E'; subst l'; clear E'.
  pose proof (hbr_numbers k Q r C B HQ EC EB l El j Hj) as N. split; [intros x Hx; apply V; assumption|]. cbv beta. rewrite N. split.
  - destruct (corner_solution k Q r C HQ Hr EC true j Hj) as [U X]. eexists. split; [exact U | exact X].
  - destruct (corner_solution k Q r C HQ Hr EC false j Hj) as [U X]. eexists. split; [exact U | exact X].
Qed.
Lemma hbr_exact_on_numbers inv k A b : inverses_exact inv (S k) -> exact_on_numbers (hbr_call inv k) (S k) A b.
Proof.
  intros HI Q r v j _ Hr HQ E Hj. destruct (hbr_hull_numbers inv k Q r v HI HQ) with (j := j) as (_ & L & _); auto.
  intros i Hi. destruct (Hr i Hi) as [[]]. unfold proper. lra.
Qed.
