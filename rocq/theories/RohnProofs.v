(** Proofs about the united variant of Rohn. *)
From Coq Require Import Reals ZArith List Bool Arith Lia Lra Psatz.
From Verif Require Import Exact Recog SpecExact ExactProofs RecogProofs Estim SpecEstim EstimProofs.
Import ListNotations.
Open Scope R_scope.

Lemma inI_midrad X v : inI X v -> Rabs (v - r_mid X) <= r_rad X.
Proof. unfold inI, r_mid, r_rad. intro H. apply Rabs_le. lra. Qed.
Lemma rad_nn X : proper X -> 0 <= r_rad X.
Proof. unfold proper, r_rad. lra. Qed.

(** ** The residual inequality, for any matrix [R] and any point [x0] *)
Definition gen_G (n : nat) (Rm : mat) (A : imat) : mat := fun i j =>
  Rabs (eye i j - total n (fun l => Rm i l * r_mid (A l j))) + total n (fun l => Rabs (Rm i l) * r_rad (A l j)).
Definition gen_g (n : nat) (Rm : mat) (A : imat) (b : ivec) (x0 : vec) : vec := fun i =>
  Rabs (total n (fun l => Rm i l * (total n (fun j => r_mid (A l j) * x0 j) - r_mid (b l))))
  + total n (fun l => Rabs (Rm i l) * (total n (fun j => r_rad (A l j) * Rabs (x0 j)) + r_rad (b l))).
Lemma residual n Rm A b x0 x i : united n n A b x -> (i < n)%nat ->
  Rabs (x i - x0 i) <= total n (fun j => gen_G n Rm A i j * Rabs (x j - x0 j)) + gen_g n Rm A b x0 i.
Proof.
  intros (Mx & v & HM & Hv & S) Hi.
  assert (E1 : x i - x0 i = total n (fun j => (eye i j - total n (fun l => Rm i l * Mx l j)) * (x j - x0 j))
                 - total n (fun l => Rm i l * (total n (fun j => Mx l j * x0 j) - v l))).
  { rewrite (total_ext n (fun l => Rm i l * (total n (fun j => Mx l j * x0 j) - v l)) (fun l => Rm i l * - total n (fun j => Mx l j * (x j - x0 j)))).
    2: { intros l Hl. f_equal. rewrite <- (S l Hl). unfold times. rewrite <- total_minus, <- total_opp. apply total_ext. intros. ring. }
    rewrite (total_ext n (fun j => (eye i j - total n (fun l => Rm i l * Mx l j)) * (x j - x0 j))
       (fun j => eye i j * (x j - x0 j) - total n (fun l => Rm i l * (Mx l j * (x j - x0 j))))).
    2: { intros j Hj. rewrite Rmult_minus_distr_r. f_equal. rewrite <- total_scal_r. apply total_ext. intros. ring. }
    rewrite total_minus, total_swap. rewrite (total_pick n i (fun j => eye i j * (x j - x0 j)) Hi).
    2: { intros j Hj Ne. unfold eye. destruct (Nat.eqb_spec i j); [lia | ring]. }
    unfold eye. rewrite Nat.eqb_refl.
    rewrite (total_ext n (fun l => total n (fun j => Rm i l * (Mx l j * (x j - x0 j)))) (fun l => Rm i l * total n (fun j => Mx l j * (x j - x0 j)))) by (intros; now rewrite total_scal).
    rewrite (total_ext n (fun l => Rm i l * - _) (fun l => - (Rm i l * total n (fun j => Mx l j * (x j - x0 j))))) by (intros; ring).
    rewrite total_opp. ring. }
  assert (B1 : Rabs (total n (fun j => (eye i j - total n (fun l => Rm i l * Mx l j)) * (x j - x0 j))) <= total n (fun j => gen_G n Rm A i j * Rabs (x j - x0 j))).
  { eapply Rle_trans; [apply total_abs|]. apply total_le. intros j Hj. rewrite Rabs_mult. apply Rmult_le_compat_r; [apply Rabs_pos|]. unfold gen_G.
    replace (eye i j - total n (fun l => Rm i l * Mx l j)) with
      ((eye i j - total n (fun l => Rm i l * r_mid (A l j))) - total n (fun l => Rm i l * (Mx l j - r_mid (A l j)))).
    2: { rewrite (total_ext n (fun l => Rm i l * (Mx l j - r_mid (A l j))) (fun l => Rm i l * Mx l j - Rm i l * r_mid (A l j))) by (intros; ring). rewrite total_minus. ring. }
    eapply Rle_trans; [apply Rabs_triang|]. rewrite Rabs_Ropp. apply Rplus_le_compat_l. eapply Rle_trans; [apply total_abs|].
    apply total_le. intros l Hl. rewrite Rabs_mult. apply Rmult_le_compat_l; [apply Rabs_pos|]. apply inI_midrad. now apply HM. }
  assert (B2 : Rabs (total n (fun l => Rm i l * (total n (fun j => Mx l j * x0 j) - v l))) <= gen_g n Rm A b x0 i).
  { unfold gen_g.
    replace (total n (fun l => Rm i l * (total n (fun j => Mx l j * x0 j) - v l))) with
      (total n (fun l => Rm i l * (total n (fun j => r_mid (A l j) * x0 j) - r_mid (b l)))
       + total n (fun l => Rm i l * (total n (fun j => (Mx l j - r_mid (A l j)) * x0 j) - (v l - r_mid (b l))))).
    2: { rewrite <- total_plus. apply total_ext. intros l Hl. rewrite <- Rmult_plus_distr_l. f_equal.
         rewrite (total_ext n (fun j => (Mx l j - r_mid (A l j)) * x0 j) (fun j => Mx l j * x0 j - r_mid (A l j) * x0 j)) by (intros; ring). rewrite total_minus. ring. }
    eapply Rle_trans; [apply Rabs_triang|]. apply Rplus_le_compat_l. eapply Rle_trans; [apply total_abs|]. apply total_le. intros l Hl.
    rewrite Rabs_mult. apply Rmult_le_compat_l; [apply Rabs_pos|]. eapply Rle_trans; [apply Rabs_triang|]. rewrite Rabs_Ropp.
    apply Rplus_le_compat; [|apply inI_midrad; now apply Hv]. eapply Rle_trans; [apply total_abs|]. apply total_le. intros j Hj.
    rewrite Rabs_mult. apply Rmult_le_compat_r; [apply Rabs_pos|]. apply inI_midrad. now apply HM. }
  rewrite E1. eapply Rle_trans; [apply Rabs_triang|]. rewrite Rabs_Ropp. lra.
Qed.

(** ** Certificates *)
Section Cert.
Context (k : nat) (G : mat) (g : vec) (tol : R).
Hypothesis HG : forall i j, (i < S k)%nat -> (j < S k)%nat -> 0 <= G i j.
Hypothesis Hg : forall i, (i < S k)%nat -> 0 <= g i.
Hypothesis Ht : 0 < tol.
Definition step (r : vec) : vec := fun i => mv (S k) G r i + g i + tol.
Definition cert (q : vec) : Prop := exists d, (forall i, (i < S k)%nat -> 0 <= d i <= q i) /\ forall i, (i < S k)%nat -> times (S k) G d i + g i < d i.
Lemma cert_bound q e : cert q -> (forall i, (i < S k)%nat -> 0 <= e i) -> (forall i, (i < S k)%nat -> e i <= times (S k) G e i + g i) ->
  forall i, (i < S k)%nat -> e i <= q i.
Proof.
  intros (d & Hd & Cd) He Le.
  assert (Pd : positive (S k) d).
  { intros i Hi. assert (T := Cd i Hi). assert (0 <= times (S k) G d i) by (apply total_nn; intros j Hj; apply Rmult_le_pos; [now apply HG | now apply Hd]). specialize (Hg i Hi). lra. }
  destruct (max_ratio k e d Pd) as (p & Hp & Mp).
  assert (Ep : e p <= d p).
  { destruct (Rle_dec (e p) (d p)) as [|Ne]; [assumption|]. exfalso. assert (Dp := Pd p Hp).
    assert (T : times (S k) G e p * d p <= e p * times (S k) G d p).
    { unfold times. rewrite <- total_scal, <- total_scal_r. apply total_le. intros j Hj. assert (U := Mp j Hj). assert (V := HG p j Hp Hj). nra. }
    assert (L := Le p Hp). assert (Cp := Cd p Hp). assert (Gp := Hg p Hp). assert (Ee := He p Hp). nra. }
  intros i Hi. assert (U := Mp i Hi). assert (Di := Pd i Hi). assert (Dp := Pd p Hp). assert (Q := Hd i Hi). assert (e i <= d i) by nra. lra.
Qed.
Lemma step_mono r s : (forall i, (i < S k)%nat -> r i <= s i) -> forall i, (i < S k)%nat -> step r i <= step s i.
Proof.
  intros H i Hi. unfold step. rewrite !mv_times. unfold times. apply Rplus_le_compat_r, Rplus_le_compat_r. apply total_le. intros j Hj. apply Rmult_le_compat_l; [now apply HG | now apply H].
Qed.
Definition linv (r : vec) (err : option R) : Prop := (forall i, (i < S k)%nat -> 0 <= r i) /\ (forall i, (i < S k)%nat -> r i <= step r i) /\
  forall e, err = Some e -> e < tol -> cert r.
Lemma linv_step r err : linv r err -> linv (step r) (Some (vmax k (fun i => Rabs (step r i - r i)))).
Proof.
  intros (H1 & H2 & _). split; [|split].
  - intros i Hi. assert (T := H1 i Hi). assert (U := H2 i Hi). lra.
  - intros i Hi. now apply step_mono.
  - intros e E L. injection E as <-. exists r. split; [intros i Hi; split; [now apply H1 | now apply H2]|]. intros i Hi.
    assert (T := le_vmax k (fun i => Rabs (step r i - r i)) i ltac:(lia)). cbv beta in T. assert (A := Rle_abs (step r i - r i)).
    rewrite <- mv_times. unfold step in *. lra.
Qed.
Lemma loop_spec fuel : forall r err, linv r err -> let q := ru_loop k fuel tol G g r err in
  (forall i, (i < S k)%nat -> 0 <= q i) /\ (cert q \/ ru_loop k (S fuel) tol G g r err = step q).
Proof.
  induction fuel as [|f IH]; intros r err I; cbv zeta.
  - split; [apply I|]. destruct err as [e|].
    + cbn [ru_loop]. destruct (Rle_dec tol e) as [L|L]; [right; reflexivity|left]. apply I with e; [reflexivity|lra].
    + right. reflexivity.
  - destruct err as [e|].
    + destruct (Rle_dec tol e) as [L|L].
      * replace (ru_loop k (S f) tol G g r (Some e)) with (ru_loop k f tol G g (step r) (Some (vmax k (fun i => Rabs (step r i - r i))))) by (cbn [ru_loop]; destruct (Rle_dec tol e); [reflexivity|lra]).
        replace (ru_loop k (S (S f)) tol G g r (Some e)) with (ru_loop k (S f) tol G g (step r) (Some (vmax k (fun i => Rabs (step r i - r i))))).
        2: { set (n := S f). cbn [ru_loop]. destruct (Rle_dec tol e); [reflexivity|lra]. }
        apply IH. now apply (linv_step r (Some e)).
      * replace (ru_loop k (S f) tol G g r (Some e)) with r by (cbn [ru_loop]; destruct (Rle_dec tol e); [lra|reflexivity]).
        split; [apply I|left]. apply I with e; [reflexivity|lra].
    + replace (ru_loop k (S f) tol G g r None) with (ru_loop k f tol G g (step r) (Some (vmax k (fun i => Rabs (step r i - r i))))) by reflexivity.
      replace (ru_loop k (S (S f)) tol G g r None) with (ru_loop k (S f) tol G g (step r) (Some (vmax k (fun i => Rabs (step r i - r i))))) by reflexivity.
      apply IH. now apply (linv_step r None).
Qed.
Lemma start_linv : linv (fun _ => 0) None.
Proof.
  split; [intros; lra|]. split; [|discriminate]. intros i Hi. unfold step. rewrite mv_times. unfold times. rewrite total_0 by (intros; ring). specialize (Hg i Hi). lra.
Qed.
End Cert.

Lemma isum_proper n f : (forall l, (l < n)%nat -> proper (f l)) -> proper (isum n f).
Proof. intro H. unfold proper. rewrite isum_lo, isum_hi. apply total_le. exact H. Qed.
(** For any function in the place of the matrix inverse: if one more iteration
    would not change the answer, the answer contains every solution. *)
Theorem rohn_uni_encloses inv m k A b tol maxiter : 0 < tol -> (0 <= maxiter)%Z ->
  (forall i, (i < S k)%nat -> rohn_uni inv m k A b tol (maxiter + 1) i = rohn_uni inv m k A b tol maxiter i) ->
  forall x, united m (S k) A b x -> forall i, (i < S k)%nat -> inI (rohn_uni inv m k A b tol maxiter i) (x i).
Proof.
  intros Ht Hm St x (Mx & v & HM & Hv & S0) i Hi. unfold rohn_uni in *. cbv zeta in *.
  set (A1 := ru_A inv m (S k) A) in *. set (b1 := ru_b inv m (S k) A b) in *. set (x0 := ru_x0 inv (S k) A1 b1) in *.
  assert (U : united (S k) (S k) A1 b1 x) by exact (precond_solves m (S k) A b Mx v x _ HM Hv S0).
  assert (PA : forall i j, proper (A1 i j)) by (intros; apply isum_proper; intros; apply scale_proper).
  assert (Pb : forall i, proper (b1 i)) by (intros; apply isum_proper; intros; apply scale_proper).
  set (G := ru_G inv (S k) A1) in *. set (g := ru_g inv (S k) A1 b1) in *.
  assert (EG : forall i j, G i j = gen_G (S k) (ru_R inv (S k) A1) A1 i j).
  { intros. unfold G, ru_G, gen_G, mm, mids, rads. now rewrite !vsum_eq. }
  assert (Eg : forall i, g i = gen_g (S k) (ru_R inv (S k) A1) A1 b1 x0 i).
  { intros. unfold g, ru_g, gen_g. cbv zeta. fold x0. rewrite !mv_times. unfold times. apply (f_equal2 Rplus).
    - reflexivity.
    - apply total_ext. intros. unfold mv. now rewrite !vsum_eq. }
  assert (HG : forall i j, (i < S k)%nat -> (j < S k)%nat -> 0 <= G i j).
  { intros. rewrite EG. unfold gen_G. apply Rplus_le_le_0_compat; [apply Rabs_pos|]. apply total_nn. intros. apply Rmult_le_pos; [apply Rabs_pos | now apply rad_nn]. }
  assert (Hg : forall i, (i < S k)%nat -> 0 <= g i).
  { intros. rewrite Eg. unfold gen_g. apply Rplus_le_le_0_compat; [apply Rabs_pos|]. apply total_nn. intros. apply Rmult_le_pos; [apply Rabs_pos|].
    apply Rplus_le_le_0_compat; [|now apply rad_nn]. apply total_nn. intros. apply Rmult_le_pos; [now apply rad_nn | apply Rabs_pos]. }
  replace (Z.to_nat (maxiter + 1 + 1)) with (S (Z.to_nat (maxiter + 1))) in St by lia.
  destruct (loop_spec k G g tol HG (Z.to_nat (maxiter + 1)) (fun _ => 0) None (start_linv k G g tol Hg Ht)) as [Nq Cq].
  destruct (loop_spec k G g tol HG (S (Z.to_nat (maxiter + 1))) (fun _ => 0) None (start_linv k G g tol Hg Ht)) as [Nq' _].
  set (q := ru_loop k (Z.to_nat (maxiter + 1)) tol G g (fun _ => 0) None) in *.
  set (q' := ru_loop k (S (Z.to_nat (maxiter + 1))) tol G g (fun _ => 0) None) in *.
  assert (C : cert k G g q).
  { destruct Cq as [C|C]; [exact C|]. exists q. split; [intros l Hl; specialize (Nq l Hl); lra|]. intros l Hl.
    assert (E := St l Hl). apply (f_equal rh) in E. unfold sort_itv in E. simpl rh in E. assert (A2 := Nq l Hl). assert (A3 := Nq' l Hl). 
    rewrite !Rmax_right in E by lra. rewrite C in E. unfold step in E. rewrite mv_times in E. lra. }
  assert (B : Rabs (x i - x0 i) <= q i).
  { apply (cert_bound k G g HG Hg q (fun j => Rabs (x j - x0 j)) C); [intros; apply Rabs_pos| |exact Hi]. intros l Hl.
    assert (T := residual (S k) (ru_R inv (S k) A1) A1 b1 x0 x l U Hl). rewrite <- Eg in T. unfold times.
    rewrite (total_ext _ (fun j => G l j * Rabs (x j - x0 j)) (fun j => gen_G (S k) (ru_R inv (S k) A1) A1 l j * Rabs (x j - x0 j))) by (intros; now rewrite EG).
    exact T. }
  apply Rabs_le_iff in B. unfold inI, sort_itv. simpl. assert (A2 := Nq i Hi). rewrite Rmin_left, Rmax_right by lra. lra.
Qed.
