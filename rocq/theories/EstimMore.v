(** When the Rohn iteration settles, and what HBR's test should be. *)
From Coq Require Import Reals ZArith List Bool Arith Lia Lra Psatz.
From Verif Require Import Exact Recog SpecExact ExactProofs Estim SpecEstim EstimProofs RohnProofs HbrProofs NmChebProofs EstimRefute.
Import ListNotations.
Open Scope R_scope.

Lemma iter_shift {T} n (f : T -> T) x : Nat.iter n f (f x) = f (Nat.iter n f x).
Proof. induction n as [|n IH]; [reflexivity|]. simpl. now rewrite IH. Qed.
Section Settle.
Context (k : nat) (G : mat) (g : vec) (tol : R).
Hypothesis HG : forall i j, (i < S k)%nat -> (j < S k)%nat -> 0 <= G i j.
Hypothesis Ht : 0 < tol.
Let st := step k G g tol.
Let er (r : vec) := vmax k (fun i => Rabs (st r i - r i)).
Fixpoint stops (f : nat) (r : vec) (err : option R) : Prop :=
  match err with
  | Some e => e < tol \/ match f with O => False | S f' => stops f' (st r) (Some (er r)) end
  | None => match f with O => False | S f' => stops f' (st r) (Some (er r)) end
  end.
Lemma stops_stable f : forall r err, stops f r err -> forall f', (f <= f')%nat -> ru_loop k f' tol G g r err = ru_loop k f tol G g r err.
Proof.
  induction f as [|f IH]; intros r err H f' L.
  - destruct err as [e|]; [|destruct H]. destruct H as [H|[]]. destruct f'; [reflexivity|]. cbn [ru_loop]. destruct Rle_dec; [lra|reflexivity].
  - destruct f' as [|f']; [lia|]. destruct err as [e|].
    + cbn [ru_loop]. destruct (Rle_dec tol e) as [Le|Gt]; [|reflexivity]. destruct H as [H|H]; [lra|]. apply (IH _ _ H). lia.
    + cbn [ru_loop]. apply (IH _ _ H). lia.
Qed.
Lemma stops_in n : forall r err, er (Nat.iter n st r) < tol -> stops (S n) r err.
Proof.
  induction n as [|n IH]; intros r err H.
  - assert (stops 0 (st r) (Some (er r))) by (left; exact H). destruct err; [right|]; assumption.
  - assert (stops (S n) (st r) (Some (er r))) by (apply IH; rewrite iter_shift; exact H). destruct err; [right|]; assumption.
Qed.
Lemma differences d q C : (forall i, (i < S k)%nat -> times (S k) G d i <= q * d i) -> 0 <= q -> 0 <= C -> (forall i, (i < S k)%nat -> Rabs (st (fun _ => 0) i - 0) <= C * d i) ->
  forall n i, (i < S k)%nat -> Rabs (st (Nat.iter n st (fun _ => 0)) i - Nat.iter n st (fun _ => 0) i) <= q ^ n * C * d i.
Proof.
  intros Hd Hq HC H0 n. induction n as [|n IH]; intros i Hi.
  - simpl. rewrite Rmult_1_l. now apply H0.
  - change (Nat.iter (S n) st (fun _ => 0)) with (st (Nat.iter n st (fun _ => 0))). set (r := Nat.iter n st (fun _ => 0)) in *.
    replace (st (st r) i - st r i) with (total (S k) (fun j => G i j * (st r j - r j))).
    + eapply Rle_trans; [apply total_abs|]. eapply Rle_trans; [apply total_le; intros j Hj; rewrite Rabs_mult, (Rabs_pos_eq (G i j)) by (now apply HG); apply Rmult_le_compat_l; [now apply HG|now apply IH]|].
      rewrite (total_ext _ _ (fun j => q ^ n * C * (G i j * d j))) by (intros; ring). rewrite total_scal. change (total (S k) (fun j => G i j * d j)) with (times (S k) G d i).
      assert (0 <= q ^ n * C) by (apply Rmult_le_pos; [apply pow_le; exact Hq|exact HC]).
      simpl pow. assert (T := Hd i Hi). nra.
    + assert (E : forall z, st z i = times (S k) G z i + g i + tol) by (intro z; unfold st, step; now rewrite mv_times). rewrite (E (st r)), (E r). unfold times. rewrite (total_ext _ _ (fun j => G i j * st r j - G i j * r j)) by (intros; ring). rewrite total_minus. ring.
Qed.
Lemma settles d : positive (S k) d -> (forall i, (i < S k)%nat -> times (S k) G d i < d i) -> exists N, forall f, (N <= f)%nat -> ru_loop k f tol G g (fun _ => 0) None = ru_loop k N tol G g (fun _ => 0) None.
Proof.
  intros Pd Hd. destruct (max_ratio k (times (S k) G d) d Pd) as (p & Hp & Mp). assert (Pp := Pd p Hp).
  set (q := times (S k) G d p / d p). assert (Q0 : 0 <= q). { apply Rmult_le_pos; [|apply Rlt_le, Rinv_0_lt_compat; exact Pp]. apply total_nn. intros j Hj. apply Rmult_le_pos; [now apply HG|apply Rlt_le, Pd, Hj]. }
  assert (Eq : q * d p = times (S k) G d p) by (unfold q; field; lra). assert (Q1 : q < 1) by (specialize (Hd p Hp); nra).
  assert (Hq : forall i, (i < S k)%nat -> times (S k) G d i <= q * d i). { intros i Hi. specialize (Mp i Hi). rewrite <- Eq in Mp. assert (Pi := Pd i Hi). nra. }
  destruct (max_ratio k (fun i => Rabs (st (fun _ => 0) i - 0)) d Pd) as (c & Hc & Mc). assert (Pc := Pd c Hc).
  set (C := Rabs (st (fun _ => 0) c - 0) / d c). assert (EC : C * d c = Rabs (st (fun _ => 0) c - 0)) by (unfold C; field; lra).
  assert (HC : forall i, (i < S k)%nat -> Rabs (st (fun _ => 0) i - 0) <= C * d i). { intros i Hi. specialize (Mc i Hi). cbv beta in Mc. rewrite <- EC in Mc. assert (Pi := Pd i Hi). nra. }
  assert (C0 : 0 <= C) by (assert (T := Rabs_pos (st (fun _ => 0) c - 0)); nra).
  destruct (vmax_in k d) as (t & Ht' & Et). assert (Pt := Pd t ltac:(lia)).
  destruct (pow_lt_1_zero q ltac:(rewrite Rabs_pos_eq; lra) (tol / (C * d t + 1)) ltac:(apply Rdiv_lt_0_compat; [lra|nra])) as (n & Hn).
  exists (S n). intros f Hf. apply stops_stable; [|exact Hf]. apply stops_in. unfold er.
  destruct (vmax_in k (fun i => Rabs (st (Nat.iter n st (fun _ => 0)) i - Nat.iter n st (fun _ => 0) i))) as (i & Hi & ->).
  eapply Rle_lt_trans; [apply (differences d q C Hq Q0 C0 HC n i); lia|]. specialize (Hn n ltac:(lia)). rewrite Rabs_pos_eq in Hn by (now apply pow_le).
  assert (d i <= d t) by (rewrite <- Et; now apply le_vmax). assert (P := pow_le q n Q0). assert (Di := Pd i ltac:(lia)).
  assert (q ^ n * (C * d t + 1) < tol). { apply (Rmult_lt_compat_r (C * d t + 1)) in Hn; [|nra]. replace (tol / (C * d t + 1) * (C * d t + 1)) with tol in Hn by (field; nra). exact Hn. }
  assert (q ^ n * (C * d i) <= q ^ n * (C * d t + 1)) by (apply Rmult_le_compat_l; nra). lra.
Qed.
End Settle.
Lemma mid_rimm m C A i j : r_mid (rimm m C A i j) = total m (fun l => C i l * r_mid (A l j)).
Proof.
  unfold r_mid, rimm. rewrite isum_lo, isum_hi, <- total_plus, <- total_scal. apply total_ext. intros l Hl. unfold r_scale; simpl. unfold Rmin, Rmax. destruct Rle_dec; lra.
Qed.
Lemma rad_rimm m n C A i j : proper_mat m n A -> (j < n)%nat -> r_rad (rimm m C A i j) = total m (fun l => Rabs (C i l) * r_rad (A l j)).
Proof.
  intros PA Hj. unfold r_rad, rimm. rewrite isum_lo, isum_hi, <- total_minus, <- total_scal. apply total_ext. intros l Hl. assert (P := PA l j Hl Hj). unfold proper in P.
  destruct (Rle_dec 0 (C i l)) as [L|L]; [rewrite scale_pos, Rabs_pos_eq by assumption | rewrite scale_neg, Rabs_left by (assumption || lra)]; simpl; ring.
Qed.
(** With exact inverses and a positive [d] such that |P| rad(A) d < d for the
    preconditioner P, the answer is an enclosure whenever the limit is large
    enough. *)
Theorem rohn_uni_regular inv m k A b tol : let n := S k in let Ac := mids A in let P := pinv inv m n Ac in let Pc := mids (rimm m P A) in
  0 < tol -> proper_mat m n A -> inverse_of n (mm m (tr Ac) Ac) (inv n (mm m (tr Ac) Ac)) -> inverse_of n (mm n (tr Pc) Pc) (inv n (mm n (tr Pc) Pc)) ->
  (exists d, positive n d /\ forall i, (i < n)%nat -> total n (fun j => total m (fun l => Rabs (P i l) * r_rad (A l j)) * d j) < d i) ->
  exists N, forall maxiter, (N <= maxiter)%Z -> forall x, united m n A b x -> forall i, (i < n)%nat -> inI (rohn_uni inv m k A b tol maxiter i) (x i).
Proof.
  intros n Ac P Pc Ht PA I1 I2 (d & Pd & Hd).
  assert (EP : forall i j, (i < n)%nat -> (j < n)%nat -> Pc i j = if Nat.eqb i j then 1 else 0).
  { intros i j Hi Hj. unfold Pc, mids. rewrite mid_rimm. rewrite <- (proj2 (I1 i j Hi Hj)). unfold P, pinv, mm at 1.
    rewrite (total_ext _ _ (fun l => total n (fun p => inv n (mm m (tr Ac) Ac) i p * (tr Ac p l * r_mid (A l j))))).
    - rewrite total_swap. apply total_ext. intros p Hp. rewrite total_scal. apply f_equal. symmetry. apply vsum_eq.
    - intros l Hl. rewrite vsum_eq. rewrite <- total_scal_r. apply total_ext. intros; ring. }
  assert (EI : forall i j, (i < n)%nat -> (j < n)%nat -> mm n (tr Pc) Pc i j = if Nat.eqb i j then 1 else 0).
  { intros i j Hi Hj. unfold mm, tr. rewrite vsum_eq. rewrite (total_pick n i _ Hi).
    - rewrite !EP by assumption. rewrite Nat.eqb_refl. ring.
    - intros l Hl Ne. rewrite (EP l i) by assumption. destruct (Nat.eqb_spec l i); [contradiction|ring]. }
  assert (EV : forall i j, (i < n)%nat -> (j < n)%nat -> inv n (mm n (tr Pc) Pc) i j = if Nat.eqb i j then 1 else 0).
  { intros i j Hi Hj. rewrite <- (proj2 (I2 i j Hi Hj)). rewrite (total_pick n j _ Hj).
    - rewrite EI, Nat.eqb_refl by assumption. ring.
    - intros l Hl Ne. rewrite EI by assumption. destruct (Nat.eqb_spec l j); [contradiction|ring]. }
  assert (ER : forall i j, (i < n)%nat -> (j < n)%nat -> ru_R inv n (ru_A inv m n A) i j = if Nat.eqb i j then 1 else 0).
  { intros i j Hi Hj. unfold ru_R, ru_A, pinv, mm at 1. fold Ac. fold P. fold Pc. rewrite vsum_eq. rewrite (total_pick n i _ Hi).
    - rewrite EV by assumption. rewrite Nat.eqb_refl. unfold tr. rewrite EP by assumption. rewrite Nat.eqb_sym. ring.
    - intros l Hl Ne. rewrite EV by assumption. destruct (Nat.eqb_spec i l); [congruence|ring]. }
  set (A1 := ru_A inv m n A) in *. set (G := ru_G inv n A1).
  assert (EG : forall i j, (i < n)%nat -> (j < n)%nat -> G i j = total m (fun l => Rabs (P i l) * r_rad (A l j))).
  { intros i j Hi Hj.
    assert (M1 : mm n (ru_R inv n A1) (mids A1) i j = Pc i j).
    { unfold mm. rewrite vsum_eq. rewrite (total_pick n i _ Hi); [rewrite ER, Nat.eqb_refl by assumption; apply Rmult_1_l|]. intros l Hl Ne. rewrite ER by assumption. destruct (Nat.eqb_spec i l); [congruence|]. ring. }
    assert (M2 : mm n (fun i l => Rabs (ru_R inv n A1 i l)) (rads A1) i j = rads A1 i j).
    { unfold mm. rewrite vsum_eq. rewrite (total_pick n i _ Hi); [rewrite ER, Nat.eqb_refl, Rabs_R1 by assumption; ring|]. intros l Hl Ne. rewrite ER by assumption. destruct (Nat.eqb_spec i l); [congruence|]. rewrite Rabs_R0. ring. }
    unfold G, ru_G. rewrite M1, M2. rewrite EP by assumption. unfold eye. replace ((if (i =? j)%nat then 1 else 0) - (if (i =? j)%nat then 1 else 0)) with 0 by ring. rewrite Rabs_R0, Rplus_0_l.
    unfold rads, A1, ru_A. fold Ac. fold P. now rewrite (rad_rimm m n) by assumption. }
  assert (HG : forall i j, (i < n)%nat -> (j < n)%nat -> 0 <= G i j).
  { intros i j Hi Hj. rewrite EG by assumption. apply total_nn. intros l Hl. apply Rmult_le_pos; [apply Rabs_pos|]. apply rad_nn. now apply PA. }
  destruct (settles k G (ru_g inv n A1 (ru_b inv m n A b)) tol HG Ht d Pd) as (N & HN).
  { intros i Hi. unfold times. rewrite (total_ext _ _ (fun j => total m (fun l => Rabs (P i l) * r_rad (A l j)) * d j)) by (intros j Hj; now rewrite EG). now apply Hd. }
  exists (Z.of_nat N). intros maxiter Hm. apply (rohn_uni_encloses inv m k A b tol maxiter Ht); [lia|]. intros i Hi.
  unfold rohn_uni. cbv zeta. fold n. fold A1. fold G. rewrite (HN (Z.to_nat (maxiter + 1 + 1)) ltac:(lia)), (HN (Z.to_nat (maxiter + 1)) ltac:(lia)). reflexivity.
Qed.

(** HBR: had the test asked for all components instead of any, it would have
    been exact. *)
Theorem hbr_all_check k A C B : let n := S k in let A1 := rimm n C A in inverse_of n (r_compmat A1) B ->
  (h_matrix n A1 <-> forall i, (i < n)%nat -> 0 < times n (r_compmat A1) (fun l => Rabs (total n (fun j => B l j))) i).
Proof.
  intros n A1 HB. assert (PA : forall i j, proper (A1 i j)) by (intros; apply isum_proper; intros; apply scale_proper). split.
  - intros HA i Hi. assert (T := cmB_one k A1 B HB i Hi). unfold times in *. rewrite (total_ext _ _ (fun l => r_compmat A1 i l * total n (fun j => B l j))); [unfold n; lra|].
    intros l Hl. f_equal. apply Rabs_pos_eq. apply total_nn. intros j Hj. now apply (B_nn k A1 B PA HB HA).
  - intro H. set (v := fun l => Rabs (total n (fun j => B l j))) in *.
    assert (V0 : forall j, 0 <= v j) by (intro; apply Rabs_pos).
    exists v. split.
    + intros i Hi. specialize (H i Hi). unfold n in H. rewrite cm_row in H by exact Hi. destruct (Req_dec (v i) 0) as [Z|Z]; [|specialize (V0 i); lra]. rewrite Z in H.
      assert (0 <= total (S k) (fun j => if Nat.eqb j i then 0 else r_mag (A1 i j) * v j)); [|lra]. apply total_nn. intros j Hj. destruct (Nat.eqb j i); [lra|]. apply Rmult_le_pos; [apply mag_nn|apply V0].
    + intros M HM i Hi. specialize (H i Hi). unfold n in H. rewrite cm_row in H by exact Hi.
      assert (r_mig (A1 i i) * v i <= Rabs (M i i) * v i) by (apply Rmult_le_compat_r; [apply V0|apply mig_le; now apply HM]).
      assert (total n (fun j => if Nat.eqb j i then 0 else Rabs (M i j) * v j) <= total n (fun j => if Nat.eqb j i then 0 else r_mag (A1 i j) * v j)); [|unfold n in *; lra].
      apply total_le. intros j Hj. destruct (Nat.eqb j i); [lra|]. apply Rmult_le_compat_r; [apply V0|]. apply mag_ge. now apply HM.
Qed.

Lemma rohn_uni_regular_case : let P := pinv inv1 1 1 (mids ru_exA) in let Pc := mids (rimm 1 P ru_exA) in
  proper_mat 1 1 ru_exA /\ inverse_of 1 (mm 1 (tr (mids ru_exA)) (mids ru_exA)) (inv1 1%nat (mm 1 (tr (mids ru_exA)) (mids ru_exA))) /\
  inverse_of 1 (mm 1 (tr Pc) Pc) (inv1 1%nat (mm 1 (tr Pc) Pc)) /\
  positive 1 (fun _ => 1) /\ forall i, (i < 1)%nat -> total 1 (fun j => total 1 (fun l => Rabs (P i l) * r_rad (ru_exA l j)) * 1) < 1.
Proof.
  intros P Pc. assert (EP : forall i j, P i j = 1) by (intros; unfold P, pinv, inv1, mm, tr, mids, ru_exA, r_mid; simpl; field).
  assert (EC : forall i j, Pc i j = 1) by (intros; unfold Pc, mids; rewrite mid_rimm; simpl; rewrite EP; unfold ru_exA, r_mid; simpl; field).
  split; [|split; [|split; [|split]]].
  - intros i j Hi Hj. unfold proper, ru_exA; simpl. lra.
  - intros i j Hi Hj. replace i with O by lia. replace j with O by lia. unfold inv1, mm, tr, mids, ru_exA, r_mid. simpl. split; field.
  - intros i j Hi Hj. replace i with O by lia. replace j with O by lia. unfold inv1, mm, tr. simpl. rewrite EC. split; field.
  - intros i Hi. lra.
  - intros i Hi. simpl. rewrite EP, Rabs_R1. unfold ru_exA, r_rad; simpl. lra.
Qed.
