(** Proofs about HBR. *)
From Coq Require Import Reals ZArith List Bool Arith Lia Lra Psatz.
From Verif Require Import Exact Recog SpecExact ExactProofs RecogProofs Estim SpecEstim EstimProofs RohnProofs.
Import ListNotations.
Open Scope R_scope.

Lemma mig_attained X : proper X -> exists a, inI X a /\ Rabs a = r_mig X.
Proof.
  unfold proper, r_mig, inI. intro P. destruct (has0 X) eqn:E.
  - apply has0_iff in E. exists 0. rewrite Rabs_R0. lra.
  - unfold Rmin. destruct Rle_dec; [exists (rl X) | exists (rh X)]; lra.
Qed.
Lemma mag_attained X : proper X -> exists a, inI X a /\ Rabs a = r_mag X.
Proof. unfold proper, r_mag, inI. intro P. unfold Rmax. destruct Rle_dec; [exists (rh X) | exists (rl X)]; lra. Qed.
Lemma mag_ge X a : inI X a -> Rabs a <= r_mag X.
Proof.
  unfold inI, r_mag. intro H. apply Rabs_le. assert (A1 := Rmax_l (Rabs (rl X)) (Rabs (rh X))). assert (A2 := Rmax_r (Rabs (rl X)) (Rabs (rh X))).
  assert (A3 := Rle_abs (rh X)). assert (A4 := Rle_abs (- rl X)). rewrite Rabs_Ropp in A4. lra.
Qed.
Lemma mig_le X a : inI X a -> r_mig X <= Rabs a.
Proof.
  unfold inI, r_mig. intro H. destruct (has0 X) eqn:E; [apply Rabs_pos|].
  assert (N : ~ (rl X <= 0 <= rh X)) by (intro T; apply has0_iff in T; congruence).
  destruct (Rlt_dec 0 (rl X)).
  - eapply Rle_trans; [apply Rmin_l|]. rewrite !Rabs_right by lra. lra.
  - eapply Rle_trans; [apply Rmin_r|]. rewrite !Rabs_left by lra. lra.
Qed.
(** ** Division *)
Lemma bilinear a b c d s w : a <= s <= b -> c <= w <= d ->
  Rmin (Rmin (a * d) (a * c)) (Rmin (b * d) (b * c)) <= s * w <= Rmax (Rmax (a * d) (a * c)) (Rmax (b * d) (b * c)).
Proof.
  intros Hs Hw.
  assert (L1 := Rmin_l (a * d) (a * c)). assert (L2 := Rmin_r (a * d) (a * c)). assert (L3 := Rmin_l (b * d) (b * c)). assert (L4 := Rmin_r (b * d) (b * c)).
  assert (L5 := Rmin_l (Rmin (a * d) (a * c)) (Rmin (b * d) (b * c))). assert (L6 := Rmin_r (Rmin (a * d) (a * c)) (Rmin (b * d) (b * c))).
  assert (U1 := Rmax_l (a * d) (a * c)). assert (U2 := Rmax_r (a * d) (a * c)). assert (U3 := Rmax_l (b * d) (b * c)). assert (U4 := Rmax_r (b * d) (b * c)).
  assert (U5 := Rmax_l (Rmax (a * d) (a * c)) (Rmax (b * d) (b * c))). assert (U6 := Rmax_r (Rmax (a * d) (a * c)) (Rmax (b * d) (b * c))).
  set (lo := Rmin (Rmin _ _) (Rmin _ _)) in *. set (hi := Rmax (Rmax _ _) (Rmax _ _)) in *. clearbody lo hi.
  destruct (Rle_dec 0 w); destruct (Rle_dec 0 s); split; try nra.
  all: destruct (Rle_dec 0 a); destruct (Rle_dec 0 b); destruct (Rle_dec 0 c); destruct (Rle_dec 0 d); nra.
Qed.
Lemma r_div_encl X Y Z s t : r_div X Y = Some Z -> inI X s -> inI Y t -> inI Z (s / t).
Proof.
  unfold r_div. destruct (has0 Y) eqn:E; [discriminate|]. intro H. injection H as <-. intros Hs Ht. unfold inI in *. simpl.
  assert (N : ~ (rl Y <= 0 <= rh Y)) by (intro T; apply has0_iff in T; congruence).
  unfold Rdiv. apply bilinear; [exact Hs|].
  assert (C : 0 < rl Y \/ rh Y < 0) by lra. destruct C as [C|C].
  - split; apply Rinv_le_contravar; lra.
  - split; apply Ropp_le_cancel; rewrite <- !Rinv_opp; apply Rinv_le_contravar; lra.
Qed.
Lemma sym_in a c : Rabs c <= a -> inI (sym a) c.
Proof. intro H. assert (0 <= a) by (assert (T := Rabs_pos c); lra). apply Rabs_le_iff in H. unfold inI, sym, sort_itv; simpl. rewrite Rmin_left, Rmax_right by lra. lra. Qed.
(** A number x with |a x - c| <= be + al |x| is a quotient of perturbed numbers. *)
Lemma perturb a c x al be : 0 <= al -> 0 <= be -> Rabs (a * x - c) <= be + al * Rabs x ->
  exists a' c', Rabs a' <= al /\ Rabs c' <= be /\ (a + a') * x = c + c'.
Proof.
  intros Ha Hb H. set (e := a * x - c) in *. destruct (Rle_dec (Rabs e) be) as [L|L].
  - exists 0, e. rewrite Rabs_R0. unfold e in *. repeat split; try lra.
  - assert (Nx : x <> 0) by (intro E; rewrite E, Rabs_R0 in H; lra). assert (Px : 0 < Rabs x) by now apply Rabs_pos_lt.
    destruct (Rle_dec 0 e) as [S|S].
    + rewrite Rabs_right in H, L by lra. exists ((be - e) / x), be. split; [|split].
      * unfold Rdiv. rewrite Rabs_mult, Rabs_inv. apply (Rmult_le_reg_r (Rabs x)); [exact Px|]. rewrite Rmult_assoc, Rinv_l, Rmult_1_r by lra. rewrite Rabs_left by lra. lra.
      * rewrite Rabs_right; lra.
      * rewrite Rmult_plus_distr_r. replace ((be - e) / x * x) with (be - e) by (field; exact Nx). unfold e. ring.
    + rewrite (Rabs_left e) in H, L by lra. exists ((- be - e) / x), (- be). split; [|split].
      * unfold Rdiv. rewrite Rabs_mult, Rabs_inv. apply (Rmult_le_reg_r (Rabs x)); [exact Px|]. rewrite Rmult_assoc, Rinv_l, Rmult_1_r by lra. rewrite Rabs_right by lra. lra.
      * rewrite Rabs_Ropp, Rabs_right; lra.
      * rewrite Rmult_plus_distr_r. replace ((- be - e) / x * x) with (- be - e) by (field; exact Nx). unfold e. ring.
Qed.

(** ** M-matrices *)
Section HB.
Context (k : nat) (A : imat) (b : ivec) (B : mat).
Notation n := (S k).
Hypothesis PA : forall i j, proper (A i j).
Hypothesis Pb : forall i, proper (b i).
Notation cm := (r_compmat A).
Hypothesis HB : inverse_of n cm B.
Hypothesis HA : h_matrix n A.
Lemma choose_mat : exists Mx, in_imat n n A Mx /\ (forall i, (i < n)%nat -> Rabs (Mx i i) = r_mig (A i i)) /\
  forall i j, (i < n)%nat -> (j < n)%nat -> i <> j -> Rabs (Mx i j) = r_mag (A i j).
Proof.
  assert (Ch : forall i j, exists a, inI (A i j) a /\ Rabs a = if (i =? j)%nat then r_mig (A i j) else r_mag (A i j)).
  { intros i j. destruct (i =? j)%nat; [now apply mig_attained | now apply mag_attained]. }
  set (pick := fun i j => let c := rl (A i j) in let d := rh (A i j) in let t := if (i =? j)%nat then r_mig (A i j) else r_mag (A i j) in
     if Req_EM_T (Rabs c) t then c else if Req_EM_T (Rabs d) t then d else 0).
  exists pick. assert (Q : forall i j, inI (A i j) (pick i j) /\ Rabs (pick i j) = if (i =? j)%nat then r_mig (A i j) else r_mag (A i j)).
  { intros i j. assert (P := PA i j). unfold pick; cbv zeta. unfold proper, inI in *. destruct Req_EM_T as [E|E]; [split; [lra|exact E]|]. destruct Req_EM_T as [E2|E2]; [split; [lra|exact E2]|].
    destruct (i =? j)%nat.
    - unfold r_mig in *. destruct (has0 (A i j)) eqn:H0; [apply has0_iff in H0; rewrite Rabs_R0; lra|]. exfalso. unfold Rmin in *. destruct Rle_dec; lra.
    - exfalso. unfold r_mag, Rmax in *. destruct Rle_dec; lra. }
  split; [intros i j _ _; apply Q|]. split.
  - intros i _. destruct (Q i i) as [_ E]. now rewrite Nat.eqb_refl in E.
  - intros i j _ _ Ne. destruct (Q i j) as [_ E]. destruct (Nat.eqb_spec i j); [contradiction|exact E].
Qed.
Lemma split_diag f i : (i < n)%nat -> total n f = f i + total n (fun j => if Nat.eqb j i then 0 else f j).
Proof.
  intro Hi. assert (T := total_pick n i (fun j => if Nat.eqb j i then f j else 0) Hi). cbv beta in T. rewrite Nat.eqb_refl in T.
  rewrite <- T by (intros j Hj Ne; destruct (Nat.eqb_spec j i); [contradiction|reflexivity]). rewrite <- total_plus. apply total_ext. intros j Hj. destruct (j =? i)%nat; lra.
Qed.
Lemma cm_row y i : (i < n)%nat -> times n cm y i = r_mig (A i i) * y i - total n (fun j => if Nat.eqb j i then 0 else r_mag (A i j) * y j).
Proof.
  intro Hi. unfold times. rewrite (split_diag _ i Hi). unfold r_compmat. rewrite Nat.eqb_refl. unfold Rminus. f_equal. rewrite <- total_opp. apply total_ext. intros j Hj.
  destruct (Nat.eqb_spec j i) as [->|Ne]; [lra|]. destruct (Nat.eqb_spec i j); [congruence|]. ring.
Qed.
Lemma cm_pos : exists p, positive n p /\ forall i, (i < n)%nat -> 0 < times n cm p i.
Proof.
  destruct HA as (p & Pp & Hp). exists p. split; [exact Pp|]. intros i Hi. destruct choose_mat as (Mx & HM & D & O).
  assert (T := Hp Mx HM i Hi). rewrite cm_row by exact Hi. rewrite D in T by exact Hi.
  rewrite (total_ext n _ (fun j => if Nat.eqb j i then 0 else r_mag (A i j) * p j)) in T; [lra|].
  intros j Hj. destruct (Nat.eqb_spec j i) as [|Ne]; [reflexivity|]. rewrite O by congruence. reflexivity.
Qed.
Lemma mag_nn X : 0 <= r_mag X.
Proof. unfold r_mag. eapply Rle_trans; [apply (Rabs_pos (rl X)) | apply Rmax_l]. Qed.
Lemma mig_nn X : 0 <= r_mig X.
Proof. unfold r_mig. destruct (has0 X); [lra|]. apply Rmin_glb; apply Rabs_pos. Qed.
Lemma cm_monotone y : (forall i, (i < n)%nat -> 0 <= times n cm y i) -> forall i, (i < n)%nat -> 0 <= y i.
Proof.
  intro H. destruct cm_pos as (p & Pp & Hp). destruct (max_ratio k (fun j => - y j) p Pp) as (t & Ht & Mt).
  assert (Yt : 0 <= y t).
  { destruct (Rle_dec 0 (y t)) as [|Ne]; [assumption|]. exfalso. assert (T := H t Ht). assert (U := Hp t Ht). rewrite cm_row in T, U by exact Ht.
    assert (S : total n (fun j => if Nat.eqb j t then 0 else r_mag (A t j) * p j) * y t <= total n (fun j => if Nat.eqb j t then 0 else r_mag (A t j) * y j) * p t).
    { rewrite <- !total_scal_r. apply total_le. intros j Hj. destruct (Nat.eqb_spec j t); [lra|]. assert (V := Mt j Hj). assert (W := mag_nn (A t j)). nra. }
    assert (Q := Pp t Ht). nra. }
  intros i Hi. assert (V := Mt i Hi). assert (Q := Pp t Ht). assert (Q2 := Pp i Hi). nra.
Qed.
Lemma cm_B i j : (i < n)%nat -> (j < n)%nat -> times n cm (fun l => B l j) i = eye i j.
Proof. intros Hi Hj. exact (proj1 (HB i j Hi Hj)). Qed.
Lemma B_nn i j : (i < n)%nat -> (j < n)%nat -> 0 <= B i j.
Proof.
  intros Hi Hj. apply (cm_monotone (fun l => B l j)); [|exact Hi]. intros l Hl. rewrite cm_B by assumption. unfold eye. destruct (l =? j)%nat; lra.
Qed.
Lemma B_diag i : (i < n)%nat -> 0 < B i i /\ 1 <= r_mig (A i i) * B i i.
Proof.
  intro Hi. assert (T := cm_B i i Hi Hi). rewrite cm_row in T by exact Hi. unfold eye in T. rewrite Nat.eqb_refl in T.
  assert (0 <= total n (fun j => if Nat.eqb j i then 0 else r_mag (A i j) * B j i)).
  { apply total_nn. intros j Hj. destruct (Nat.eqb j i); [lra|]. apply Rmult_le_pos; [apply mag_nn | now apply B_nn]. }
  assert (G : 1 <= r_mig (A i i) * B i i) by lra. split; [|exact G]. assert (U := B_nn i i Hi Hi). assert (V := mig_nn (A i i)). 
  destruct (Req_dec (B i i) 0) as [E|E]; [rewrite E in G; lra|lra].
Qed.
Lemma B_cm y i : (i < n)%nat -> total n (fun l => B i l * times n cm y l) = y i.
Proof.
  intro Hi. unfold times. rewrite (total_ext n _ (fun l => total n (fun j => B i l * (cm l j * y j)))) by (intros; now rewrite total_scal).
  rewrite total_swap. rewrite (total_ext n _ (fun j => eye i j * y j)).
  - rewrite (total_pick n i _ Hi); [unfold eye; rewrite Nat.eqb_refl; ring|]. intros j Hj Ne. unfold eye. destruct (Nat.eqb_spec i j); [congruence|ring].
  - intros j Hj. unfold eye. rewrite <- (proj2 (HB i j Hi Hj)), <- total_scal_r. apply total_ext. intros. ring.
Qed.
Lemma cmB_one i : (i < n)%nat -> times n cm (fun l => total n (fun j => B l j)) i = 1.
Proof.
  intro Hi. unfold times. rewrite (total_ext n _ (fun l => total n (fun j => cm i l * B l j))) by (intros; now rewrite total_scal).
  rewrite total_swap. rewrite (total_ext n _ (fun j => eye i j)) by (intros j Hj; exact (proj1 (HB i j Hi Hj))).
  rewrite (total_pick n i _ Hi); [unfold eye; now rewrite Nat.eqb_refl|]. intros j Hj Ne. unfold eye. destruct (Nat.eqb_spec i j); [congruence|reflexivity].
Qed.
Notation mb := (fun i => r_mag (b i)).
Definition h_alpha i := r_mig (A i i) + (-1) / B i i.
Definition h_beta i := total n (fun l => B i l * mb l) / B i i - mb i.
Lemma alpha_range i : (i < n)%nat -> 0 <= h_alpha i < r_mig (A i i).
Proof.
  intro Hi. destruct (B_diag i Hi) as [P G]. unfold h_alpha. assert (Q : 0 < / B i i) by now apply Rinv_0_lt_compat.
  assert (/ B i i <= r_mig (A i i)). { apply (Rmult_le_reg_r (B i i)); [exact P|]. rewrite Rinv_l by lra. lra. } unfold Rdiv. lra.
Qed.
Lemma beta_nn i : (i < n)%nat -> 0 <= h_beta i.
Proof.
  intro Hi. destruct (B_diag i Hi) as [P _]. unfold h_beta.
  assert (T := total_term n (fun l => B i l * mb l) i Hi ltac:(intros; apply Rmult_le_pos; [now apply B_nn | apply mag_nn])). cbv beta in T.
  assert (mb i <= total n (fun l => B i l * mb l) / B i i); [|lra]. apply (Rmult_le_reg_r (B i i)); [exact P|]. unfold Rdiv. rewrite Rmult_assoc, Rinv_l by lra. lra.
Qed.
Lemma main_ineq Mx v x i : in_imat n n A Mx -> in_ivec n b v -> solves n n Mx v x -> (i < n)%nat ->
  Rabs (Mx i i * x i - v i) <= h_beta i + h_alpha i * Rabs (x i).
Proof.
  intros HM Hv S Hi. set (y := fun j => Rabs (x j)). set (z := times n cm y). 
  assert (Z : forall l, (l < n)%nat -> z l <= mb l).
  { intros l Hl. unfold z. rewrite cm_row by exact Hl. assert (E := S l Hl). unfold times in E. rewrite (split_diag _ l Hl) in E.
    assert (T : Rabs (Mx l l * x l) <= mb l + total n (fun j => if Nat.eqb j l then 0 else r_mag (A l j) * y j)).
    { replace (Mx l l * x l) with (v l + - total n (fun j => if Nat.eqb j l then 0 else Mx l j * x j)) by lra.
      eapply Rle_trans; [apply Rabs_triang|]. apply Rplus_le_compat; [apply mag_ge; now apply Hv|]. rewrite Rabs_Ropp. eapply Rle_trans; [apply total_abs|].
      apply total_le. intros j Hj. destruct (Nat.eqb j l); [rewrite Rabs_R0; lra|]. rewrite Rabs_mult. apply Rmult_le_compat_r; [apply Rabs_pos|]. apply mag_ge. now apply HM. }
    rewrite Rabs_mult in T. assert (M1 := mig_le (A l l) (Mx l l) (HM l l Hl Hl)). fold (y l) in T. assert (0 <= y l) by apply Rabs_pos. nra. }
  assert (Y := B_cm y i Hi). fold z in Y. rewrite (split_diag _ i Hi) in Y. destruct (B_diag i Hi) as [P _].
  assert (Zi : y i / B i i - h_beta i <= z i).
  { unfold h_beta. rewrite (split_diag (fun l => B i l * mb l) i Hi).
    assert (T : total n (fun j => if Nat.eqb j i then 0 else B i j * z j) <= total n (fun j => if Nat.eqb j i then 0 else B i j * mb j)).
    { apply total_le. intros j Hj. destruct (Nat.eqb j i); [lra|]. apply Rmult_le_compat_l; [now apply B_nn | now apply Z]. }
    apply (Rmult_le_reg_r (B i i)); [exact P|]. field_simplify; lra. }
  assert (Off : Rabs (Mx i i * x i - v i) <= total n (fun j => if Nat.eqb j i then 0 else r_mag (A i j) * y j)).
  { assert (E := S i Hi). unfold times in E. rewrite (split_diag _ i Hi) in E.
    replace (Mx i i * x i - v i) with (- total n (fun j => if Nat.eqb j i then 0 else Mx i j * x j)) by lra. rewrite Rabs_Ropp. eapply Rle_trans; [apply total_abs|].
    apply total_le. intros j Hj. destruct (Nat.eqb j i); [rewrite Rabs_R0; lra|]. rewrite Rabs_mult. apply Rmult_le_compat_r; [apply Rabs_pos|]. apply mag_ge. now apply HM. }
  assert (R := cm_row y i Hi). change (times n cm y i) with (z i) in R. unfold h_alpha. fold (y i). unfold Rdiv in *. lra.
Qed.
Lemma divisor_ok i : (i < n)%nat -> has0 (r_add (A i i) (sym (h_alpha i))) = false.
Proof.
  intro Hi. destruct (has0 (r_add (A i i) (sym (h_alpha i)))) eqn:E; [|reflexivity]. exfalso. apply has0_iff in E. destruct (alpha_range i Hi) as [A1 A2].
  unfold r_add, sym, sort_itv in E. simpl in E. rewrite Rmin_left, Rmax_right in E by lra. assert (P := PA i i). unfold proper in P.
  assert (N : ~ inI (A i i) 0). { intro T. apply mig_le in T. rewrite Rabs_R0 in T. lra. }
  unfold inI in N. assert (C : 0 < rl (A i i) \/ rh (A i i) < 0) by lra. destruct C as [C|C].
  - assert (T := mig_le (A i i) (rl (A i i)) ltac:(unfold inI; lra)). rewrite Rabs_right in T by lra. lra.
  - assert (T := mig_le (A i i) (rh (A i i)) ltac:(unfold inI; lra)). rewrite Rabs_left in T by lra. lra.
Qed.
Lemma quotient_encl Mx v x i Z : in_imat n n A Mx -> in_ivec n b v -> solves n n Mx v x -> (i < n)%nat ->
  r_div (r_add (b i) (sym (h_beta i))) (r_add (A i i) (sym (h_alpha i))) = Some Z -> inI Z (x i).
Proof.
  intros HM Hv S Hi H. destruct (alpha_range i Hi) as [A1 A2].
  destruct (perturb (Mx i i) (v i) (x i) (h_alpha i) (h_beta i) A1 (beta_nn i Hi) (main_ineq Mx v x i HM Hv S Hi)) as (a' & c' & Ha & Hc & E).
  assert (T : inI (r_add (A i i) (sym (h_alpha i))) (Mx i i + a')).
  { assert (U := sym_in _ _ Ha). assert (V := HM i i Hi Hi). destruct U, V. unfold r_add. split; cbn [rl rh]; lra. }
  assert (Nz : Mx i i + a' <> 0).
  { intro Z0. assert (D := divisor_ok i Hi). rewrite Z0 in T. unfold inI in T. assert (has0 (r_add (A i i) (sym (h_alpha i))) = true) by now apply has0_iff. congruence. }
  replace (x i) with ((v i + c') / (Mx i i + a')) by (rewrite <- E; field; exact Nz).
  apply (r_div_encl _ _ _ _ _ H); [|exact T]. assert (U := sym_in _ _ Hc). assert (V := Hv i Hi). destruct U, V. unfold r_add. split; cbn [rl rh]; lra.
Qed.
End HB.

(** ** The function *)
Lemma vmax_const k f c : (forall i, (i <= k)%nat -> f i = c) -> vmax k f = c.
Proof. intro H. induction k as [|k IH]; simpl; [apply H; lia|]. rewrite IH by (intros; apply H; lia). rewrite H by lia. apply Rmax_left. lra. Qed.
Lemma all_some_intro {T} (f : nat -> option T) l : (forall i, In i l -> exists v, f i = Some v) -> exists r, all_some (map f l) = Some r /\ length r = length l /\ 
  forall p d e, (p < length l)%nat -> f (nth p l d) = Some (nth p r e).
Proof.
  induction l as [|a l IH]; intro H; simpl.
  - exists []. repeat split. intros p d e Hp. lia.
  - destruct (H a (or_introl eq_refl)) as [v Hv]. destruct IH as (r & E & L & N); [intros; apply H; now right|]. exists (v :: r). rewrite Hv, E. repeat split; simpl; [now rewrite L|].
    intros [|p] d e Hp; [exact Hv|]. apply N. lia.
Qed.
(** The value of the function when [B] is the exact inverse of the comparison
    matrix and the preconditioned matrix is an H-matrix. *)
Theorem hbr_value k A b C B :
  inverse_of (S k) (r_compmat (rimm (S k) C A)) B -> h_matrix (S k) (rimm (S k) C A) ->
  exists r, hbr k A b C B = Some r /\ length r = S k /\ forall i, (i < S k)%nat ->
    r_div (r_add (rimv (S k) C b i) (sym (h_beta k (rimv (S k) C b) B i))) (r_add (rimm (S k) C A i i) (sym (h_alpha (rimm (S k) C A) B i))) = Some (nth i r (mkr 0 0)).
Proof.
  intros HB HA. set (A1 := rimm (S k) C A) in *. set (b1 := rimv (S k) C b).
  assert (PA : forall i j, proper (A1 i j)) by (intros; apply isum_proper; intros; apply scale_proper).
  unfold hbr. fold A1. fold b1. cbv zeta.
  set (v := vabs (mv (S k) B (fun _ => 1))). set (u := mv (S k) (r_compmat A1) v).
  assert (V : forall i, (i < S k)%nat -> v i = total (S k) (fun j => B i j)).
  { intros i Hi. unfold v, vabs, mv. rewrite vsum_eq. rewrite (total_ext (S k) _ (fun j => B i j)) by (intros; ring). apply Rabs_right. apply Rle_ge. apply total_nn. intros j Hj. now apply (B_nn k A1 B). }
  assert (U : forall i, (i < S k)%nat -> u i = 1).
  { intros i Hi. unfold u. rewrite mv_times. rewrite <- (cmB_one k A1 B HB i Hi). unfold times. apply total_ext. intros j Hj. now rewrite V. }
  assert (Ex : existsb (fun i => if Rlt_dec 0 (u i) then true else false) (seq 0 (S k)) = true).
  { apply existsb_exists. exists O. split; [apply in_seq; lia|]. rewrite U by lia. destruct Rlt_dec; [reflexivity|lra]. }
  rewrite Ex.
  assert (W : forall j, (j < S k)%nat -> vmax k (fun i => - (mm (S k) (r_compmat A1) B i j - eye i j) / (u i * 1)) = 0).
  { intros j Hj. apply vmax_const. intros i Hi. unfold mm. rewrite vsum_eq. rewrite (proj1 (HB i j ltac:(lia) Hj)). unfold eye. unfold Rdiv. destruct (i =? j)%nat; ring. }
  set (w := fun j : nat => vmax k (fun i : nat => - (mm (S k) (r_compmat A1) B i j - eye i j) / (u i * 1))).
  change (fun i : nat => v i * vmax k (fun i0 : nat => - (mm (S k) (r_compmat A1) B i0 i - eye i0 i) / (u i0 * 1))) with (fun i : nat => v i * w i).
  assert (W0 : forall j, (j < S k)%nat -> w j = 0) by exact W.
  assert (VW : vsum (S k) (fun i => v i * w i) = 0).
  { rewrite vsum_eq. apply total_0. intros j Hj. rewrite W0 by exact Hj. ring. }
  rewrite VW.
  set (al := fun i => r_compmat A1 i i + (-1) / (B i i + 0)). set (be := fun i => mv (S k) (fun i0 j => B i0 j + 0) (fun i0 => r_mag (b1 i0)) i / - (v i * w i - B i i) - r_mag (b1 i)).
  assert (Al : forall i, (i < S k)%nat -> al i = h_alpha A1 B i).
  { intros i Hi. unfold al, h_alpha. unfold r_compmat. rewrite Nat.eqb_refl. now rewrite Rplus_0_r. }
  assert (Be : forall i, (i < S k)%nat -> be i = h_beta k b1 B i).
  { intros i Hi. unfold be, h_beta. rewrite W0 by exact Hi. rewrite mv_times. unfold times. f_equal. 
    replace (- (v i * 0 - B i i)) with (B i i) by ring. f_equal. apply total_ext. intros. ring. }
  destruct (all_some_intro (fun i => r_div (r_add (b1 i) (sym (be i))) (r_add (A1 i i) (sym (al i)))) (seq 0 (S k))) as (r & E & L & N).
  { intros i Hi. apply in_seq in Hi. rewrite Al by lia. unfold r_div. rewrite (divisor_ok k A1 B PA HB HA) by lia. eexists. reflexivity. }
  exists r. split; [exact E|]. rewrite seq_length in L, N. split; [exact L|].
  intros i Hi. assert (Q := N i O (mkr 0 0) Hi). rewrite seq_nth in Q by exact Hi. rewrite Nat.add_0_l, Al, Be in Q by exact Hi. exact Q.
Qed.
(** Whatever matrix [C] is used for preconditioning: when [B] is the exact
    inverse of the comparison matrix and the preconditioned matrix is an
    H-matrix, the function returns a box that contains every solution. *)
Theorem hbr_encloses k A b C B :
  inverse_of (S k) (r_compmat (rimm (S k) C A)) B -> h_matrix (S k) (rimm (S k) C A) ->
  exists r, hbr k A b C B = Some r /\ length r = S k /\
    forall x, united (S k) (S k) A b x -> forall i, (i < S k)%nat -> inI (nth i r (mkr 0 0)) (x i).
Proof.
  intros HB HA. destruct (hbr_value k A b C B HB HA) as (r & E & L & N). exists r. split; [exact E|]. split; [exact L|].
  intros x (M & c & HM & Hc & Sx) i Hi. destruct (precond_solves (S k) (S k) A b M c x C HM Hc Sx) as (M1 & c1 & HM1 & Hc1 & S1).
  apply (quotient_encl k (rimm (S k) C A) (rimv (S k) C b) B) with (Mx := M1) (v := c1); auto.
  intros; apply isum_proper; intros; apply scale_proper.
Qed.
