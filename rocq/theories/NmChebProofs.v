(** Proofs about Neumaier and ChebNorm. *)
From Coq Require Import Reals ZArith List Bool Arith Lia Lra Psatz.
From Verif Require Import Exact Recog SpecExact ExactProofs RecogProofs Estim SpecEstim EstimProofs RohnProofs HbrProofs.
Import ListNotations.
Open Scope R_scope.

(** ** Neumaier *)
Lemma mag_csub_encl c X a : inI X a -> Rabs (c - a) <= r_mag (r_csub c X).
Proof. intro H. apply mag_ge. unfold inI, r_csub in *. simpl. lra. Qed.
Lemma midrad_inI X v : Rabs (v - r_mid X) <= r_rad X -> inI X v.
Proof. intro H. apply Rabs_le_iff in H. unfold inI, r_mid, r_rad in *. lra. Qed.
(** If no coordinate is farther from [y] than the radius computed for row i,
    row i is satisfied. *)
Lemma nm_row n A b y i M x : (forall j, (j < n)%nat -> inI (A i j) (M i j)) -> 0 < total n (fun j => r_mag (A i j)) ->
  (forall j, (j < n)%nat -> Rabs (x j - y j) <= nm_r n A b y i) -> inI (b i) (times n M x i).
Proof.
  intros HM Pos Hx. apply midrad_inI. unfold nm_r in Hx. rewrite vsum_eq in Hx. set (s := total n _) in *. set (q := r_rad (b i) - _) in *.
  assert (E : r_mid (b i) - times n M x i = (r_mid (b i) - times n M y i) + - times n M (minus x y) i).
  { unfold times, minus. rewrite (total_ext n (fun j => M i j * (x j - y j)) (fun j => M i j * x j - M i j * y j)) by (intros; ring). rewrite total_minus. ring. }
  assert (T1 : Rabs (r_mid (b i) - times n M y i) <= r_mag (r_csub (r_mid (b i)) (imv n A y i))).
  { apply mag_csub_encl. unfold imv, inI. rewrite isum_lo, isum_hi. unfold times.
    split; apply total_le; intros j Hj; destruct (scale_in (y j) (A i j) (M i j) (HM j Hj)); rewrite (Rmult_comm (M i j)); assumption. }
  assert (T2 : Rabs (times n M (minus x y) i) <= q).
  { unfold times. eapply Rle_trans; [apply total_abs|]. apply Rle_trans with (total n (fun j => r_mag (A i j) * (q / s))).
    - apply total_le. intros j Hj. rewrite Rabs_mult. apply Rmult_le_compat; try apply Rabs_pos; [apply mag_ge; now apply HM | now apply Hx].
    - rewrite total_scal_r. fold s. right. field. lra. }
  rewrite Rabs_minus_sym, E. eapply Rle_trans; [apply Rabs_triang|]. rewrite Rabs_Ropp. unfold q in T2. lra.
Qed.
(** The intended inner box: the cube whose half-width is at most every row's radius. *)
Theorem neumaier_min_cube m n A b y x : (forall i, (i < m)%nat -> 0 < total n (fun j => r_mag (A i j))) ->
  (forall i j, (i < m)%nat -> (j < n)%nat -> Rabs (x j - y j) <= nm_r n A b y i) -> tolerable m n A b x.
Proof. intros Pos Hx M HM i Hi. apply (nm_row n A b y i); [intros; now apply HM | now apply Pos | intros; now apply Hx]. Qed.
Lemma sym_scale c : 0 <= c -> r_scale c (mkr (-1) 1) = mkr (- c) c.
Proof. intro H. unfold r_scale; simpl. rewrite Rmin_left, Rmax_right by lra. f_equal; ring. Qed.
(** One equation: the box returned (without weights) contains only tolerable points. *)
Theorem neumaier_single_row n A b y : (0 < n)%nat -> proper_mat 1 n A -> (exists j, (j < n)%nat /\ ~ (rl (A O j) = 0 /\ rh (A O j) = 0)) ->
  tolerable 1 n A b y ->
  exists box, neumaier 1 n A b y None = Some (n, box) /\ in_ivec n box y /\ forall x, in_ivec n box x -> tolerable 1 n A b x.
Proof.
  intros Hn PA (j0 & Hj0 & Nz) Ty.
  assert (Pos : 0 < total n (fun j => r_mag (A O j))).
  { assert (T := total_term n (fun j => r_mag (A O j)) j0 Hj0 ltac:(intros; apply mag_nn)). cbv beta in T. assert (0 < r_mag (A O j0)); [|lra].
    unfold r_mag. assert (D : rl (A O j0) <> 0 \/ rh (A O j0) <> 0) by (destruct (Req_dec (rl (A O j0)) 0); destruct (Req_dec (rh (A O j0)) 0); tauto).
    destruct D as [D|D]; apply Rabs_pos_lt in D; [eapply Rlt_le_trans; [exact D|apply Rmax_l] | eapply Rlt_le_trans; [exact D|apply Rmax_r]]. }
  assert (R0 : 0 <= nm_r n A b y O).
  { unfold nm_r. rewrite vsum_eq. apply Rmult_le_pos; [|left; now apply Rinv_0_lt_compat].
    apply (tol_row 1 n A b y 0 O PA ltac:(lia)). intros M HM. apply shrink0. apply Ty; [exact HM|lia]. }
  assert (Bl : bcast_len n 1 = Some n). { unfold bcast_len. destruct (Nat.eqb_spec n 1) as [->|]; reflexivity. }
  unfold neumaier. rewrite Bl. eexists. split; [reflexivity|].
  assert (En : forall j, (j < n)%nat -> bidx n j = j). { intros j Hj. unfold bidx. destruct (Nat.eqb_spec n 1); lia. }
  split.
  - intros j Hj. unfold inI. cbn [nm_box nm_A]. cbv zeta. rewrite (En j Hj). change (bidx 1 j) with O. rewrite sym_scale by lra. simpl. lra.
  - intros x Hx. apply (neumaier_min_cube 1 n A b y x); [intros i Hi; replace i with O by lia; exact Pos|].
    intros i j Hi Hj. replace i with O by lia. specialize (Hx j Hj). unfold inI in Hx. cbn [nm_box nm_A] in Hx. cbv zeta in Hx. rewrite (En j Hj) in Hx. change (bidx 1 j) with O in Hx.
    rewrite sym_scale in Hx by lra. simpl in Hx. apply Rabs_le. lra.
Qed.
(** The shapes: several equations in a different number (> 1) of unknowns raise. *)
Theorem neumaier_shape m n A b y w : neumaier m n A b y w = None <-> (n <> m /\ n <> 1 /\ m <> 1)%nat.
Proof.
  unfold neumaier, bcast_len. destruct (Nat.eqb_spec n m); [split; [discriminate|intuition]|]. destruct (Nat.eqb_spec n 1); [split; [discriminate|intuition]|].
  destruct (Nat.eqb_spec m 1); [split; [discriminate|intuition]|]. split; [intros _|]; auto.
Qed.

(** ** ChebNorm *)
Definition lpbox_ok (n : nat) (lpbox : nat -> vec -> vec -> vec -> vec) : Prop :=
  forall c l u, (forall j, (j < n)%nat -> l j <= u j) -> box_minimizer n c l u (lpbox n c l u).
Section Ch.
Context (lpbox : nat -> vec -> vec -> vec -> vec) (k n : nat) (A : imat) (b : ivec).
Hypothesis LP : lpbox_ok n lpbox.
Hypothesis PA : proper_mat (S k) n A.
Hypothesis Pb : proper_vec (S k) b.
Notation bm := (fun i => r_mid (b i)).
Notation opt := (opt_A lpbox n (infs_of A) (sups_of A) bm).
Lemma opt_in x : in_imat (S k) n A (opt x).
Proof.
  intros i j Hi Hj. unfold opt_A, inI. assert (Q : forall j, (j < n)%nat -> infs_of A i j <= sups_of A i j) by (intros; now apply PA).
  destruct Rle_dec; match goal with |- _ <= lpbox n ?c _ _ _ <= _ => destruct (LP c _ _ Q) as [I _]; exact (I j Hj) end.
Qed.
Lemma lp_lo x i : (i < S k)%nat -> total n (fun j => lpbox n x (infs_of A i) (sups_of A i) j * x j) = rl (imv n A x i).
Proof.
  intro Hi. assert (Q : forall j, (j < n)%nat -> infs_of A i j <= sups_of A i j) by (intros; now apply PA). destruct (LP x _ _ Q) as [I Mn].
  rewrite (imv_lo (S k) n A x i PA Hi). apply Rle_antisym.
  - assert (T := Mn (at_lo A x i) ltac:(intros; now apply (at_lo_in (S k) n A x PA))). unfold dot in T. unfold times.
    rewrite (total_ext n (fun j => lpbox n x (infs_of A i) (sups_of A i) j * x j) (fun j => x j * lpbox n x (infs_of A i) (sups_of A i) j)) by (intros; ring).
    rewrite (total_ext n (fun j => at_lo A x i j * x j) (fun j => x j * at_lo A x i j)) by (intros; ring). exact T.
  - rewrite <- (imv_lo (S k) n A x i PA Hi). set (a := lpbox n x _ _) in *. apply (imv_encl (S k) n A x (fun r j => if Nat.eqb r i then a j else rl (A r j)) i) in Hi as H.
    2: { intros r j Hr Hj. destruct (Nat.eqb_spec r i) as [->|]; [now apply I|]. assert (T := PA r j Hr Hj). unfold proper, inI in *. lra. }
    destruct H as [H _]. unfold times in H. rewrite Nat.eqb_refl in H. exact H.
Qed.
Lemma lp_hi x i : (i < S k)%nat -> total n (fun j => lpbox n (fun j => - x j) (infs_of A i) (sups_of A i) j * x j) = rh (imv n A x i).
Proof.
  intro Hi. assert (Q : forall j, (j < n)%nat -> infs_of A i j <= sups_of A i j) by (intros; now apply PA). destruct (LP (fun j => - x j) _ _ Q) as [I Mn].
  rewrite (imv_hi (S k) n A x i PA Hi). apply Rle_antisym.
  - rewrite <- (imv_hi (S k) n A x i PA Hi). set (a := lpbox n _ _ _) in *. apply (imv_encl (S k) n A x (fun r j => if Nat.eqb r i then a j else rl (A r j)) i) in Hi as H.
    2: { intros r j Hr Hj. destruct (Nat.eqb_spec r i) as [->|]; [now apply I|]. assert (T := PA r j Hr Hj). unfold proper, inI in *. lra. }
    destruct H as [_ H]. unfold times in H. rewrite Nat.eqb_refl in H. exact H.
  - assert (T := Mn (at_hi A x i) ltac:(intros; now apply (at_hi_in (S k) n A x PA))). unfold dot in T. unfold times.
    assert (Z : forall f : vec, total n (fun j => - x j * f j) = - total n (fun j => f j * x j)) by (intro f; rewrite <- total_opp; apply total_ext; intros; ring).
    rewrite !Z in T. lra.
Qed.
(** Which member of row i is evaluated. *)
Lemma opt_value x i : (i < S k)%nat -> mv n (opt x) x i = if Rle_dec (rl (imv n A x i) - rh (imv n A x i)) (2 * r_mid (b i)) then rl (imv n A x i) else rh (imv n A x i).
Proof.
  intro Hi. assert (E1 := lp_lo x i Hi). assert (E2 := lp_hi x i Hi).
  assert (E3 : total n (fun j => lpbox n (fun j0 => - x j0) (infs_of A i) (sups_of A i) j * - x j) = - rh (imv n A x i)).
  { rewrite <- E2, <- total_opp. apply total_ext. intros. ring. }
  rewrite <- vsum_eq in E1, E3. rewrite <- vsum_eq in E2. unfold mv, opt_A. rewrite E1, E3. cbv beta.
  destruct (Rle_dec (- rh (imv n A x i) - r_mid (b i)) (r_mid (b i) - rl (imv n A x i))); destruct Rle_dec; lra.
Qed.
Lemma far_point c r t : 0 <= r -> exists v, c - r <= v <= c + r /\ Rabs (v - t) = r + Rabs (c - t).
Proof.
  intro Hr. destruct (Rle_dec t c); [exists (c + r) | exists (c - r)]; (split; [lra|]).
  - rewrite !Rabs_right by lra. lra.
  - rewrite !Rabs_left1 by lra. lra.
Qed.
(** The value is the weighted deviation of some members. *)
Theorem cheb_value_attained x w : exists M v i, in_imat (S k) n A M /\ in_ivec (S k) b v /\ (i < S k)%nat /\
  cheb_value lpbox k n A b x w = w i * Rabs (v i - times n M x i).
Proof.
  unfold cheb_value. destruct (vmax_in k (cheb_constituent lpbox n A b x w)) as (i & Hi & E).
  assert (R := rad_nn (b i) (Pb i ltac:(lia))). destruct (far_point (r_mid (b i)) (r_rad (b i)) (times n (opt x) x i) R) as (v & Hv & Ev).
  exists (opt x), (fun r => if Nat.eqb r i then v else rl (b r)), i. split; [apply opt_in|]. split.
  { intros r Hr. destruct (Nat.eqb_spec r i) as [->|]; [destruct (midrad (b i)); unfold inI; lra|]. assert (T := Pb r Hr). unfold proper, inI in *. lra. }
  split; [lia|]. rewrite E, Nat.eqb_refl, Ev. unfold cheb_constituent. rewrite mv_times. reflexivity.
Qed.
Theorem cheb_value_exact x w : non_negative (S k) w ->
  (forall i, (i < S k)%nat -> let lo := rl (imv n A x i) in let hi := rh (imv n A x i) in let c := r_mid (b i) in
     lo = hi \/ (lo - hi <= 2 * c /\ lo + hi <= 2 * c) \/ (2 * c < lo - hi /\ 2 * c <= lo + hi)) ->
  worst_deviation (S k) n A b w x (cheb_value lpbox k n A b x w).
Proof.
  intros W H. split.
  2: { destruct (cheb_value_attained x w) as (M & v & i & H1 & H2 & H3 & H4). exists M, v, i. auto. }
  intros M v HM Hv i Hi. unfold cheb_value. eapply Rle_trans; [|apply (le_vmax k _ i); lia]. unfold cheb_constituent. apply Rmult_le_compat_l; [now apply W|].
  rewrite opt_value by exact Hi. specialize (H i Hi). cbv zeta in H. assert (E := imv_encl (S k) n A x M i HM Hi). set (lo := rl (imv n A x i)) in *. set (hi := rh (imv n A x i)) in *.
  assert (D := inI_midrad _ _ (Hv i Hi)). apply Rabs_le_iff in D. set (t := times n M x i) in *. change (lo <= t <= hi) in E.
  set (c := r_mid (b i)) in *. set (r := r_rad (b i)) in *.
  assert (B1 := Rle_abs (c - lo)). assert (B2 := Rle_abs (- (c - lo))). assert (B3 := Rle_abs (c - hi)). assert (B4 := Rle_abs (- (c - hi))). rewrite Rabs_Ropp in B2, B4.
  apply Rabs_le. destruct Rle_dec; lra.
Qed.
Theorem cheb_fg_value x w : fst (cheb_fg lpbox k n A b w x) = cheb_value lpbox k n A b x w.
Proof. reflexivity. Qed.
(** With unit weights, the value and the returned vector bound the true worst
    deviation from below everywhere. *)
Lemma argmax_in f : (argmax k f < S k)%nat /\ vmax k f = f (argmax k f).
Proof.
  unfold argmax. destruct (argmin_spec k (fun i => - f i)) as (H1 & _ & H2). cbv beta in H2.
  split; [lia|]. apply Rle_antisym; [apply vmax_le; intros j Hj; specialize (H2 j ltac:(lia)); lra | apply le_vmax; lia].
Qed.
Lemma abs_tangent u v : Rabs v >= Rabs u + sgn u * (v - u).
Proof.
  unfold sgn. assert (P := Rle_abs v). assert (N := Rle_abs (- v)). rewrite Rabs_Ropp in N. assert (Z := Rabs_pos v).
  destruct (Rlt_dec 0 u); [rewrite (Rabs_right u) by lra; lra|]. destruct (Rlt_dec u 0); [rewrite (Rabs_left u) by lra; lra|].
  replace u with 0 by lra. rewrite Rabs_R0. lra.
Qed.
Theorem cheb_fg_support x y t : worst_deviation (S k) n A b ones y t ->
  let fg := cheb_fg lpbox k n A b ones x in fst fg + dot n (snd fg) (minus y x) <= t.
Proof.
  intros [U _]. cbv zeta. unfold cheb_fg, cheb_calcfg. cbn [fst snd].
  set (f := fun i : nat => ones i * (r_rad (b i) + Rabs (r_mid (b i) - mv n (opt x) x i))). destruct (argmax_in f) as [Hq Eq]. set (q := argmax k f) in *.
  fold f. fold q. rewrite Eq. unfold f. unfold ones at 1. rewrite Rmult_1_l.
  assert (R := rad_nn (b q) (Pb q Hq)). destruct (far_point (r_mid (b q)) (r_rad (b q)) (times n (opt x) y q) R) as (v & Hv & Ev).
  assert (T := U (opt x) (fun r => if Nat.eqb r q then v else rl (b r)) (opt_in x)). 
  assert (I : in_ivec (S k) b (fun r => if Nat.eqb r q then v else rl (b r))).
  { intros r Hr. destruct (Nat.eqb_spec r q) as [->|]; [destruct (midrad (b q)); unfold inI; lra|]. assert (T1 := Pb r Hr). unfold proper, inI in *. lra. }
  specialize (T I q Hq). unfold ones in T. cbv beta in T. rewrite Nat.eqb_refl, Ev, Rmult_1_l in T. eapply Rle_trans; [|exact T].
  rewrite !mv_times. set (tx := times n (opt x) x q). 
  assert (G : dot n (fun j => opt x q j * sgn (tx - r_mid (b q))) (minus y x) = sgn (tx - r_mid (b q)) * (times n (opt x) y q - tx)).
  { unfold tx, dot, minus, times. rewrite <- total_minus, <- total_scal. apply total_ext. intros. ring. }
  rewrite G. assert (V := abs_tangent (tx - r_mid (b q)) (times n (opt x) y q - r_mid (b q))).
  rewrite (Rabs_minus_sym (r_mid (b q)) tx), (Rabs_minus_sym (r_mid (b q)) (times n (opt x) y q)).
  replace (times n (opt x) y q - r_mid (b q) - (tx - r_mid (b q))) with (times n (opt x) y q - tx) in V by ring. lra.
Qed.
End Ch.
