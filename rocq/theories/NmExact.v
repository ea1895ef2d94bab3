(** When the box Neumaier returns for a square system is inside the tolerable set. *)
From Coq Require Import Reals List Bool Arith Lia Lra Psatz.
From Verif Require Import Exact Recog SpecExact ExactProofs RecogProofs Estim SpecEstim EstimProofs HbrProofs PpsLoop NmChebProofs SpecEstimMat.
Import ListNotations.
Open Scope R_scope.

Lemma min4_attained X Y : exists a c, inI X a /\ inI Y c /\ a * c = rl (r_mul X Y) \/ ~ (proper X /\ proper Y).
Proof.
  destruct (Rle_dec (rl X) (rh X)) as [PX|NX]; [|exists 0, 0; right; unfold proper; tauto].
  destruct (Rle_dec (rl Y) (rh Y)) as [PY|NY]; [|exists 0, 0; right; unfold proper; tauto].
  unfold r_mul, inI. cbn [rl]. unfold Rmin at 1. destruct Rle_dec; unfold Rmin; destruct Rle_dec; do 2 eexists; left; (split; [|split; [|reflexivity]]); lra.
Qed.
Lemma mul_low X Y : proper X -> proper Y -> exists a c, inI X a /\ inI Y c /\ a * c = rl (r_mul X Y).
Proof. intros P Q. destruct (min4_attained X Y) as (a & c & [H|H]); [now exists a, c|tauto]. Qed.
Lemma mul_high X Y : proper X -> proper Y -> exists a c, inI X a /\ inI Y c /\ a * c = rh (r_mul X Y).
Proof.
  unfold proper. intros P Q. unfold r_mul, inI. cbn [rh]. unfold Rmax at 1. destruct Rle_dec; unfold Rmax; destruct Rle_dec; do 2 eexists; (split; [|split; [|reflexivity]]); lra.
Qed.
Lemma choose_vec (n : nat) (P : nat -> R -> Prop) : (forall j, (j < n)%nat -> exists v, P j v) -> exists f : nat -> R, forall j, (j < n)%nat -> P j (f j).
Proof.
  induction n as [|n IH]; intro H; [exists (fun _ => 0); intros; lia|].
  destruct IH as [f Hf]; [intros; apply H; lia|]. destruct (H n ltac:(lia)) as [v Hv].
  exists (fun j => if (j =? n)%nat then v else f j). intros j Hj. destruct (Nat.eqb_spec j n) as [->|]; [exact Hv|apply Hf; lia].
Qed.

(** A box is inside the tolerable set exactly when the interval product of the
    matrix and the box is inside the right-hand side. *)
Theorem box_tolerable_iff m n A b X : proper_mat m n A -> (forall j, (j < n)%nat -> proper (X j)) ->
  ((forall x, in_ivec n X x -> tolerable m n A b x) <->
   forall i, (i < m)%nat -> rl (b i) <= total n (fun j => rl (r_mul (A i j) (X j))) /\ total n (fun j => rh (r_mul (A i j) (X j))) <= rh (b i)).
Proof.
  intros PA PX. split.
  - intros H i Hi.
    assert (W : forall pick : rit -> R, (forall j, (j < n)%nat -> exists a c, inI (A i j) a /\ inI (X j) c /\ a * c = pick (r_mul (A i j) (X j))) ->
      inI (b i) (total n (fun j => pick (r_mul (A i j) (X j))))).
    { intros pick Hp.
      destruct (choose_vec n (fun j a => exists c, inI (A i j) a /\ inI (X j) c /\ a * c = pick (r_mul (A i j) (X j)))) as [a Ha].
      { intros j Hj. destruct (Hp j Hj) as (a & c & Q). now exists a, c. }
      destruct (choose_vec n (fun j c => inI (A i j) (a j) /\ inI (X j) c /\ a j * c = pick (r_mul (A i j) (X j)))) as [x Hx]; [exact Ha|].
      assert (T := H x ltac:(intros j Hj; now apply Hx) (fun p j => if (p =? i)%nat then a j else rl (A p j))).
      assert (HM : in_imat m n A (fun p j => if (p =? i)%nat then a j else rl (A p j))).
      { intros p j Hp' Hj. destruct (Nat.eqb_spec p i) as [->|]; [now apply Hx|]. assert (Q := PA p j Hp' Hj). unfold inI, proper in *. lra. }
      specialize (T HM i Hi). unfold times in T. rewrite Nat.eqb_refl in T. rewrite (total_ext n _ (fun j => pick (r_mul (A i j) (X j)))) in T; [exact T|].
      intros j Hj. now apply Hx. }
    split.
    + apply (W rl). intros j Hj. apply mul_low; [now apply PA|now apply PX].
    + apply (W rh). intros j Hj. apply mul_high; [now apply PA|now apply PX].
  - intros H x Hx M HM i Hi. destruct (H i Hi) as [L U]. unfold inI, times. split.
    + eapply Rle_trans; [exact L|]. apply total_le. intros j Hj. apply (r_mul_in (A i j) (X j)); [now apply HM|now apply Hx].
    + eapply Rle_trans; [|exact U]. apply total_le. intros j Hj. apply (r_mul_in (A i j) (X j)); [now apply HM|now apply Hx].
Qed.

Lemma sym_scale_abs c : r_scale c (mkr (-1) 1) = mkr (- Rabs c) (Rabs c).
Proof.
  unfold r_scale. cbn [rl rh]. destruct (Rle_or_lt 0 c).
  - rewrite Rabs_right, Rmin_left, Rmax_right by lra. f_equal; ring.
  - rewrite Rabs_left, Rmin_right, Rmax_left by lra. f_equal; ring.
Qed.
Lemma neumaier_square n A b y w box : (0 < n)%nat -> neumaier n n A b y w = Some (n, box) -> forall j, (j < n)%nat ->
  box j = mkr (y j - Rabs (nm_box w j * nm_r n (nm_A A w) b y j)) (y j + Rabs (nm_box w j * nm_r n (nm_A A w) b y j)).
Proof.
  intros Hn E j Hj. unfold neumaier, bcast_len in E. rewrite Nat.eqb_refl in E. injection E as <-.
  assert (B : bidx n j = j) by (unfold bidx; destruct (Nat.eqb_spec n 1); lia). cbv beta zeta. rewrite !B. set (c := nm_box w j * nm_r n (nm_A A w) b y j).
  assert (T := sym_scale_abs c). unfold r_scale in T. cbn [rl rh] in T. injection T as T1 T2. rewrite T1, T2. f_equal; ring.
Qed.
Theorem neumaier_inner_iff n A b y w box : proper_mat n n A -> neumaier n n A b y w = Some (n, box) ->
  ((forall x, in_ivec n box x -> tolerable n n A b x) <->
   forall i, (i < n)%nat -> rl (b i) <= total n (fun j => rl (r_mul (A i j) (box j))) /\ total n (fun j => rh (r_mul (A i j) (box j))) <= rh (b i)).
Proof.
  intros PA E. apply box_tolerable_iff; [exact PA|]. intros j Hj. rewrite (neumaier_square n A b y w box) by (try lia; assumption).
  unfold proper. cbn [rl rh]. assert (T := Rabs_pos (nm_box w j * nm_r n (nm_A A w) b y j)). lra.
Qed.

(** Without weights: enough that in every row the half-widths, averaged with the
    magnitudes of the row's entries, do not exceed the half-width of that row's own
    coordinate; in particular equal half-widths are enough. *)
Theorem neumaier_inner_average n A b y box : proper_mat n n A -> (forall i, (i < n)%nat -> 0 < total n (fun j => r_mag (A i j))) -> tolerable n n A b y ->
  neumaier n n A b y None = Some (n, box) ->
  (forall i, (i < n)%nat -> total n (fun j => r_mag (A i j) * r_rad (box j)) <= total n (fun j => r_mag (A i j)) * r_rad (box i)) ->
  in_ivec n box y /\ forall x, in_ivec n box x -> tolerable n n A b x.
Proof.
  intros PA Pos Ty E Av.
  assert (Bx : forall j, (j < n)%nat -> box j = mkr (y j - Rabs (nm_r n A b y j)) (y j + Rabs (nm_r n A b y j))).
  { intros j Hj. rewrite (neumaier_square n A b y None box ltac:(lia) E j Hj). cbn [nm_box nm_A]. now rewrite Rmult_1_l. }
  assert (R0 : forall i, (i < n)%nat -> 0 <= nm_r n A b y i).
  { intros i Hi. unfold nm_r. rewrite vsum_eq. apply Rmult_le_pos; [|left; apply Rinv_0_lt_compat; now apply Pos].
    apply (tol_row n n A b y 0 i PA Hi). intros M HM. apply shrink0. now apply Ty. }
  split.
  - intros j Hj. rewrite (Bx j Hj). unfold inI. cbn [rl rh]. assert (T := Rabs_pos (nm_r n A b y j)). lra.
  - intros x Hx M HM i Hi. apply midrad_inI.
    assert (D : forall j, (j < n)%nat -> Rabs (x j - y j) <= nm_r n A b y j).
    { intros j Hj. specialize (Hx j Hj). rewrite (Bx j Hj) in Hx. unfold inI in Hx. cbn [rl rh] in Hx. rewrite Rabs_right in Hx by (apply Rle_ge; now apply R0). apply Rabs_le. lra. }
    specialize (Av i Hi). assert (S0 := Pos i Hi).
    rewrite (total_ext n (fun j => r_mag (A i j) * r_rad (box j)) (fun j => r_mag (A i j) * nm_r n A b y j)) in Av.
    2: { intros j Hj. rewrite (Bx j Hj). rewrite Rabs_right by (apply Rle_ge; now apply R0). unfold r_rad. cbn [rl rh]. field. }
    assert (Ri : r_rad (box i) = nm_r n A b y i).
    { rewrite (Bx i Hi). rewrite Rabs_right by (apply Rle_ge; now apply R0). unfold r_rad. cbn [rl rh]. field. }
    rewrite Ri in Av. set (s := total n (fun j => r_mag (A i j))) in *. set (q := r_rad (b i) - r_mag (r_csub (r_mid (b i)) (imv n A y i))).
    assert (RQ : s * nm_r n A b y i = q) by (unfold nm_r; rewrite vsum_eq; fold s; fold q; field; lra). rewrite RQ in Av.
    assert (EE : r_mid (b i) - times n M x i = (r_mid (b i) - times n M y i) + - times n M (minus x y) i).
    { unfold times, minus. rewrite (total_ext n (fun j => M i j * (x j - y j)) (fun j => M i j * x j - M i j * y j)) by (intros; ring). rewrite total_minus. ring. }
    assert (T1 : Rabs (r_mid (b i) - times n M y i) <= r_mag (r_csub (r_mid (b i)) (imv n A y i))).
    { apply mag_csub_encl. unfold imv, inI. rewrite isum_lo, isum_hi. unfold times.
      split; apply total_le; intros j Hj; destruct (scale_in (y j) (A i j) (M i j) (HM i j Hi Hj)); rewrite (Rmult_comm (M i j)); assumption. }
    assert (T2 : Rabs (times n M (minus x y) i) <= q).
    { eapply Rle_trans; [|exact Av]. unfold times. eapply Rle_trans; [apply total_abs|].
      apply total_le. intros j Hj. rewrite Rabs_mult. apply Rmult_le_compat; try apply Rabs_pos; [apply mag_ge; now apply HM | now apply D]. }
    rewrite Rabs_minus_sym, EE. eapply Rle_trans; [apply Rabs_triang|]. rewrite Rabs_Ropp. unfold q in T2. lra.
Qed.
(** The system x = [-1,1] in [n] unknowns meets the conditions at the origin. *)
Theorem neumaier_average_case n : (0 < n)%nat -> let A : imat := fun i j => if (i =? j)%nat then mkr 1 1 else mkr 0 0 in let b : ivec := fun _ => mkr (-1) 1 in let y : vec := fun _ => 0 in
  proper_mat n n A /\ (forall i, (i < n)%nat -> 0 < total n (fun j => r_mag (A i j))) /\ tolerable n n A b y /\
  exists box, neumaier n n A b y None = Some (n, box) /\ (forall j, (j < n)%nat -> box j = mkr (-1) 1) /\
    forall i, (i < n)%nat -> total n (fun j => r_mag (A i j) * r_rad (box j)) <= total n (fun j => r_mag (A i j)) * r_rad (box i).
Proof.
  intro Hn. cbv zeta. set (A := fun i j => if (i =? j)%nat then mkr 1 1 else mkr 0 0).
  assert (Mg : forall i j, r_mag (A i j) = if (i =? j)%nat then 1 else 0).
  { intros i j. unfold A, r_mag. destruct (i =? j)%nat; cbn [rl rh]; [rewrite !Rabs_right by lra|rewrite !Rabs_R0]; now rewrite Rmax_left by lra. }
  assert (Sm : forall i, (i < n)%nat -> total n (fun j => r_mag (A i j)) = 1).
  { intros i Hi. rewrite (total_pick n i) by (first [exact Hi | intros j Hj Ne; rewrite Mg; destruct (Nat.eqb_spec i j); [lia|reflexivity]]). rewrite Mg. now rewrite Nat.eqb_refl. }
  split; [intros i j _ _; unfold proper, A; destruct (i =? j)%nat; simpl; lra|].
  split; [intros i Hi; rewrite Sm by exact Hi; lra|].
  split.
  { intros M HM i Hi. unfold times. rewrite total_0 by (intros; ring). unfold inI. simpl. lra. }
  assert (Z : forall i, imv n A (fun _ => 0) i = mkr 0 0).
  { intro i. unfold imv. assert (L := isum_lo n (fun j => r_scale 0 (A i j))). assert (H := isum_hi n (fun j => r_scale 0 (A i j))).
    rewrite total_0 in L by (intros j Hj; unfold r_scale; cbn [rl]; rewrite !Rmult_0_l; now apply Rmin_left; lra).
    rewrite total_0 in H by (intros j Hj; unfold r_scale; cbn [rh]; rewrite !Rmult_0_l; now apply Rmax_left; lra).
    destruct (isum n (fun j => r_scale 0 (A i j))) as [u v]. cbn [rl rh] in *. now subst. }
  assert (B : exists box, neumaier n n A (fun _ => mkr (-1) 1) (fun _ => 0) None = Some (n, box)).
  { unfold neumaier, bcast_len. rewrite Nat.eqb_refl. eexists. reflexivity. }
  destruct B as [box B]. exists box. split; [exact B|].
  assert (Bx : forall j, (j < n)%nat -> box j = mkr (-1) 1).
  { intros j Hj. rewrite (neumaier_square n A _ _ None box Hn B j Hj). cbn [nm_box nm_A]. unfold nm_r. rewrite vsum_eq, Sm, Z by exact Hj.
    assert (T : r_mag (r_csub (r_mid (mkr (-1) 1)) (mkr 0 0)) = 0).
    { assert (Rm : r_mid (mkr (-1) 1) = 0) by (unfold r_mid; cbn [rl rh]; lra). rewrite Rm. unfold r_mag, r_csub. cbn [rl rh]. rewrite Rminus_0_r, Rabs_R0. apply Rmax_left. lra. }
    rewrite T. unfold r_rad. cbn [rl rh]. replace (1 * (((1 - -1) / 2 - 0) / 1)) with 1 by field. rewrite Rabs_right by lra. f_equal; lra. }
  split; [exact Bx|]. intros i Hi. rewrite (total_ext n _ (fun j => r_mag (A i j) * 1)) by (intros j Hj; rewrite (Bx j Hj); unfold r_rad; cbn [rl rh]; f_equal; field).
  rewrite total_scal_r, (Bx i Hi). unfold r_rad. cbn [rl rh]. right. field.
Qed.

(** With weights, one equation: the half-widths belong to the centre [w y]. *)
Lemma scale_scale c d X : r_scale c (r_scale d X) = r_scale (d * c) X.
Proof.
  unfold r_scale. cbn [rl rh]. destruct (Rle_dec 0 c) as [C|C].
  - f_equal; unfold Rmin, Rmax; repeat destruct Rle_dec; nra.
  - f_equal; unfold Rmin, Rmax; repeat destruct Rle_dec; nra.
Qed.
Lemma mag_scale c X : r_mag (r_scale c X) = Rabs c * r_mag X.
Proof.
  unfold r_mag, r_scale. cbn [rl rh]. rewrite <- RmaxRmult by apply Rabs_pos. rewrite <- !Rabs_mult.
  unfold Rmin, Rmax at 1 2. destruct (Rle_dec (c * rl X) (c * rh X)); [reflexivity|apply Rmax_comm].
Qed.
Theorem neumaier_weighted_row n A b y w : (0 < n)%nat -> proper_mat 1 n A -> (exists j, (j < n)%nat /\ w j <> 0 /\ ~ (rl (A O j) = 0 /\ rh (A O j) = 0)) ->
  tolerable 1 n A b (fun j => w j * y j) ->
  exists box, neumaier 1 n A b y (Some w) = Some (n, box) /\ (forall j, (j < n)%nat -> r_mid (box j) = y j) /\
    forall x, (forall j, (j < n)%nat -> Rabs (x j - w j * y j) <= r_rad (box j)) -> tolerable 1 n A b x.
Proof.
  intros Hn PA (j0 & Hj0 & Wn & Nz) Ty.
  assert (Bl : bcast_len n 1 = Some n). { unfold bcast_len. destruct (Nat.eqb_spec n 1) as [->|]; reflexivity. }
  assert (En : forall j, (j < n)%nat -> bidx n j = j). { intros j Hj. unfold bidx. destruct (Nat.eqb_spec n 1); lia. }
  set (v := fun j => w j * y j) in *.
  set (s := total n (fun j => Rabs (w j) * r_mag (A O j))).
  assert (Pos : 0 < s).
  { assert (T := total_term n (fun j => Rabs (w j) * r_mag (A O j)) j0 Hj0 ltac:(intros; apply Rmult_le_pos; [apply Rabs_pos | apply mag_nn])). cbv beta in T. fold s in T.
    assert (0 < r_mag (A O j0)).
    { unfold r_mag. assert (D : rl (A O j0) <> 0 \/ rh (A O j0) <> 0) by (destruct (Req_dec (rl (A O j0)) 0); destruct (Req_dec (rh (A O j0)) 0); tauto).
      destruct D as [D|D]; apply Rabs_pos_lt in D; [eapply Rlt_le_trans; [exact D|apply Rmax_l] | eapply Rlt_le_trans; [exact D|apply Rmax_r]]. }
    assert (0 < Rabs (w j0)) by now apply Rabs_pos_lt. nra. }
  set (q := r_rad (b O) - r_mag (r_csub (r_mid (b O)) (imv n A v O))).
  assert (Q0 : 0 <= q).
  { apply (tol_row 1 n A b v 0 O PA ltac:(lia)). intros M HM. apply shrink0. apply Ty; [exact HM|lia]. }
  assert (RQ : nm_r n (nm_A A (Some w)) b y O = q / s).
  { unfold nm_r, nm_A. rewrite vsum_eq. f_equal.
    - unfold q. do 3 f_equal. unfold imv.
      assert (X : forall p, isum p (fun j => r_scale (y j) (r_scale (w j) (A O j))) = isum p (fun j => r_scale (v j) (A O j))).
      { intro p. induction p as [|p IH]; [reflexivity|]. simpl. rewrite IH. now rewrite scale_scale. }
      apply X.
    - f_equal. apply total_ext. intros j Hj. apply mag_scale. }
  unfold neumaier. rewrite Bl. eexists. split; [reflexivity|].
  assert (Bx : forall j, (j < n)%nat -> let s0 := r_scale (nm_box (Some w) (bidx n j) * nm_r n (nm_A A (Some w)) b y (bidx 1 j)) (mkr (-1) 1) in
    mkr (y (bidx n j) + rl s0) (y (bidx n j) + rh s0) = mkr (y j - Rabs (w j) * (q / s)) (y j + Rabs (w j) * (q / s))).
  { intros j Hj. cbv zeta. rewrite (En j Hj). change (bidx 1 j) with O. rewrite RQ, sym_scale_abs. cbn [rl rh nm_box].
    rewrite Rabs_mult, (Rabs_right (q / s)) by (apply Rle_ge, Rmult_le_pos; [exact Q0 | left; now apply Rinv_0_lt_compat]). f_equal; ring. }
  cbv zeta in Bx. cbv zeta. split.
  - intros j Hj. rewrite (Bx j Hj). unfold r_mid. cbn [rl rh]. field. lra.
  - intros x Hx M HM i Hi. replace i with O by lia. apply midrad_inI.
    assert (D : forall j, (j < n)%nat -> Rabs (x j - v j) <= Rabs (w j) * (q / s)).
    { intros j Hj. specialize (Hx j Hj). rewrite (Bx j Hj) in Hx. unfold r_rad in Hx. cbn [rl rh] in Hx. unfold v. lra. }
    assert (EE : r_mid (b O) - times n M x O = (r_mid (b O) - times n M v O) + - times n M (minus x v) O).
    { unfold times, minus. rewrite (total_ext n (fun j => M O j * (x j - v j)) (fun j => M O j * x j - M O j * v j)) by (intros; ring). rewrite total_minus. ring. }
    assert (T1 : Rabs (r_mid (b O) - times n M v O) <= r_mag (r_csub (r_mid (b O)) (imv n A v O))).
    { apply mag_csub_encl. unfold imv, inI. rewrite isum_lo, isum_hi. unfold times.
      split; apply total_le; intros j Hj; destruct (scale_in (v j) (A O j) (M O j) (HM O j ltac:(lia) Hj)); rewrite (Rmult_comm (M O j)); assumption. }
    assert (T2 : Rabs (times n M (minus x v) O) <= q).
    { replace q with (total n (fun j => Rabs (w j) * r_mag (A O j) * (q / s))) by (rewrite total_scal_r; fold s; field; lra).
      unfold times. eapply Rle_trans; [apply total_abs|]. apply total_le. intros j Hj. rewrite Rabs_mult.
      assert (T : Rabs (M O j) <= r_mag (A O j)) by (apply mag_ge; apply HM; [lia | exact Hj]). assert (T' := D j Hj). unfold minus.
      apply Rle_trans with (r_mag (A O j) * (Rabs (w j) * (q / s))); [|right; ring]. apply Rmult_le_compat; try apply Rabs_pos; assumption. }
    rewrite Rabs_minus_sym, EE. eapply Rle_trans; [apply Rabs_triang|]. rewrite Rabs_Ropp. unfold q in T2. lra.
Qed.

(** One equation, around the origin: the largest box of the given proportions. *)
Lemma mag_attained X : proper X -> exists a, inI X a /\ Rabs a = r_mag X.
Proof.
  unfold proper, inI, r_mag. intro P. unfold Rmax. destruct (Rle_dec (Rabs (rl X)) (Rabs (rh X))); [exists (rh X) | exists (rl X)]; split; try lra; reflexivity.
Qed.
Lemma isum_zero n A (y : vec) : (forall j, (j < n)%nat -> y j = 0) -> imv n A y O = mkr 0 0.
Proof.
  intro Z. unfold imv. assert (L := isum_lo n (fun j => r_scale (y j) (A O j))). assert (H := isum_hi n (fun j => r_scale (y j) (A O j))).
  rewrite total_0 in L by (intros j Hj; rewrite (Z j Hj); unfold r_scale; cbn [rl]; rewrite !Rmult_0_l; now apply Rmin_left; lra).
  rewrite total_0 in H by (intros j Hj; rewrite (Z j Hj); unfold r_scale; cbn [rh]; rewrite !Rmult_0_l; now apply Rmax_left; lra).
  destruct (isum n (fun j => r_scale (y j) (A O j))) as [u v]. cbn [rl rh] in *. now subst.
Qed.
Theorem neumaier_largest n A b y w box : (0 < n)%nat -> proper_mat 1 n A -> (forall j, (j < n)%nat -> y j = 0) -> tolerable 1 n A b y ->
  (exists j, (j < n)%nat /\ weight_of w j <> 0 /\ ~ (rl (A O j) = 0 /\ rh (A O j) = 0)) ->
  neumaier 1 n A b y w = Some (n, box) ->
  forall t, 0 <= t -> (forall x, (forall j, (j < n)%nat -> Rabs (x j) <= t * Rabs (weight_of w j)) -> tolerable 1 n A b x) ->
  forall j, (j < n)%nat -> t * Rabs (weight_of w j) <= r_rad (box j).
Proof.
  intros Hn PA Z Ty (j0 & Hj0 & Wn & Nz) E t Ht Hx.
  assert (En : forall j, (j < n)%nat -> bidx n j = j). { intros j Hj. unfold bidx. destruct (Nat.eqb_spec n 1); lia. }
  set (s := total n (fun j => Rabs (weight_of w j) * r_mag (A O j))).
  assert (Pos : 0 < s).
  { assert (T := total_term n (fun j => Rabs (weight_of w j) * r_mag (A O j)) j0 Hj0 ltac:(intros; apply Rmult_le_pos; [apply Rabs_pos | apply mag_nn])). cbv beta in T. fold s in T.
    assert (0 < r_mag (A O j0)).
    { unfold r_mag. assert (D : rl (A O j0) <> 0 \/ rh (A O j0) <> 0) by (destruct (Req_dec (rl (A O j0)) 0); destruct (Req_dec (rh (A O j0)) 0); tauto).
      destruct D as [D|D]; apply Rabs_pos_lt in D; [eapply Rlt_le_trans; [exact D|apply Rmax_l] | eapply Rlt_le_trans; [exact D|apply Rmax_r]]. }
    assert (0 < Rabs (weight_of w j0)) by now apply Rabs_pos_lt. nra. }
  (* the corner where the row is largest *)
  destruct (choose_vec n (fun j a => inI (A O j) a /\ Rabs a = r_mag (A O j))) as [a Ha]; [intros j Hj; apply mag_attained; apply PA; [lia | exact Hj]|].
  assert (Row : forall c : R, (c = 1 \/ c = -1) -> inI (b O) (c * (t * s))).
  { intros c Hc. assert (T := Hx (fun j => c * (t * Rabs (weight_of w j)) * (if Rle_dec 0 (a j) then 1 else -1))).
    assert (B : forall j, (j < n)%nat -> Rabs (c * (t * Rabs (weight_of w j)) * (if Rle_dec 0 (a j) then 1 else -1)) <= t * Rabs (weight_of w j)).
    { intros j Hj. assert (0 <= t * Rabs (weight_of w j)) by (apply Rmult_le_pos; [exact Ht | apply Rabs_pos]). set (u := t * Rabs (weight_of w j)) in *.
      apply Rabs_le. destruct Hc as [-> | ->]; destruct (Rle_dec 0 (a j)); lra. }
    specialize (T B (fun _ j => a j)). assert (HM : in_imat 1 n A (fun _ j => a j)) by (intros i j Hi Hj; replace i with O by lia; now apply Ha).
    specialize (T HM O ltac:(lia)). unfold times in T.
    replace (c * (t * s)) with (total n (fun j => a j * (c * (t * Rabs (weight_of w j)) * (if Rle_dec 0 (a j) then 1 else -1)))); [exact T|].
    unfold s. rewrite (total_ext n _ (fun j => Rabs (weight_of w j) * r_mag (A O j) * (c * t))); [rewrite total_scal_r; ring|].
    intros j Hj. destruct (Ha j Hj) as [_ <-]. unfold Rabs at 3. destruct (Rle_dec 0 (a j)); destruct (Rcase_abs (a j)); try lra; ring. }
  set (q := r_rad (b O) - r_mag (r_csub (r_mid (b O)) (mkr 0 0))).
  assert (Q : t * s <= q).
  { assert (R1 := Row 1 (or_introl eq_refl)). assert (R2 := Row (-1) (or_intror eq_refl)). unfold inI in R1, R2. unfold q, r_rad, r_mag, r_csub, r_mid. cbn [rl rh].
    rewrite !Rminus_0_r. rewrite Rmax_left by lra. unfold Rabs. destruct Rcase_abs; lra. }
  assert (RQ : nm_r n (nm_A A w) b y O = q / s).
  { unfold nm_r. rewrite vsum_eq. f_equal.
    - unfold q. do 3 f_equal. now apply isum_zero.
    - f_equal. apply total_ext. intros j Hj. unfold nm_A. destruct w as [w|]; cbn [weight_of]; [apply mag_scale | rewrite Rabs_R1; ring]. }
  assert (Bl : bcast_len n 1 = Some n). { unfold bcast_len. destruct (Nat.eqb_spec n 1) as [->|]; reflexivity. }
  unfold neumaier in E. rewrite Bl in E. assert (E2 : box = fun j => let s := r_scale (nm_box w (bidx n j) * nm_r n (nm_A A w) b y (bidx 1 j)) (mkr (-1) 1) in mkr (y (bidx n j) + rl s) (y (bidx n j) + rh s)) by (now inversion E). rewrite E2. clear E E2. intros j Hj. cbv beta zeta. rewrite (En j Hj). change (bidx 1 j) with O. rewrite RQ. rewrite sym_scale_abs.
  unfold r_rad. cbn [rl rh]. assert (NW : nm_box w j = weight_of w j) by (destruct w; reflexivity). rewrite NW.
  assert (TQ : t <= q / s) by (apply Rmult_le_reg_r with s; [exact Pos|]; unfold Rdiv; rewrite Rmult_assoc, Rinv_l by lra; lra).
  rewrite Rabs_mult, (Rabs_right (q / s)) by lra. assert (W := Rabs_pos (weight_of w j)). nra.
Qed.
