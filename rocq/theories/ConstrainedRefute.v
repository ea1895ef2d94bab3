(** Where maximization under constraints returns a point outside them. *)
From Coq Require Import ZArith List Bool Arith Lia Reals Lra.
From Flocq Require Import IEEE754.BinarySingleNaN.
From Verif Require Import PyNum Exact Recog SpecExact ExactProofs RecogProofs RecogMore RecogFinal Ralgb5 SysProps Constrained SpecConstrained ConstrainedProofs PpsHbr.
Import ListNotations.
Open Scope R_scope.

(** ** Systems with numbers for data *)
Definition points (M : mat) : imat := fun i j => r_point (M i j).
Definition pvec (v : vec) : ivec := fun i => r_point (v i).
Definition one_by_one (a : R) : mat := fun _ _ => a.
Lemma scale_point c a : r_scale c (r_point a) = r_point (a * c).
Proof. unfold r_scale, r_point. cbn [rl rh]. rewrite Rmin_left, Rmax_left, Rmult_comm by lra. reflexivity. Qed.
Lemma tol_points n M v x w : tol_value 0 n (points M) (pvec v) x w = w O * - Rabs (v O - times n M x O).
Proof.
  unfold tol_value, vmin, tol_constituent, imv, points, pvec, times.
  rewrite (isum_point n _ (fun j => M O j * x j)) by (intros; apply scale_point).
  unfold r_rad, r_mag, r_csub, r_mid, r_point. cbn [rl rh]. rewrite Rmax_left by lra. replace (/ 2 * (v O + v O)) with (v O) by field.
  replace (/ 2 * (v O - v O)) with 0 by field. f_equal. unfold Rminus at 1. rewrite Rplus_0_l. reflexivity.
Qed.
Lemma points_proper m n M : proper_mat m n (points M).
Proof. intros i j _ _. unfold proper, points, r_point; simpl. lra. Qed.

(** ** One row [x <= 1] *)
Definition upto1 : mat := one_by_one 1.
Definition rows1 : list (vec * R) := [(upto1 O, 1)].
Lemma rows1_made : linear_constraint 1 1 upto1 None (Some (fun _ => BFin 1)) = Some rows1.
Proof. unfold linear_constraint, lc_rows, lc_upper, row_any, upto1, one_by_one. simpl. destruct Req_EM_T; [lra|]. reflexivity. Qed.
Lemma sat1 x : satisfies 1 1 upto1 None (Some (fun _ => BFin 1)) x <-> x O <= 1.
Proof.
  rewrite <- (rows_satisfied _ _ _ _ _ _ x rows1_made). unfold rows1. rewrite Forall_cons_iff. unfold row_ok, dot, upto1, one_by_one. simpl. split.
  - intros [H _]. lra.
  - intro. split; [lra | constructor].
Qed.
Lemma viol1 x : violation 1 rows1 x = Rmax 0 (x O - 1).
Proof. unfold violation, rows1, excess, dot, upto1, one_by_one. simpl. rewrite Rplus_0_r. f_equal. ring. Qed.
Lemma mag1 a : max_mag 0 1 (points (one_by_one a)) = Rabs a.
Proof. unfold max_mag, points, one_by_one, r_mag, r_point. simpl. rewrite (Rmax_left (Rabs a) (Rabs a)) by lra. apply Rmax_left. apply Rabs_pos. Qed.
Lemma auto1 num : auto_mu 1 rows1 num = Some (Num num).
Proof.
  unfold auto_mu, rows1, upto1, one_by_one, col_min. simpl. unfold nonzero. simpl. destruct Req_EM_T; [lra|]. simpl. rewrite Rplus_0_r, Rabs_R1.
  unfold f_div. rewrite !(Rmin_left 1 1) by lra. destruct Req_EM_T; [lra|]. do 2 f_equal. field.
Qed.
Lemma own1 : own_variables 1 rows1.
Proof.
  intros [|i] row H; simpl in H; [|destruct i; discriminate]. assert (row = (upto1 O, 1)) by congruence. subst row. exists O. split; [lia|].
  split; [unfold upto1, one_by_one; simpl; lra|]. intros [|i'] row' H' N; [lia|]. destruct i'; discriminate.
Qed.
Definition at1 (a : R) : vec := fun _ => a.
Lemma tol1 a c w x : tol_value 0 1 (points (one_by_one a)) (pvec (at1 c)) x w = w O * - Rabs (c - a * x O).
Proof. rewrite tol_points. unfold times, one_by_one, at1. simpl. rewrite Rplus_0_l. reflexivity. Qed.

(** the default starting point *)
Lemma default_start big P : let A := points (one_by_one 1) in let b := pvec (at1 2) in
  linear_constraint 1 1 upto1 None (Some (fun _ => BFin 1)) = Some rows1 /\ auto_mu 1 rows1 (max_mag 0 1 A) = Some (Num 1) /\
  solves 1 1 (mids A) (fun i => r_mid (b i)) (at1 2) /\
  maximize_c 1 big P (tol_fg 0 1 A b ones) 1 rows1 (at1 2) = (at1 2, -1) /\ ~ satisfies 1 1 upto1 None (Some (fun _ => BFin 1)) (at1 2) /\
  satisfies 1 1 upto1 None (Some (fun _ => BFin 1)) (at1 1) /\ tol_value 0 1 A b (at1 1) ones = -1.
Proof.
  cbv zeta. split; [exact rows1_made|]. split; [rewrite auto1, mag1, Rabs_R1; reflexivity|]. split.
  { intros i Hi. unfold times, mids, points, one_by_one, pvec, at1, r_mid, r_point. simpl. lra. }
  split.
  - assert (VAL : forall y, fst (with_penalty 1 1 rows1 (tol_fg 0 1 (points (one_by_one 1)) (pvec (at1 2)) ones) y) = Rabs (2 - y O) + Rmax 0 (y O - 1)).
    { intro y. rewrite with_penalty_val, tol_fg_value, pen_violation, viol1, tol1 by apply points_proper. unfold ones. rewrite !Rmult_1_l. ring. }
    unfold maximize_c. destruct (ralgb5_stays (real_ops 1 big) P (with_penalty 1 1 rows1 (tol_fg 0 1 (points (one_by_one 1)) (pvec (at1 2)) ones)) (at1 2)) with (m := 1%nat) as [E1 E2].
    + intro y. cbn [n_lt real_ops real_ops_with]. rewrite !VAL. destruct Rlt_dec as [Q|]; [|reflexivity]. exfalso. revert Q. unfold at1, Rmax, Rabs. repeat destruct Rle_dec; repeat destruct Rcase_abs; lra.
    + rewrite E1, E2, VAL. f_equal. unfold at1. rewrite Rmax_right by lra. unfold Rabs. destruct Rcase_abs; lra.
  - rewrite !sat1, tol1. unfold at1, ones. split; [lra|]. split; [lra|]. unfold Rabs. destruct Rcase_abs; lra.
Qed.
(** a weight above 1 *)
Lemma weight_two : let A := points (one_by_one 1) in let b := pvec (at1 2) in
  auto_mu 1 rows1 (max_mag 0 1 A) = Some (Num 1) /\ ~ satisfies 1 1 upto1 None (Some (fun _ => BFin 1)) (at1 2) /\
  forall y, satisfies 1 1 upto1 None (Some (fun _ => BFin 1)) y -> tol_value 0 1 A b y (at1 2) < tol_value 0 1 A b (at1 2) (at1 2) - 1 * violation 1 rows1 (at1 2).
Proof.
  cbv zeta. split; [rewrite auto1, mag1, Rabs_R1; reflexivity|]. rewrite sat1. split; [unfold at1; lra|]. intros y Hy. apply sat1 in Hy.
  rewrite !tol1, viol1. unfold at1. rewrite Rmax_right by lra. unfold Rabs. repeat destruct Rcase_abs; lra.
Qed.

(** ** A constraint object used again *)
Lemma mu_kept k n As c mu : c_mu c = Some mu -> after_calls k n As c = Some c.
Proof. intro H. induction As as [|A As IH]; simpl; [reflexivity|]. unfold ready. rewrite H. exact IH. Qed.
Lemma mu_first k n A As rows : after_calls k n (A :: As) (mklc rows None) =
  match auto_mu n rows (max_mag k n A) with Some mu => Some (mklc rows (Some mu)) | None => None end.
Proof. simpl. unfold ready. cbn [c_mu c_rows]. destruct auto_mu; [|reflexivity]. now apply mu_kept with f. Qed.
Lemma used_again : let A1 := points (one_by_one 1) in let A2 := points (one_by_one 10) in let b2 := pvec (at1 20) in
  after_calls 0 1 [A1; A2] (mklc rows1 None) = Some (mklc rows1 (Some (Num 1))) /\ auto_mu 1 rows1 (max_mag 0 1 A2) = Some (Num 10) /\
  ~ satisfies 1 1 upto1 None (Some (fun _ => BFin 1)) (at1 2) /\
  forall y, satisfies 1 1 upto1 None (Some (fun _ => BFin 1)) y -> tol_value 0 1 A2 b2 y ones < tol_value 0 1 A2 b2 (at1 2) ones - 1 * violation 1 rows1 (at1 2).
Proof.
  cbv zeta. rewrite mu_first, !auto1, !mag1, Rabs_R1. split; [reflexivity|]. split; [rewrite Rabs_pos_eq by lra; reflexivity|].
  rewrite sat1. split; [unfold at1; lra|]. intros y Hy. apply sat1 in Hy. rewrite !tol1, viol1. unfold at1, ones. rewrite Rmax_right by lra. unfold Rabs. repeat destruct Rcase_abs; lra.
Qed.

(** ** Two rows sharing their variables *)
Definition shared : mat := fun i j => match i, j with O, _ => 10 | _, O => -11 | _, _ => -12 end.
Definition diff : mat := fun _ j => match j with O => -1 | _ => 1 end.
Definition rows2 : list (vec * R) := [(shared 0%nat, 0); (shared 1%nat, 0)].
Definition pair2 (a c : R) : vec := fun j => match j with O => a | _ => c end.
Lemma rows2_made : linear_constraint 2 2 shared None (Some (fun _ => BFin 0)) = Some rows2.
Proof. unfold linear_constraint, lc_rows, lc_upper, row_any. simpl. repeat (destruct Req_EM_T; try lra); reflexivity. Qed.
Lemma sat2 x : satisfies 2 2 shared None (Some (fun _ => BFin 0)) x <-> 10 * x 0%nat + 10 * x 1%nat <= 0 /\ -11 * x 0%nat + -12 * x 1%nat <= 0.
Proof.
  rewrite <- (rows_satisfied _ _ _ _ _ _ x rows2_made). unfold rows2. rewrite !Forall_cons_iff. unfold row_ok, dot, shared. simpl. split.
  - intros (H1 & H2 & _). lra.
  - intros []. split; [lra|]. split; [lra | constructor].
Qed.
Lemma auto2 : auto_mu 2 rows2 (max_mag 0 2 (points diff)) = Some (Num 1).
Proof.
  assert (M : max_mag 0 2 (points diff) = 1).
  { unfold max_mag, points, diff, r_mag, r_point. simpl. rewrite (Rabs_left (-1)), Rabs_R1 by lra. unfold Rmax. repeat destruct Rle_dec; lra. }
  rewrite M. unfold auto_mu, rows2, shared, col_min. simpl. unfold nonzero. simpl. repeat (destruct Req_EM_T; try lra). simpl.
  rewrite !Rplus_0_r. replace (10 + -11) with (-1) by ring. replace (10 + -12) with (-2) by ring.
  rewrite !(Rabs_left (-11)), !(Rabs_left (-12)), !(Rabs_left (-1)), !(Rabs_left (-2)), !(Rabs_pos_eq 10) by lra.
  unfold f_div. match goal with |- context [Req_EM_T ?e 0] => assert (E : e = 1) by (unfold Rmin; repeat destruct Rle_dec; lra); rewrite E end.
  destruct Req_EM_T; [lra|]. do 2 f_equal. field.
Qed.
Lemma shared_variables : let A := points diff in let b := pvec (at1 (-23)) in
  linear_constraint 2 2 shared None (Some (fun _ => BFin 0)) = Some rows2 /\ auto_mu 2 rows2 (max_mag 0 2 A) = Some (Num 1) /\
  ~ satisfies 2 2 shared None (Some (fun _ => BFin 0)) (pair2 12 (-11)) /\ satisfies 2 2 shared None (Some (fun _ => BFin 0)) (pair2 0 0) /\
  forall y, satisfies 2 2 shared None (Some (fun _ => BFin 0)) y -> tol_value 0 2 A b y ones < tol_value 0 2 A b (pair2 12 (-11)) ones - 1 * violation 2 rows2 (pair2 12 (-11)).
Proof.
  cbv zeta. split; [exact rows2_made|]. split; [exact auto2|]. rewrite !sat2. unfold pair2 at 1 2 3 4 5 6 7 8. split; [lra|]. split; [lra|]. intros y Hy. apply sat2 in Hy.
  rewrite !tol_points. assert (V : violation 2 rows2 (pair2 12 (-11)) = 10).
  { unfold violation, rows2, excess, dot, shared, pair2. simpl. rewrite Rmax_right, Rmax_left by lra. lra. }
  rewrite V. unfold times, diff, at1, ones, pair2. simpl. unfold Rabs. repeat destruct Rcase_abs; lra.
Qed.

(** ** A row with a lower and an upper bound *)
Lemma sel_app s1 : forall c1 s2 c2, length s1 = length c1 -> sum_selected (s1 ++ s2) (c1 ++ c2) = sum_selected s1 c1 + sum_selected s2 c2.
Proof. induction s1 as [|s s1 IH]; intros [|a c1] s2 c2 L; try discriminate; simpl; [ring|]. rewrite IH by (simpl in L; lia). ring. Qed.
Definition none {A} (l : list A) : list bool := map (fun _ => false) l.
Lemma none_sum (c : list R) : sum_selected (none c) c = 0.
Proof. induction c as [|a c IH]; [reflexivity|]. change (0 + sum_selected (none c) c = 0). rewrite IH. ring. Qed.
Lemma none_len {A} (l : list A) : length (none l) = length l. Proof. apply map_length. Qed.
Lemma opposite_zero c1 a c2 c3 : a <> 0 -> exists d, col_min (c1 ++ - a :: c2 ++ a :: c3) = Some d /\ d <= 0.
Proof.
  intro N. set (c := c1 ++ - a :: c2 ++ a :: c3). set (s := none c1 ++ true :: none c2 ++ true :: none c3).
  assert (L : length s = length c) by (unfold s, c; rewrite !app_length; simpl; rewrite !app_length; simpl; rewrite !none_len; reflexivity).
  assert (Q : sum_selected s c = 0) by (unfold s, c; rewrite sel_app by apply none_len; cbn [sum_selected]; rewrite sel_app by apply none_len; cbn [sum_selected]; rewrite !none_sum; ring).
  assert (T : nth (length c1) s false = true) by (unfold s; rewrite <- (none_len c1), app_nth2, Nat.sub_diag by lia; reflexivity).
  assert (Z : nth (length c1) c 0 <> 0) by (unfold c; rewrite app_nth2, Nat.sub_diag by lia; simpl; lra).
  destruct (keep_sum c s L) as [K1 K2]. assert (KT := keep_true c s _ L T Z).
  destruct (col_min_some c) as (d & Hd); [intro E; rewrite E in K2; destruct (keep s c); [destruct KT | discriminate]|].
  exists d. split; [exact Hd|]. apply col_min_spec in Hd. destruct Hd as [LB _]. specialize (LB _ K2 KT). rewrite <- K1, Q, Rabs_R0 in LB. exact LB.
Qed.
Lemma two_sided_mu r n C lb ub rows i j l u num : linear_constraint r n C (Some lb) (Some ub) = Some rows ->
  (i < r)%nat -> (j < n)%nat -> C i j <> 0 -> lb i = BFin l -> ub i = BFin u -> 0 <= num ->
  auto_mu n rows num = Some (if Req_EM_T num 0 then NaN else Infty true).
Proof.
  intros LC Hi Hj N Hl Hu Hn. assert (RA : row_any n (C i) = true).
  { unfold row_any. apply existsb_exists. exists j. split; [apply in_seq; lia|]. destruct Req_EM_T; [contradiction|reflexivity]. }
  assert (ER : rows = lc_lower r n C lb ++ lc_upper r n C ub).
  { unfold linear_constraint, lc_rows in LC. destruct (lc_lower r n C lb ++ lc_upper r n C ub); [discriminate|]. congruence. }
  assert (IL : In ((fun j => - C i j), - l) (lc_lower r n C lb)) by (unfold lc_lower; apply in_flat_map; exists i; split; [apply in_seq; lia|]; rewrite Hl, RA; now left).
  assert (IU : In (C i, u) (lc_upper r n C ub)) by (unfold lc_upper; apply in_flat_map; exists i; split; [apply in_seq; lia|]; rewrite Hu, RA; now left).
  apply in_split in IL, IU. destruct IL as (l1 & l2 & EL). destruct IU as (u1 & u2 & EU).
  assert (CE : column j rows = map (fun r : vec * R => fst r j) l1 ++ - C i j :: map (fun r : vec * R => fst r j) (l2 ++ u1) ++ C i j :: map (fun r : vec * R => fst r j) u2).
  { unfold column. rewrite ER, EL, EU. rewrite !map_app. cbn [map fst]. rewrite <- !app_assoc. cbn [app]. rewrite <- ?app_assoc. reflexivity. }
  destruct (opposite_zero (map (fun r : vec * R => fst r j) l1) (C i j) (map (fun r : vec * R => fst r j) (l2 ++ u1)) (map (fun r : vec * R => fst r j) u2) N) as (d & Hd & Hd0). rewrite <- CE in Hd.
  unfold auto_mu. assert (IN : In d (somes (map (fun j => col_min (column j rows)) (seq 0 n)))) by (apply somes_in, in_map_iff; exists j; split; [exact Hd | apply in_seq; lia]).
  unfold column, vec in *. destruct (somes _) as [|a m] eqn:E; [destruct IN|]. rewrite <- E.
  assert (Z : lmin a (somes (map (fun j => col_min (map (fun r : (nat -> R) * R => fst r j) rows)) (seq 0 n))) = 0).
  { apply Rle_antisym.
    - refine (Rle_trans _ _ _ (lmin_le _ _ _ _) Hd0). rewrite E. exact IN.
    - assert (IN2 : In (lmin a (somes (map (fun j => col_min (map (fun r : (nat -> R) * R => fst r j) rows)) (seq 0 n)))) (somes (map (fun j => col_min (map (fun r : (nat -> R) * R => fst r j) rows)) (seq 0 n)))) by (apply lmin_in; rewrite E; discriminate).
      apply in_somes, in_map_iff in IN2. destruct IN2 as (j' & Hj' & _). apply col_min_spec in Hj'. destruct Hj' as [_ (sel & _ & _ & ->)]. apply Rabs_pos. }
  rewrite Z. unfold f_div. destruct (Req_EM_T 0 0); [|lra]. destruct Req_EM_T; [reflexivity|]. unfold is_pos. destruct Rlt_dec; [reflexivity | lra].
Qed.
Lemma infinite_penalty r n C lb ub rows x : linear_constraint r n C lb ub = Some rows ->
  (satisfies r n C lb ub x -> penalty_ext n (Infty true) rows x = NaN) /\ (~ satisfies r n C lb ub x -> penalty_ext n (Infty true) rows x = Infty true).
Proof.
  intro LC. destruct (satisfies_zero r n C lb ub rows 1 x LC ltac:(lra)) as [N Z]. unfold penalty_ext. 
  unfold linear_penalty in N, Z. cbv zeta in N, Z. cbn [fst] in N, Z. rewrite Rmult_1_l in N, Z. unfold f_mul. split; intro S0.
  - apply Z in S0. rewrite S0. destruct Req_EM_T; [reflexivity|lra].
  - destruct Req_EM_T as [Q|Q]; [exfalso; apply S0, Z, Q|]. unfold is_pos. destruct Rlt_dec; [reflexivity|lra].
Qed.

(** ** ... in binary64 *)
Lemma zeros_sum rows x : (forall row, In row rows -> flt_ltb (snd row) (l_dot (fst row) x) = false) -> fold_left (fadd mode_NE) (map (fl_excess x) rows) f0 = f0.
Proof.
  induction rows as [|row rows IH]; intro H; [reflexivity|]. cbn [map fold_left]. assert (fl_excess x row = f0) as -> by (unfold fl_excess; cbv zeta; now rewrite (H row) by now left).
  change (fadd mode_NE f0 f0) with f0. apply IH. intros r Hr. apply H. now right.
Qed.
Lemma ltb_nan a : flt_ltb a fnan = false.
Proof. destruct a; reflexivity. Qed.
Lemma nan_start (P : params flt_ops) fg m x0 : fst (fg x0) = fnan ->
  r_x _ (fst (ralgb5 flt_ops P fg m x0)) = x0 /\ r_f _ (fst (ralgb5 flt_ops P fg m x0)) = fnan.
Proof.
  intro F. destruct (ralgb5_stays flt_ops P fg x0) with (m := m) as [E1 E2].
  - intro y. assert (Q := ltb_nan (fst (fg y))). rewrite <- F in Q. exact Q.
  - split; [exact E1 | exact (eq_trans E2 F)].
Qed.
Lemma infinite_mu (P : params flt_ops) fg rows m x0 : (forall row, In row rows -> flt_ltb (snd row) (l_dot (fst row) x0) = false) ->
  r_x _ (fst (ralgb5 flt_ops P (fl_with_penalty finf rows fg) m x0)) = x0 /\ r_f _ (fst (ralgb5 flt_ops P (fl_with_penalty finf rows fg) m x0)) = fnan.
Proof.
  intro H. apply nan_start. unfold fl_with_penalty, fl_penalty. destruct (fg x0) as [f g]. cbn [fst]. rewrite zeros_sum by assumption.
  destruct f; reflexivity.
Qed.

(** ** Statements with the witnesses hidden *)
Lemma two_in1 : satisfies 1 1 upto1 None (Some (fun _ => BFin 1)) (at1 1). Proof. apply sat1. unfold at1. lra. Qed.
Lemma default_start_x : exists A b C ub rows x0 z, proper_mat 1 1 A /\ linear_constraint 1 1 C None (Some ub) = Some rows /\ own_variables 1 rows /\
  auto_mu 1 rows (max_mag 0 1 A) = Some (Num 1) /\ solves 1 1 (mids A) (fun i => r_mid (b i)) x0 /\
  ~ satisfies 1 1 C None (Some ub) x0 /\ satisfies 1 1 C None (Some ub) z /\ tol_value 0 1 A b z ones = -1 /\
  forall big P, maximize_c 1 big P (tol_fg 0 1 A b ones) 1 rows x0 = (x0, -1).
Proof.
  exists (points (one_by_one 1)), (pvec (at1 2)), upto1, (fun _ => BFin 1), rows1, (at1 2), (at1 1).
  destruct (default_start 0 (mkparams (real_ops 1 0) 0 0 0 0%Z 0 0%nat 0 0%nat 0 0)) as (D1 & D2 & D3 & _ & D5 & D6 & D7).
  split; [apply points_proper|]. split; [exact D1|]. split; [exact own1|]. split; [exact D2|]. split; [exact D3|]. split; [exact D5|]. split; [exact D6|]. split; [exact D7|].
  intros big P. exact (proj1 (proj2 (proj2 (proj2 (default_start big P))))).
Qed.
Lemma shared_variables_x : exists A b C ub rows x mu, proper_mat 1 2 A /\ linear_constraint 2 2 C None (Some ub) = Some rows /\
  auto_mu 2 rows (max_mag 0 2 A) = Some (Num mu) /\ ~ satisfies 2 2 C None (Some ub) x /\ (exists y, satisfies 2 2 C None (Some ub) y) /\
  forall y, satisfies 2 2 C None (Some ub) y -> tol_value 0 2 A b y ones < tol_value 0 2 A b x ones - mu * violation 2 rows x.
Proof.
  exists (points diff), (pvec (at1 (-23))), shared, (fun _ => BFin 0), rows2, (pair2 12 (-11)), 1. destruct shared_variables as (S1 & S2 & S3 & S4 & S5).
  split; [apply points_proper|]. split; [exact S1|]. split; [exact S2|]. split; [exact S3|]. split; [exists (pair2 0 0); exact S4 | exact S5].
Qed.
Lemma weight_x : exists A b w C ub rows x mu, proper_mat 1 1 A /\ positive 1 w /\ linear_constraint 1 1 C None (Some ub) = Some rows /\ own_variables 1 rows /\
  auto_mu 1 rows (max_mag 0 1 A) = Some (Num mu) /\ ~ satisfies 1 1 C None (Some ub) x /\ (exists y, satisfies 1 1 C None (Some ub) y) /\
  forall y, satisfies 1 1 C None (Some ub) y -> tol_value 0 1 A b y w < tol_value 0 1 A b x w - mu * violation 1 rows x.
Proof.
  exists (points (one_by_one 1)), (pvec (at1 2)), (at1 2), upto1, (fun _ => BFin 1), rows1, (at1 2), 1. destruct weight_two as (S1 & S2 & S3).
  split; [apply points_proper|]. split; [intros i _; unfold at1; lra|]. split; [exact rows1_made|]. split; [exact own1|]. split; [exact S1|]. split; [exact S2|]. split; [exists (at1 1); exact two_in1 | exact S3].
Qed.
Lemma used_again_x : exists A1 A2 b2 C ub rows x mu, proper_mat 1 1 A1 /\ proper_mat 1 1 A2 /\ linear_constraint 1 1 C None (Some ub) = Some rows /\ own_variables 1 rows /\
  after_calls 0 1 [A1; A2] (mklc rows None) = Some (mklc rows (Some (Num mu))) /\ ~ satisfies 1 1 C None (Some ub) x /\ (exists y, satisfies 1 1 C None (Some ub) y) /\
  forall y, satisfies 1 1 C None (Some ub) y -> tol_value 0 1 A2 b2 y ones < tol_value 0 1 A2 b2 x ones - mu * violation 1 rows x.
Proof.
  exists (points (one_by_one 1)), (points (one_by_one 10)), (pvec (at1 20)), upto1, (fun _ => BFin 1), rows1, (at1 2), 1. destruct used_again as (S1 & _ & S2 & S3).
  split; [apply points_proper|]. split; [apply points_proper|]. split; [exact rows1_made|]. split; [exact own1|]. split; [exact S1|]. split; [exact S2|]. split; [exists (at1 1); exact two_in1 | exact S3].
Qed.
Lemma constrained_case : exists A b C ub rows, proper_mat 1 1 A /\ proper_vec 1 b /\ at_most_one 1 ones /\ linear_constraint 1 1 C None (Some ub) = Some rows /\
  own_variables 1 rows /\ auto_mu 1 rows (max_mag 0 1 A) = Some (Num 1) /\ (exists x, ~ satisfies 1 1 C None (Some ub) x) /\ (exists y, satisfies 1 1 C None (Some ub) y).
Proof.
  exists (points (one_by_one 1)), (pvec (at1 2)), upto1, (fun _ => BFin 1), rows1. destruct weight_two as (S1 & S2 & _).
  split; [apply points_proper|]. split; [intros i _; unfold proper, pvec, r_point; simpl; lra|]. split; [intros i _; unfold ones; lra|].
  split; [exact rows1_made|]. split; [exact own1|]. split; [exact S1|]. split; [exists (at1 2); exact S2 | exists (at1 1); exact two_in1].
Qed.
Lemma two_sided_case : exists rows, linear_constraint 1 1 (fun _ _ => 1) (Some (fun _ => BFin 0)) (Some (fun _ => BFin 1)) = Some rows /\ auto_mu 1 rows 3 = Some (Infty true).
Proof.
  destruct (linear_constraint 1 1 (fun _ _ => 1) (Some (fun _ => BFin 0)) (Some (fun _ => BFin 1))) as [rows|] eqn:E.
  - exists rows. split; [reflexivity|]. rewrite (two_sided_mu 1 1 (fun _ _ => 1) (fun _ => BFin 0) (fun _ => BFin 1) rows 0 0 0 1 3 E) by (try reflexivity; try lia; lra).
    destruct Req_EM_T; [lra | reflexivity].
  - exfalso. revert E. unfold linear_constraint, lc_rows, lc_lower, row_any. simpl. destruct Req_EM_T; [lra|]. discriminate.
Qed.
