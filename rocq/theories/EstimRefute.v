(** Refutations and concrete cases for Rohn, HBR, Neumaier and ChebNorm. *)
From Coq Require Import Reals ZArith List Bool Arith Lia Lra Psatz.
From Verif Require Import Exact Recog SpecExact ExactProofs RecogProofs Estim SpecEstim EstimProofs RohnProofs HbrProofs NmChebProofs.
Import ListNotations.
Open Scope R_scope.

(** ** _Rohn_Tol *)
Definition rt_exA : imat := fun _ _ => mkr 1 2.
Definition rt_exb : ivec := fun _ => mkr (-2) 4.
Definition rt_exlp : lp_solver := fun _ _ c _ _ =>
  Some (fun j => if Rlt_dec 0 (c O) then (match j with 1%nat => 1 | _ => 0 end) else (match j with O => 2 | _ => 0 end)).
Lemma rt_ex_feasible y : feasible 4 2 (rt_A 1 1 rt_exA) (rt_b 1 rt_exb) y <-> (2 * y 0%nat - y 1%nat <= 4 /\ - y 0%nat + 2 * y 1%nat <= 2 /\ 0 <= y 0%nat /\ 0 <= y 1%nat).
Proof.
  unfold feasible. split.
  - intro H. assert (H0 := H 0%nat ltac:(lia)). assert (H1 := H 1%nat ltac:(lia)). assert (H2 := H 2%nat ltac:(lia)). assert (H3 := H 3%nat ltac:(lia)).
    unfold times, rt_A, rt_b, rt_exA, rt_exb, eye in *. simpl in *. lra.
  - intros H i Hi. unfold times, rt_A, rt_b, rt_exA, rt_exb, eye. destruct i as [|[|[|[|i]]]]; [| | | |lia]; simpl; lra.
Qed.
Lemma rt_ex_calls : lp_calls_ok rt_exlp 1 1 rt_exA rt_exb.
Proof.
  intros nu Hnu. replace nu with O by lia. unfold rt_exlp, lp_truthful. change (2 * (1 + 1))%nat with 4%nat. change (2 * 1)%nat with 2%nat.
  split; (split; [apply rt_ex_feasible | intros y Hy; apply rt_ex_feasible in Hy; unfold dot]); unfold rt_c; simpl; repeat destruct Rlt_dec; lra.
Qed.
Lemma rt_ex_run : rohn_tol rt_exlp 1 1 rt_exA rt_exb 1 = Some [mkr (-1) 2].
Proof.
  unfold rohn_tol, rt_algo, rt_exlp. destruct Rlt_dec; [lra|]. simpl. unfold rt_c. simpl. repeat destruct Rlt_dec; try lra. repeat f_equal; lra.
Qed.

(** ** _Rohn_Uni on [1/2, 3/2] x = 1, whose solutions fill [2/3, 2] *)
Definition inv1 (n : nat) (M : mat) : mat := fun i j => / M i j.
Definition ru_exA : imat := fun _ _ => mkr (1 / 2) (3 / 2).
Definition ru_exb : ivec := fun _ => mkr 1 1.
Lemma ru_ex_system :
  (forall i j, ru_A inv1 1 1 ru_exA i j = mkr (1 / 2) (3 / 2)) /\ (forall i, ru_b inv1 1 1 ru_exA ru_exb i = mkr 1 1).
Proof.
  assert (P : forall i j, pinv inv1 1 1 (mids ru_exA) i j = 1).
  { intros. unfold pinv, inv1, mm, tr, mids, ru_exA, r_mid. simpl. field. }
  split; intros.
  - unfold ru_A, rimm, isum, r_scale, r_add, r_point. rewrite P. simpl. rewrite Rmin_left, Rmax_right by lra. f_equal; lra.
  - unfold ru_b, rimv, isum, r_scale, r_add, r_point. rewrite P. simpl. rewrite Rmin_left, Rmax_right by lra. f_equal; lra.
Qed.
Lemma ru_ex_data : let A1 := ru_A inv1 1 1 ru_exA in let b1 := ru_b inv1 1 1 ru_exA ru_exb in
  (forall i, ru_x0 inv1 1 A1 b1 i = 1) /\ (forall i j, i = O -> j = O -> ru_G inv1 1 A1 i j = 1 / 2) /\ (forall i, ru_g inv1 1 A1 b1 i = 1 / 2).
Proof.
  cbv zeta. destruct ru_ex_system as [EA Eb]. set (A1 := ru_A inv1 1 1 ru_exA) in *. set (b1 := ru_b inv1 1 1 ru_exA ru_exb) in *.
  assert (Mi : forall i j, mids A1 i j = 1) by (intros; unfold mids; rewrite EA; unfold r_mid; simpl; lra).
  assert (Ra : forall i j, rads A1 i j = 1 / 2) by (intros; unfold rads; rewrite EA; unfold r_rad; simpl; lra).
  assert (Mb : forall i, r_mid (b1 i) = 1) by (intros; rewrite Eb; unfold r_mid; simpl; lra).
  assert (Rb : forall i, r_rad (b1 i) = 0) by (intros; rewrite Eb; unfold r_rad; simpl; lra).
  assert (RR : forall i j, ru_R inv1 1 A1 i j = 1) by (intros; unfold ru_R, pinv, inv1, mm, tr; simpl; rewrite !Mi; field).
  assert (X0 : forall i, ru_x0 inv1 1 A1 b1 i = 1) by (intros; unfold ru_x0, mv; simpl; rewrite RR, Mb; lra).
  split; [exact X0|]. split.
  - intros i j -> ->. unfold ru_G, mm, eye. simpl. rewrite RR, Mi, Ra. rewrite (Rabs_right 1) by lra. replace (1 - (0 + 1 * 1)) with 0 by ring. rewrite Rabs_R0. lra.
  - intros i. unfold ru_g, mv, vabs. simpl. rewrite !RR, Mi, Ra, !X0, Mb, Rb. rewrite (Rabs_right 1) by lra. replace (0 + 1 * (0 + 1 * 1 - 1)) with 0 by ring. rewrite Rabs_R0. lra.
Qed.
Lemma ru_loop_ext k fuel tol G G' g g' r r' e : (forall i j, (i < S k)%nat -> (j < S k)%nat -> G i j = G' i j) -> (forall i, (i < S k)%nat -> g i = g' i) ->
  (forall i, (i < S k)%nat -> r i = r' i) -> forall i, (i < S k)%nat -> ru_loop k fuel tol G g r e i = ru_loop k fuel tol G' g' r' e i.
Proof.
  intros HG Hg. revert r r' e. induction fuel as [|f IH]; intros r r' e Hr i Hi; cbn [ru_loop]; [now apply Hr|].
  assert (Q : forall j, (j < S k)%nat -> mv (S k) G r j + g j + tol = mv (S k) G' r' j + g' j + tol).
  { intros j Hj. rewrite Hg by exact Hj. f_equal. f_equal. unfold mv. rewrite !vsum_eq. apply total_ext. intros l Hl. now rewrite HG, Hr. }
  assert (V : vmax k (fun i => Rabs (mv (S k) G r i + g i + tol - r i)) = vmax k (fun i => Rabs (mv (S k) G' r' i + g' i + tol - r' i))).
  { assert (W : forall k0 f1 f2, (forall j, (j <= k0)%nat -> f1 j = f2 j) -> vmax k0 f1 = vmax k0 f2).
    { intros k0 f1 f2 E. induction k0 as [|k0 I]; simpl; [apply E; lia|]. rewrite I by (intros; apply E; lia). rewrite E by lia. reflexivity. }
    apply W. intros j Hj. rewrite Q, Hr by lia. reflexivity. }
  rewrite V. destruct e as [e|]; [destruct Rle_dec; [|now apply Hr]|]; apply IH; auto.
Qed.
Definition loop1 (fuel : nat) (tol : R) := ru_loop 0 fuel tol (fun _ _ => 1 / 2) (fun _ => 1 / 2) (fun _ => 0) None O.
Lemma ru_ex_result tol maxiter : let r := loop1 (Z.to_nat (maxiter + 1)) tol in rohn_uni inv1 1 0 ru_exA ru_exb tol maxiter O = sort_itv (1 - r) (1 + r).
Proof.
  cbv zeta. destruct ru_ex_data as (X & G & g). unfold rohn_uni. cbv zeta. rewrite X. unfold loop1.
  rewrite (ru_loop_ext 0 _ tol _ (fun _ _ => 1 / 2) _ (fun _ => 1 / 2) (fun _ => 0) (fun _ => 0) None); auto; intros; apply G; lia.
Qed.
Lemma ru_ex_united x : 2 / 3 <= x O <= 2 -> united 1 1 ru_exA ru_exb x.
Proof.
  intro H. exists (fun _ _ => / x O), (fun _ => 1). assert (P : 0 < x O) by lra. assert (I : 1 / 2 <= / x O <= 3 / 2).
  { split; apply (Rmult_le_reg_r (x O)); try exact P; rewrite Rinv_l by lra; lra. }
  split; [|split].
  - intros i j Hi Hj. exact I.
  - intros i Hi. unfold ru_exb, inI; simpl. lra.
  - intros i Hi. unfold times; simpl. field. lra.
Qed.
(** Out of iterations: the box [0.4, 1.6] misses the solution 2. *)
Theorem rohn_uni_refuted : exists inv A b tol maxiter x, inverse_of 1 (mm 1 (tr (mids A)) (mids A)) (inv 1%nat (mm 1 (tr (mids A)) (mids A))) /\
  0 < tol /\ (0 <= maxiter)%Z /\ united 1 1 A b x /\ ~ inI (rohn_uni inv 1 0 A b tol maxiter O) (x O).
Proof.
  exists inv1, ru_exA, ru_exb, (/ 10), 0%Z, (fun _ => 2). split; [|split; [lra|split; [lia|split; [apply ru_ex_united; lra|]]]].
  - intros i j Hi Hj. replace i with O by lia. replace j with O by lia. unfold inv1, mm, tr, mids, ru_exA, r_mid. simpl. split; field.
  - rewrite ru_ex_result. change (Z.to_nat (0 + 1)) with 1%nat. unfold loop1, sort_itv, inI, mv. cbn [ru_loop vsum rl rh]. intros [_ T]. cbv beta in T. unfold mv in T. cbn [vsum] in T. rewrite Rmax_right in T; lra.
Qed.
(** A case in which the certificate of [rohn_uni_encloses] holds. *)
Lemma rohn_uni_case : (forall i, (i < 1)%nat -> rohn_uni inv1 1 0 ru_exA ru_exb 1 (1 + 1) i = rohn_uni inv1 1 0 ru_exA ru_exb 1 1 i) /\
  rohn_uni inv1 1 0 ru_exA ru_exb 1 1 O = mkr (-5 / 4) (13 / 4).
Proof.
  assert (L2 : loop1 2 1 = 9 / 4 /\ loop1 3 1 = 9 / 4).
  { unfold loop1. cbn [ru_loop vmax]. unfold mv. cbn [vsum].
    replace (Rabs (0 + 1 / 2 * 0 + 1 / 2 + 1 - 0)) with (3 / 2) by (rewrite Rabs_right; lra). destruct Rle_dec; [|lra].
    match goal with |- context [Rabs ?a] => replace (Rabs a) with (3 / 4) by (rewrite Rabs_right; lra) end. split; [lra|]. destruct Rle_dec; lra. }
  split.
  - intros i Hi. replace i with O by lia. rewrite !ru_ex_result. change (Z.to_nat (1 + 1 + 1)) with 3%nat. change (Z.to_nat (1 + 1)) with 2%nat. now rewrite (proj1 L2), (proj2 L2).
  - rewrite ru_ex_result. change (Z.to_nat (1 + 1)) with 2%nat. rewrite (proj1 L2). unfold sort_itv. rewrite Rmin_left, Rmax_right by lra. f_equal; lra.
Qed.

(** ** HBR *)
Lemma all_some_ext {T} (f g : nat -> option T) l : (forall i, In i l -> f i = g i) -> all_some (map f l) = all_some (map g l).
Proof. intro H. f_equal. now apply map_ext_in. Qed.
Lemma hbr_formula k A b C B i0 : inverse_of (S k) (r_compmat (rimm (S k) C A)) B ->
  (i0 < S k)%nat -> 0 < times (S k) (r_compmat (rimm (S k) C A)) (fun i => Rabs (total (S k) (fun j => B i j))) i0 ->
  let A1 := rimm (S k) C A in let b1 := rimv (S k) C b in
  hbr k A b C B = all_some (map (fun i => r_div (r_add (b1 i) (sym (h_beta k b1 B i))) (r_add (A1 i i) (sym (h_alpha A1 B i)))) (seq 0 (S k))).
Proof.
  intros HB Hi0 U. cbv zeta. set (A1 := rimm (S k) C A) in *. set (b1 := rimv (S k) C b).
  unfold hbr. fold A1. fold b1. cbv zeta.
  set (v := vabs (mv (S k) B (fun _ => 1))). set (u := mv (S k) (r_compmat A1) v).
  assert (Ex : existsb (fun i => if Rlt_dec 0 (u i) then true else false) (seq 0 (S k)) = true).
  { apply existsb_exists. exists i0. split; [apply in_seq; lia|]. replace (u i0) with (times (S k) (r_compmat A1) (fun i => Rabs (total (S k) (fun j => B i j))) i0); [destruct Rlt_dec; [reflexivity|contradiction]|].
    unfold u. rewrite (mv_times (S k) (r_compmat A1) v i0). unfold times. apply total_ext. intros j Hj. unfold v, vabs. rewrite (mv_times (S k) B (fun _ => 1) j). unfold times. f_equal. f_equal. apply total_ext. intros. ring. }
  rewrite Ex.
  set (w := fun j : nat => vmax k (fun i : nat => - (mm (S k) (r_compmat A1) B i j - eye i j) / (u i * 1))).
  change (fun i : nat => v i * vmax k (fun i0 : nat => - (mm (S k) (r_compmat A1) B i0 i - eye i0 i) / (u i0 * 1))) with (fun i : nat => v i * w i).
  assert (W0 : forall j, (j < S k)%nat -> w j = 0).
  { intros j Hj. apply vmax_const. intros i Hi. unfold mm. rewrite vsum_eq. rewrite (proj1 (HB i j ltac:(lia) Hj)). unfold eye. unfold Rdiv. destruct (i =? j)%nat; ring. }
  assert (VW : vsum (S k) (fun i => v i * w i) = 0).
  { rewrite vsum_eq. apply total_0. intros j Hj. rewrite W0 by exact Hj. ring. }
  rewrite VW. apply all_some_ext. intros i Hi. apply in_seq in Hi. rewrite Rplus_0_r.
  assert (Al : r_compmat A1 i i + (-1) / B i i = h_alpha A1 B i).
  { unfold h_alpha. unfold r_compmat. now rewrite Nat.eqb_refl. }
  rewrite Al. do 2 f_equal. f_equal. unfold h_beta. fold (w i). rewrite W0 by lia. rewrite mv_times. unfold times. f_equal. 
  replace (- (v i * 0 - B i i)) with (B i i) by ring. f_equal. apply total_ext. intros. ring.
Qed.
Lemma scale0 X : r_scale 0 X = mkr 0 0.
Proof. unfold r_scale. rewrite !Rmult_0_l. rewrite Rmin_left, Rmax_left by lra. reflexivity. Qed.
Lemma scale1 X : proper X -> r_scale 1 X = X.
Proof. unfold proper. intro P. destruct X as [l h]; simpl in *. unfold r_scale; simpl. rewrite !Rmult_1_l. now rewrite Rmin_left, Rmax_right by lra. Qed.
Lemma rimm_eye n A i j : (i < n)%nat -> proper (A i j) -> rimm n eye A i j = A i j.
Proof.
  intros Hi P. unfold rimm. destruct (A i j) as [l h] eqn:E.
  assert (forall X Y, rl X = rl Y -> rh X = rh Y -> X = Y) by (intros [] []; simpl; congruence). apply H; [rewrite isum_lo | rewrite isum_hi]; rewrite (total_pick n i _ Hi).
  - unfold eye. rewrite Nat.eqb_refl, E, scale1; auto.
  - intros q Hq Ne. unfold eye. destruct (Nat.eqb_spec i q); [congruence|]. now rewrite scale0.
  - unfold eye. rewrite Nat.eqb_refl, E, scale1; auto.
  - intros q Hq Ne. unfold eye. destruct (Nat.eqb_spec i q); [congruence|]. now rewrite scale0.
Qed.
Lemma rimv_eye n b i : (i < n)%nat -> proper (b i) -> rimv n eye b i = b i.
Proof. intros Hi P. exact (rimm_eye n (fun i _ => b i) i O Hi P). Qed.
Definition hx_D : mat := fun i j => match i, j with
  | 0%nat, 1%nat => 1 | 0%nat, 2%nat => 1 | 1%nat, 2%nat => 1 | 1%nat, 3%nat => 2 | 2%nat, 0%nat => 2 | 3%nat, 1%nat => 1 | _, _ => 0 end.
Definition hx_A : imat := fun i j => if (i =? j)%nat then mkr 1 1 else mkr (- hx_D i j) (hx_D i j).
Definition hx_b : ivec := fun _ => mkr 1 1.
Definition hx_B : mat := fun i j => match i, j with
  | 0%nat, 0%nat => 1 | 0%nat, 1%nat => -1 | 0%nat, 2%nat => 0 | 0%nat, 3%nat => -2
  | 1%nat, 0%nat => -2 | 1%nat, 1%nat => 1 | 1%nat, 2%nat => -1 | 1%nat, 3%nat => 2
  | 2%nat, 0%nat => 2 | 2%nat, 1%nat => -2 | 2%nat, 2%nat => 1 | 2%nat, 3%nat => -4
  | 3%nat, 0%nat => -2 | 3%nat, 1%nat => 1 | 3%nat, 2%nat => -1 | 3%nat, 3%nat => 3 | _, _ => 0 end.
Definition hx_M : mat := fun i j => match i, j with
  | 0%nat, 0%nat => 1 | 1%nat, 1%nat => 1 | 2%nat, 2%nat => 1 | 3%nat, 3%nat => 1 | 0%nat, 2%nat => -2 / 5 | 2%nat, 0%nat => -2 | _, _ => 0 end.
Definition hx_x : vec := fun i => match i with 0%nat => 7 | 1%nat => 1 | 2%nat => 15 | 3%nat => 1 | _ => 0 end.
Lemma hx_D_nn i j : 0 <= hx_D i j.
Proof. unfold hx_D. destruct i as [|[|[|[|i]]]]; destruct j as [|[|[|[|j]]]]; lra. Qed.
Lemma hx_proper i j : proper (hx_A i j).
Proof. unfold hx_A, proper. assert (T := hx_D_nn i j). destruct (i =? j)%nat; simpl; lra. Qed.
Lemma hx_cm i j : (i < 4)%nat -> (j < 4)%nat -> r_compmat (rimm 4 eye hx_A) i j = if (i =? j)%nat then 1 else - hx_D i j.
Proof.
  intros Hi Hj. unfold r_compmat. rewrite rimm_eye by (try exact Hi; apply hx_proper). unfold hx_A. assert (T := hx_D_nn i j). destruct (i =? j)%nat.
  - unfold r_mig, has0; simpl. destruct Rle_dec; [lra|]. rewrite Rabs_right by lra. apply Rmin_left. lra.
  - unfold r_mag; simpl. rewrite Rabs_Ropp, Rabs_right by lra. rewrite Rmax_left by lra. reflexivity.
Qed.
Ltac four i := destruct i as [|[|[|[|i]]]]; [| | | |lia].
Lemma hx_inverse : inverse_of 4 (r_compmat (rimm 4 eye hx_A)) hx_B.
Proof.
  intros i j Hi Hj.
  rewrite (total_ext 4 _ (fun l => (if (i =? l)%nat then 1 else - hx_D i l) * hx_B l j)) by (intros; now rewrite hx_cm).
  rewrite (total_ext 4 (fun l => hx_B i l * _) (fun l => hx_B i l * (if (l =? j)%nat then 1 else - hx_D l j))) by (intros; now rewrite hx_cm).
  four i; four j; simpl; split; lra.
Qed.
(** A matrix that is not an H-matrix passes the check, and the box [-2, 4] for
    the first unknown misses the solution (7, 1, 15, 1). *)
Theorem hbr_h_check_refuted : exists k A b C B r x, inverse_of (S k) (mids A) C /\ inverse_of (S k) (r_compmat (rimm (S k) C A)) B /\
  hbr k A b C B = Some r /\ united (S k) (S k) A b x /\ exists i, (i < S k)%nat /\ ~ inI (nth i r (mkr 0 0)) (x i).
Proof.
  exists 3%nat, hx_A, hx_b, eye, hx_B.
  assert (HB := hx_inverse).
  assert (Al : forall i, (i < 4)%nat -> h_alpha (rimm 4 eye hx_A) hx_B i = 1 + (-1) / hx_B i i).
  { intros i Hi. unfold h_alpha. assert (T := hx_cm i i Hi Hi). unfold r_compmat in T. rewrite Nat.eqb_refl in T. now rewrite T. }
  assert (Dg : forall i, (i < 4)%nat -> rimm 4 eye hx_A i i = mkr 1 1).
  { intros i Hi. rewrite rimm_eye by (try exact Hi; apply hx_proper). unfold hx_A. now rewrite Nat.eqb_refl. }
  destruct (all_some_intro (fun i => r_div (r_add (rimv 4 eye hx_b i) (sym (h_beta 3 (rimv 4 eye hx_b) hx_B i))) (r_add (rimm 4 eye hx_A i i) (sym (h_alpha (rimm 4 eye hx_A) hx_B i)))) (seq 0 4)) as (r & E & L & N).
  { intros i Hi. apply in_seq in Hi. rewrite Al, Dg by lia. unfold r_div. destruct (has0 (r_add (mkr 1 1) (sym (1 + -1 / hx_B i i)))) eqn:H0; [|eexists; reflexivity].
    exfalso. apply has0_iff in H0. unfold r_add, sym, sort_itv in H0. simpl in H0. assert (Hi' : (i < 4)%nat) by lia. clear Hi.
    four i; simpl in H0; [replace (1 + -1 / 1) with 0 in H0 by field | replace (1 + -1 / 1) with 0 in H0 by field | replace (1 + -1 / 1) with 0 in H0 by field | replace (1 + -1 / 3) with (2 / 3) in H0 by field];
      rewrite Rmin_left, Rmax_right in H0; lra. }
  exists r, hx_x. split; [|split; [exact HB|split; [|split]]].
  - intros i j Hi Hj. assert (Mi : forall i j, mids hx_A i j = if (i =? j)%nat then 1 else 0).
    { intros. unfold mids, hx_A, r_mid. destruct (_ =? _)%nat; simpl; lra. }
    rewrite (total_ext 4 _ (fun l => (if (i =? l)%nat then 1 else 0) * eye l j)) by (intros; now rewrite Mi).
    rewrite (total_ext 4 (fun l => eye i l * mids hx_A l j) (fun l => eye i l * (if (l =? j)%nat then 1 else 0))) by (intros; now rewrite Mi).
    unfold eye. four i; four j; simpl; split; lra.
  - rewrite (hbr_formula 3 hx_A hx_b eye hx_B 3 HB ltac:(lia)); [exact E|].
    unfold times. rewrite (total_ext 4 _ (fun j => (if (3 =? j)%nat then 1 else - hx_D 3%nat j) * Rabs (total 4 (fun l => hx_B j l)))) by (intros; now rewrite hx_cm by lia).
    simpl.
    replace (Rabs (0 + -2 + 1 + -1 + 2)) with 0 by (replace (0 + -2 + 1 + -1 + 2) with 0 by lra; now rewrite Rabs_R0).
    replace (Rabs (0 + -2 + 1 + -1 + 3)) with 1 by (replace (0 + -2 + 1 + -1 + 3) with 1 by lra; rewrite Rabs_right; lra). lra.
  - exists hx_M, (fun _ => 1). split; [|split].
    + intros i j Hi Hj. unfold inI, hx_A. four i; four j; simpl; lra.
    + intros i Hi. unfold inI, hx_b; simpl. lra.
    + intros i Hi. unfold times, hx_x. four i; simpl; lra.
  - exists O. split; [lia|]. assert (Q := N O O (mkr 0 0) ltac:(rewrite seq_length; lia)). simpl seq in Q. cbn [nth] in Q. rewrite Al, Dg in Q by lia.
    assert (Bt : h_beta 3 (rimv 4 eye hx_b) hx_B O = -3).
    { unfold h_beta. assert (Mb : forall l, (l < 4)%nat -> r_mag (rimv 4 eye hx_b l) = 1).
      { intros l Hl. rewrite rimv_eye by (try exact Hl; unfold hx_b, proper; simpl; lra). unfold r_mag, hx_b; simpl. rewrite Rabs_right by lra. apply Rmax_left. lra. }
      rewrite (total_ext 4 _ (fun l => hx_B O l * 1)) by (intros; now rewrite Mb). rewrite Mb by lia. simpl. lra. }
    rewrite Bt in Q. rewrite rimv_eye in Q by (try lia; unfold hx_b, proper; simpl; lra). unfold r_div in Q. destruct (has0 _); [discriminate|]. injection Q as Q. rewrite <- Q.
    unfold inI, r_add, sym, sort_itv, hx_b. simpl. replace (1 + -1 / 1) with 0 by field. rewrite (Rmin_right (- -3) (-3)), (Rmax_left (- -3) (-3)), (Rmin_left (- 0) 0), (Rmax_left (- 0) 0) by lra.
    intros [_ T]. revert T. apply Rlt_not_le. replace (1 + 0) with 1 by lra. replace (1 + - 0) with 1 by lra. unfold Rdiv. rewrite Rinv_1. repeat apply Rmax_lub_lt; lra.
Qed.
(** [2,4] on the diagonal, [-1,1] elsewhere: an H-matrix after preconditioning by
    the inverse midpoint. *)
Definition hy_A : imat := fun i j => if (i =? j)%nat then mkr 2 4 else mkr (-1) 1.
Definition hy_C : mat := fun i j => if (i =? j)%nat then / 3 else 0.
Definition hy_B : mat := fun i j => if (i =? j)%nat then 2 else 1.
Lemma hy_pre i j : (i < 2)%nat -> (j < 2)%nat -> rimm 2 hy_C hy_A i j = if (i =? j)%nat then mkr (2 / 3) (4 / 3) else mkr (- / 3) (/ 3).
Proof.
  intros Hi Hj. unfold rimm, hy_C, hy_A. destruct i as [|[|i]]; [| |lia]; destruct j as [|[|j]]; try lia; unfold isum; simpl; rewrite scale0; unfold r_scale, r_add, r_point; simpl; rewrite Rmin_left, Rmax_right by lra; f_equal; lra.
Qed.
Lemma hbr_case : inverse_of 2 (mids hy_A) hy_C /\ inverse_of 2 (r_compmat (rimm 2 hy_C hy_A)) hy_B /\ h_matrix 2 (rimm 2 hy_C hy_A).
Proof.
  split; [|split].
  - intros i j Hi Hj. unfold mids, hy_A, hy_C, r_mid. destruct i as [|[|i]]; [| |lia]; destruct j as [|[|j]]; try lia; simpl; split; lra.
  - assert (Cm : forall i j, (i < 2)%nat -> (j < 2)%nat -> r_compmat (rimm 2 hy_C hy_A) i j = if (i =? j)%nat then 2 / 3 else - / 3).
    { intros i j Hi Hj. unfold r_compmat. rewrite hy_pre by assumption. destruct (i =? j)%nat.
      - unfold r_mig, has0; simpl. destruct Rle_dec; [lra|]. rewrite !Rabs_right by lra. apply Rmin_left. lra.
      - unfold r_mag; simpl. rewrite Rabs_Ropp. rewrite Rmax_left by lra. rewrite Rabs_right by lra. reflexivity. }
    intros i j Hi Hj. rewrite (total_ext 2 _ (fun l => (if (i =? l)%nat then 2 / 3 else - / 3) * hy_B l j)) by (intros; now rewrite Cm).
    rewrite (total_ext 2 (fun l => hy_B i l * _) (fun l => hy_B i l * (if (l =? j)%nat then 2 / 3 else - / 3))) by (intros; now rewrite Cm).
    unfold hy_B. destruct i as [|[|i]]; [| |lia]; destruct j as [|[|j]]; try lia; simpl; split; lra.
  - exists (fun _ => 1). split; [intros i _; lra|]. intros M HM i Hi.
    assert (Q : forall a c, (a < 2)%nat -> (c < 2)%nat -> inI (if (a =? c)%nat then mkr (2 / 3) (4 / 3) else mkr (- / 3) (/ 3)) (M a c)) by (intros; rewrite <- hy_pre by assumption; now apply HM).
    assert (Q00 := Q O O ltac:(lia) ltac:(lia)). assert (Q01 := Q O 1%nat ltac:(lia) ltac:(lia)). assert (Q10 := Q 1%nat O ltac:(lia) ltac:(lia)). assert (Q11 := Q 1%nat 1%nat ltac:(lia) ltac:(lia)).
    unfold inI in *. simpl in *. 
    assert (Rabs (M O 1%nat) <= / 3) by (apply Rabs_le; lra). assert (Rabs (M 1%nat O) <= / 3) by (apply Rabs_le; lra).
    destruct i as [|[|i]]; [| |lia]; simpl; [rewrite (Rabs_right (M O O)) by lra | rewrite (Rabs_right (M 1%nat 1%nat)) by lra]; lra.
Qed.

(** ** Neumaier *)
Definition nx_A : imat := fun i j => if (i =? j)%nat then mkr 0 0 else mkr 1 1.
Definition nx_b : ivec := fun i => match i with O => mkr (-1) 1 | _ => mkr (-2) 2 end.
(** Row i's radius is applied to coordinate i. *)
Theorem neumaier_refuted : exists A b y box x, tolerable 2 2 A b y /\ proper_mat 2 2 A /\ neumaier 2 2 A b y None = Some (2%nat, box) /\ in_ivec 2 box x /\ ~ tolerable 2 2 A b x.
Proof.
  exists nx_A, nx_b, (fun _ => 0). unfold neumaier. simpl bcast_len. eexists. exists (fun i => match i with O => 0 | _ => 2 end).
  assert (Im : forall i, imv 2 nx_A (fun _ => 0) i = mkr 0 0).
  { intro i. unfold imv, isum, r_add, r_point. rewrite !scale0. simpl. f_equal; lra. }
  assert (Rr : forall i, (i < 2)%nat -> nm_r 2 nx_A nx_b (fun _ => 0) i = match i with O => 1 | _ => 2 end).
  { intros i Hi. unfold nm_r. rewrite Im. unfold r_rad, r_mid, r_mag, r_csub, nx_A, nx_b. destruct i as [|[|i]]; [| |lia]; simpl; rewrite ?Rminus_0_r;
      repeat match goal with |- context [Rabs ?a] => first [replace (Rabs a) with 0 by (replace a with 0 by lra; now rewrite Rabs_R0) | replace (Rabs a) with 1 by (rewrite Rabs_right; lra)] end;
      rewrite !Rmax_left by lra; lra. }
  split; [|split; [|split; [reflexivity|split]]].
  - intros M HM i Hi. unfold inI, times. destruct i as [|[|i]]; [| |lia]; simpl; lra.
  - intros i j Hi Hj. unfold proper, nx_A. destruct (i =? j)%nat; simpl; lra.
  - intros j Hj. cbv beta zeta. cbn [nm_A nm_box]. unfold bidx. simpl (2 =? 1)%nat. cbv iota. rewrite Rr by exact Hj. unfold inI.
    destruct j as [|[|j]]; [| |lia]; rewrite sym_scale by lra; simpl; lra.
  - intro T. assert (Q := T (fun i j => if (i =? j)%nat then 0 else 1) ltac:(intros i j Hi Hj; unfold inI, nx_A; destruct (i =? j)%nat; simpl; lra) O ltac:(lia)).
    unfold inI, times, nx_b in Q. simpl in Q. lra.
Qed.
(** With weights even one equation in one unknown fails: x = 1..3 around y = 1. *)
Theorem neumaier_weighted_refuted : exists A b y w box x, tolerable 1 1 A b y /\ proper_mat 1 1 A /\ positive 1 w /\ neumaier 1 1 A b y (Some w) = Some (1%nat, box) /\ in_ivec 1 box x /\ ~ tolerable 1 1 A b x.
Proof.
  exists (fun _ _ => mkr 1 1), (fun _ => mkr 1 3), (fun _ => 1), (fun _ => 2). unfold neumaier. simpl bcast_len. eexists. exists (fun _ => 0).
  assert (Rr : nm_r 1 (nm_A (fun _ _ => mkr 1 1) (@Some vec (fun _ => 2))) (fun _ => mkr 1 3) (fun _ => 1) O = / 2).
  { unfold nm_r, nm_A. assert (S2 : r_scale 2 (mkr 1 1) = mkr 2 2) by (unfold r_scale; simpl; rewrite Rmin_left, Rmax_left by lra; f_equal; lra). simpl. rewrite S2.
    unfold imv, isum. rewrite scale1 by (unfold proper; simpl; lra). unfold r_rad, r_mid, r_mag, r_csub, r_add, r_point. simpl.
    replace (/ 2 * (3 + 1) - (0 + 2)) with 0 by lra. rewrite Rabs_R0, (Rabs_right 2) by lra. rewrite !Rmax_left by lra. lra. }
  split; [|split; [|split; [|split; [reflexivity|split]]]].
  - intros M HM i Hi. assert (Q := HM i O Hi ltac:(lia)). unfold inI, times in *. simpl in *. lra.
  - intros i j _ _. unfold proper; simpl; lra.
  - intros i _. lra.
  - intros j Hj. cbv beta zeta. unfold bidx. simpl (1 =? 1)%nat. cbv iota. rewrite Rr. unfold inI. cbn [nm_box]. rewrite sym_scale by lra. simpl. lra.
  - intro T. assert (Q := T (fun _ _ => 1) ltac:(intros i j Hi Hj; unfold inI; simpl; lra) O ltac:(lia)). unfold inI, times in Q. simpl in Q. lra.
Qed.

(** ** ChebNorm *)
(** A vertex of the box that minimizes c.a *)
Definition vertex_lp (n : nat) (c l u : vec) : vec := fun j => if Rle_dec 0 (c j) then l j else u j.
Lemma vertex_ok n : lpbox_ok n vertex_lp.
Proof.
  intros c l u H. split.
  - intros j Hj. unfold vertex_lp. specialize (H j Hj). destruct Rle_dec; lra.
  - intros z Hz. unfold dot. apply total_le. intros j Hj. specialize (Hz j Hj). unfold vertex_lp. destruct Rle_dec; nra.
Qed.
(** [0,10] x against 0 at x = 1: the value is 0, the true deviation 10. *)
Theorem cheb_value_refuted : exists lpbox A b x M v, lpbox_ok 1 lpbox /\ proper_mat 1 1 A /\ proper_vec 1 b /\ in_imat 1 1 A M /\ in_ivec 1 b v /\
  cheb_value lpbox 0 1 A b x ones < Rabs (v O - times 1 M x O).
Proof.
  exists vertex_lp, (fun _ _ => mkr 0 10), (fun _ => mkr 0 0), (fun _ => 1), (fun _ _ => 10), (fun _ => 0). split; [apply vertex_ok|].
  split; [intros i j _ _; unfold proper; simpl; lra|]. split; [intros i _; unfold proper; simpl; lra|]. split; [intros i j _ _; unfold inI; simpl; lra|]. split; [intros i _; unfold inI; simpl; lra|].
  unfold cheb_value, cheb_constituent. cbn [vmax]. rewrite (opt_value vertex_lp 0 1 _ _ (vertex_ok 1)); [|intros i j _ _; unfold proper; simpl; lra|lia].
  unfold imv, isum, r_add, r_point. rewrite scale1 by (unfold proper; simpl; lra). unfold r_mid, r_rad, ones, times. simpl. destruct Rle_dec; [|lra].
  replace (/ 2 * (0 + 0) - (0 + 0)) with 0 by lra. rewrite Rabs_R0. replace (0 - (0 + 10 * 1)) with (-10) by lra. rewrite Rabs_left by lra. lra.
Qed.
(** The vector returned by calcfg ignores the weights: 2 |y| at 1. *)
Theorem cheb_weights_refuted : exists lpbox A b w x y t, lpbox_ok 1 lpbox /\ proper_mat 1 1 A /\ proper_vec 1 b /\ positive 1 w /\ worst_deviation 1 1 A b w y t /\
  let fg := cheb_fg lpbox 0 1 A b w x in t < fst fg + dot 1 (snd fg) (minus y x).
Proof.
  exists vertex_lp, (fun _ _ => mkr 1 1), (fun _ => mkr 0 0), (fun _ => 2), (fun _ => 1), (fun _ => 0), 0. split; [apply vertex_ok|].
  split; [intros i j _ _; unfold proper; simpl; lra|]. split; [intros i _; unfold proper; simpl; lra|]. split; [intros i _; lra|]. split.
  - split.
    + intros M v HM Hv i Hi. replace i with O by lia. specialize (Hv O ltac:(lia)). unfold inI in Hv. simpl in Hv. unfold times; simpl. replace (v O - (0 + M O O * 0)) with 0 by lra. rewrite Rabs_R0. lra.
    + exists (fun _ _ => 1), (fun _ => 0), O. split; [intros i j _ _; unfold inI; simpl; lra|]. split; [intros i _; unfold inI; simpl; lra|]. split; [lia|]. unfold times; simpl. replace (0 - (0 + 1 * 0)) with 0 by lra. rewrite Rabs_R0. lra.
  - cbv zeta. unfold cheb_fg, cheb_calcfg. cbn [fst snd vmax]. unfold argmax. cbn [argmin].
    assert (PA : proper_mat 1 1 (fun _ _ => mkr 1 1)) by (intros i j _ _; unfold proper; simpl; lra).
    rewrite !(opt_value vertex_lp 0 1 (fun _ _ => mkr 1 1) (fun _ => mkr 0 0) (vertex_ok 1) PA) by lia.
    unfold imv, isum, r_add, r_point. rewrite scale1 by (unfold proper; simpl; lra). unfold r_mid, r_rad, dot, minus. simpl.
    assert (O1 : opt_A vertex_lp 1 (infs_of (fun _ _ => mkr 1 1)) (sups_of (fun _ _ => mkr 1 1)) (fun _ => / 2 * (0 + 0)) (fun _ => 1) O O = 1).
    { unfold opt_A, vertex_lp, infs_of, sups_of. repeat destruct Rle_dec; reflexivity. }
    rewrite O1. destruct Rle_dec; (replace (/ 2 * (0 + 0) - (0 + 1)) with (-1) by lra; rewrite (Rabs_left (-1)) by lra; unfold sgn; destruct Rlt_dec; lra).
Qed.
(** A case of [cheb_value_exact] with a proper interval matrix. *)
Lemma cheb_case : let A : imat := fun _ _ => mkr 1 2 in let b : ivec := fun _ => mkr 4 6 in let x : vec := fun _ => 1 in
  rl (imv 1 A x O) - rh (imv 1 A x O) <= 2 * r_mid (b O) /\ rl (imv 1 A x O) + rh (imv 1 A x O) <= 2 * r_mid (b O).
Proof.
  cbv zeta. unfold imv, isum, r_add, r_point. rewrite scale1 by (unfold proper; simpl; lra). unfold r_mid. simpl. lra.
Qed.
