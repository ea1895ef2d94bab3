(** The tolerable branch of Rohn with the value Tol.maximize reports. *)
From Coq Require Import String.
From Coq Require Import ZArith Reals List Bool Arith Lia Lra Floats.SpecFloat.
From Flocq Require Import Core IEEE754.BinarySingleNaN.
From Verif Require Import Base PyNum Kernel Spec Expr Arrays Construct SpecArray XReal XArith KernelProofs KernelMore KernelAlg KernelRefute Witness ExprProofs ArrayProofs ArrayMore ArrayMat ConstructProofs KaucherProofs
  Exact Recog SpecExact Estim SpecEstim EstimProofs EstimRefute
  RecogFl SpecRecogFl RecogFlProofs RecogFlCor RecogFlRefute HbrFl HbrFlProofs RohnFl GSProofs UssFl SpecUssFl UssFlProofs UssFlRefute Ralgb5 RecogOpt SpecRecogOpt RecogOptProofs RecogOptMargin RecogOptSign
  RecogOptRun RecogOptTotal RecogOptFinal RecogOptAccuracy RecogOptRefute RohnTol.
Import ListNotations.
Open Scope R_scope.

Section Tol.
Variables (fdot : list (flt * flt) -> flt) (W : vops) (P : params (ops_of W)) (lp : lp_solver) (r n : nat) (A b : aitv) (x0 : list flt).
Hypothesis SA : shp A = [r; n].
Hypothesis PA : Forall proper_fin (adata (adat A)).
Hypothesis LP : lp_calls_ok lp r n (end_mat A) (end_vec b).
Lemma ends_proper : proper_mat r n (end_mat A).
Proof.
  intros i j _ _. unfold end_mat. destruct (aget (adat A) [i; j]) as [e|] eqn:E; [|unfold proper; simpl; lra].
  rewrite Forall_forall in PA. destruct (PA e (aget_in _ _ _ E)) as [_ L]. exact L.
Qed.
Lemma as_exact : flt_ltb (snd (tol_maximize_fl fdot W P A b (np_ones r) x0)) f0 = false ->
  rohn_tol_fl fdot W P lp A b x0 = rohn_tol lp r n (end_mat A) (end_vec b) 0.
Proof. intro H. unfold rohn_tol_fl, rohn_tol. rewrite SA. cbv zeta. rewrite H. destruct Rlt_dec; [lra | reflexivity]. Qed.
Lemma tol_fl_hull l : rohn_tol_fl fdot W P lp A b x0 = Some l ->
  length l = n /\ forall j, (j < n)%nat -> coordinate_range (tolerable r n (end_mat A) (end_vec b)) j (nth j l (mkr 0 0)).
Proof.
  intro H. destruct (flt_ltb (snd (tol_maximize_fl fdot W P A b (np_ones r) x0)) f0) eqn:E.
  - unfold rohn_tol_fl in H. rewrite SA in H. cbv zeta in H. rewrite E in H. discriminate.
  - rewrite (as_exact E) in H. exact (rohn_tol_hull lp r n _ _ 0 l ends_proper LP H).
Qed.
Lemma tol_fl_empty : (0 < n)%nat -> (forall x, ~ tolerable r n (end_mat A) (end_vec b) x) -> rohn_tol_fl fdot W P lp A b x0 = None.
Proof.
  intros N H. destruct (flt_ltb (snd (tol_maximize_fl fdot W P A b (np_ones r) x0)) f0) eqn:E.
  - unfold rohn_tol_fl. rewrite SA. cbv zeta. now rewrite E.
  - rewrite (as_exact E). exact (rohn_tol_empty lp r n _ _ 0 N ends_proper LP H).
Qed.
Lemma tol_fl_returns : (exists x, tolerable r n (end_mat A) (end_vec b) x) ->
  (exists t, forall x j, tolerable r n (end_mat A) (end_vec b) x -> (j < n)%nat -> Rabs (x j) <= t) ->
  (forall T v0, returns (tol_calc fdot A b (point x0) (np_ones r)) mode_NE T -> least T v0 -> flt_leb f0 v0 = true) ->
  exists l, rohn_tol_fl fdot W P lp A b x0 = Some l.
Proof.
  intros NE BD ST. rewrite as_exact; [exact (rohn_tol_returns lp r n _ _ 0 ends_proper LP (Rle_refl 0) NE BD)|].
  destruct (tol_maximize_fl fdot W P A b (np_ones r) x0) as [x v] eqn:E. cbn [snd].
  destruct (is_nan v) eqn:NV. { rewrite flt_ltb_x. apply is_nan_x in NV. rewrite NV. reflexivity. }
  destruct (tol_run fdot A b (np_ones r) W P x0 x v E NV) as [_ (T0 & v0 & H1 & H2 & H3)].
  assert (Q := ST T0 v0 H1 H2). rewrite flt_leb_x in Q, H3. assert (Z := xleb_trans _ _ _ Q H3).
  rewrite flt_ltb_x. change (xflt f0) with (XFin 0) in *. destruct (xflt v) as [| | |a]; try reflexivity; try discriminate.
  apply xleb_fin in Z. destruct (xltb (XFin a) (XFin 0)) eqn:L; [|reflexivity]. apply xltb_fin in L. lra.
Qed.
Lemma tol_fl_raises : (exists x, tolerable r n (end_mat A) (end_vec b) x) ->
  (exists t, forall x j, tolerable r n (end_mat A) (end_vec b) x -> (j < n)%nat -> Rabs (x j) <= t) ->
  rohn_tol_fl fdot W P lp A b x0 = None <-> flt_ltb (snd (tol_maximize_fl fdot W P A b (np_ones r) x0)) f0 = true.
Proof.
  intros NE BD. split.
  - intro H. destruct (flt_ltb _ f0) eqn:E; [reflexivity|]. exfalso. rewrite (as_exact E) in H.
    destruct (rohn_tol_returns lp r n _ _ 0 ends_proper LP (Rle_refl 0) NE BD) as [l Hl]. congruence.
  - intro H. unfold rohn_tol_fl. rewrite SA. cbv zeta. now rewrite H.
Qed.
End Tol.

(** ** The equation 3 x = 3 + 2^-51, which no double satisfies up to rounding *)
Definition gap : flt := fl 6755399441055745 (-51).
Definition eq3 : aitv := one_eq (PInt 3).
Definition rhs3 : aitv := one_rhs (PFlt gap) (PFlt gap).
Definition gapR : R := 6755399441055745 / 2251799813685248.
Lemma gap_val : is_finite gap = true /\ B2R gap = gapR.
Proof. split; [vm_compute; reflexivity|]. unfold gap, gapR. rewrite (B2R_sf _ false 6755399441055745 (-51)) by (vm_compute; reflexivity). feval. lra. Qed.
(** numpy's inner product of one pair *)
Definition one_term (fdot : list (flt * flt) -> flt) : Prop := forall a x, xflt (fdot [(a, x)]) = xflt (fmul mode_NE a x).
Lemma seq_one_term : one_term seq_dot.
Proof.
  intros a x. unfold seq_dot. cbn [fold_left fst snd]. rewrite fadd_x. change (xflt f0) with (XFin 0). assert (D := flt_dbl (fmul mode_NE a x)).
  destruct (xflt (fmul mode_NE a x)) as [| | |p]; try reflexivity. cbn [xadd]. rewrite Rplus_0_l. now apply xround_dbl_id.
Qed.
Definition f3 : flt := fl 3 0.
Lemma f3_x : xflt f3 = XFin 3.
Proof. assert (F : is_finite f3 = true) by (vm_compute; reflexivity). rewrite (proj1 (is_finite_x f3) F). f_equal. unfold f3. rewrite (B2R_sf _ false 6755399441055744 (-51)) by (vm_compute; reflexivity). feval. lra. Qed.
Definition next1 : flt := fl 4503599627370497 (-52).
Lemma next1_x : xflt next1 = XFin (1 + / 4503599627370496).
Proof. assert (F : is_finite next1 = true) by (vm_compute; reflexivity). rewrite (proj1 (is_finite_x next1) F). f_equal. unfold next1. rewrite (B2R_sf _ false 4503599627370497 (-52)) by (vm_compute; reflexivity). feval. lra. Qed.
Lemma next1_3 : rnd mode_NE (3 * (1 + / 4503599627370496)) = 3 + / 1125899906842624.
Proof.
  symmetry. apply fin_eq. transitivity (xflt (fmul mode_NE f3 next1)); [|rewrite fmul_x, f3_x, next1_x; reflexivity].
  assert (F : is_finite (fmul mode_NE f3 next1) = true) by (vm_compute; reflexivity). rewrite (proj1 (is_finite_x _) F). f_equal.
  rewrite (B2R_sf _ false 6755399441055746 (-51)) by (vm_compute; reflexivity). feval. lra.
Qed.
Lemma three_1 : rnd mode_NE (3 * 1) = 3.
Proof. symmetry. apply fin_eq. rewrite Rmult_1_r. assert (D := flt_dbl f3). rewrite f3_x in D. symmetry. now apply xround_dbl_id. Qed.
Lemma above_1 y : is_dbl (XFin y) -> 1 < y -> 1 + / 4503599627370496 <= y.
Proof.
  intros D L. destruct (dbl_gen _ D) as [G _]. assert (F1 : generic_format radix2 (SpecFloat.fexp 53 1024) 1).
  { change 1 with (bpow radix2 0). apply generic_format_bpow. unfold SpecFloat.fexp, SpecFloat.emin. lia. }
  assert (S1 := succ_le_lt radix2 (SpecFloat.fexp 53 1024) 1 y F1 G L). rewrite succ_eq_pos in S1 by lra.
  change 1 with (bpow radix2 0) in S1 at 2. rewrite ulp_bpow in S1. change (bpow radix2 (SpecFloat.fexp 53 1024 (0 + 1))) with (/ 4503599627370496) in S1. exact S1.
Qed.
Lemma no_gap y : is_dbl (XFin y) -> rnd mode_NE (3 * y) <> gapR.
Proof.
  intros D E. unfold gapR in E. destruct (Rle_dec y 1) as [L|L].
  - assert (Q : rnd mode_NE (3 * y) <= rnd mode_NE (3 * 1)) by (apply round_le; auto with typeclass_instances; lra). rewrite three_1 in Q. lra.
  - assert (U := above_1 y D ltac:(lra)).
    assert (Q : rnd mode_NE (3 * (1 + / 4503599627370496)) <= rnd mode_NE (3 * y)) by (apply round_le; auto with typeclass_instances; lra). rewrite next1_3 in Q. lra.
Qed.
(** The residual of a finite point is never zero, so the constituent is negative. *)
Lemma residual y c p : is_dbl (XFin y) -> xflt c = XFin gapR -> xflt p = xround mode_NE (3 * y) ->
  exists q, xabs (xsub mode_NE (xflt c) (xflt p)) = q /\ (q = XPInf \/ exists z, q = XFin z /\ 0 < z).
Proof.
  intros D C Pp. eexists. split; [reflexivity|]. assert (DP := flt_dbl p). assert (DC := flt_dbl c). rewrite C in *. rewrite Pp in *.
  destruct (xround mode_NE (3 * y)) as [| | |z] eqn:E.
  - exfalso. revert E. unfold xround. destruct Rlt_bool; [discriminate|]. destruct Rlt_bool; discriminate.
  - left. reflexivity.
  - left. reflexivity.
  - assert (N : z <> gapR) by (rewrite (fin_eq z (3 * y) (eq_sym E)); now apply no_gap).
    unfold xsub. cbn [xopp xadd]. assert (X1 := sub_sign mode_NE gapR z DC DP). assert (X2 := sub_sign mode_NE z gapR DP DC). unfold xsub in X1, X2. cbn [xopp xadd] in X1, X2.
    destruct (xround mode_NE (gapR + - z)) as [| | |w] eqn:EW; [exfalso; revert EW; unfold xround; destruct Rlt_bool; [discriminate|]; destruct Rlt_bool; discriminate| | |]; [left; reflexivity | left; reflexivity|].
    right. exists (Rabs w). split; [reflexivity|]. apply Rabs_pos_lt. intro W0. subst w.
    assert (EZ : xround mode_NE (z + - gapR) = XFin 0).
    { symmetry in EW. apply fin_eq in EW. unfold xround. replace (z + - gapR) with (- (gapR + - z)) by ring.
      assert (RO : rnd mode_NE (- (gapR + - z)) = 0).
      { change (round radix2 fexp ZnearestE (- (gapR + - z)) = 0). rewrite round_NE_opp. change (- rnd mode_NE (gapR + - z) = 0). rewrite <- EW. apply Ropp_0. }
      rewrite RO. rewrite Rabs_R0. destruct (Rlt_bool_spec 0 (bpow radix2 1024)) as [_|B]; [reflexivity|]. assert (Q := bpow_gt_0 radix2 1024). lra. }
    rewrite EZ in X2. assert (Z0 : xleb (XFin 0) (XFin 0) = true) by (apply xleb_fin; lra). apply X1 in Z0 as Z1. apply X2 in Z0 as Z2. lra.
Qed.

(** The constituent at any point, by the formula of calc_parts. *)
Lemma mid3 v : returns (mid (mkitv Classical (PInt 3) (PInt 3))) mode_NE (PFlt v) -> xflt v = XFin 3.
Proof.
  intro H. assert (Q : match fst (mid (mkitv Classical (PInt 3) (PInt 3)) mode_NE) with Ok (PFlt f) => flt_eqb f f3 | _ => false end = true) by (vm_compute; reflexivity).
  unfold returns, outcome in H. rewrite H in Q. rewrite flt_eqb_x, f3_x in Q. destruct (xflt v); try discriminate. apply xeqb_fin in Q. now subst.
Qed.
Lemma rad3 v : returns (rad (mkitv Classical (PInt 3) (PInt 3))) mode_NE (PFlt v) -> xflt v = XFin 0.
Proof.
  intro H. assert (Q : match fst (rad (mkitv Classical (PInt 3) (PInt 3)) mode_NE) with Ok (PFlt f) => flt_eqb f f0 | _ => false end = true) by (vm_compute; reflexivity).
  unfold returns, outcome in H. rewrite H in Q. rewrite flt_eqb_x in Q. change (xflt f0) with (XFin 0) in Q. destruct (xflt v); try discriminate. apply xeqb_fin in Q. now subst.
Qed.
Lemma midg v : returns (mid (mkitv Classical (PFlt gap) (PFlt gap))) mode_NE (PFlt v) -> xflt v = XFin gapR.
Proof.
  intro H. assert (Q : match fst (mid (mkitv Classical (PFlt gap) (PFlt gap)) mode_NE) with Ok (PFlt f) => flt_eqb f gap | _ => false end = true) by (vm_compute; reflexivity).
  unfold returns, outcome in H. rewrite H in Q. destruct gap_val as [F V]. rewrite flt_eqb_x, (proj1 (is_finite_x gap) F), V in Q. destruct (xflt v); try discriminate. apply xeqb_fin in Q. now subst.
Qed.
Lemma radg v : returns (rad (mkitv Classical (PFlt gap) (PFlt gap))) mode_NE (PFlt v) -> xflt v = XFin 0.
Proof.
  intro H. assert (Q : match fst (rad (mkitv Classical (PFlt gap) (PFlt gap)) mode_NE) with Ok (PFlt f) => flt_eqb f f0 | _ => false end = true) by (vm_compute; reflexivity).
  unfold returns, outcome in H. rewrite H in Q. rewrite flt_eqb_x in Q. change (xflt f0) with (XFin 0) in Q. destruct (xflt v); try discriminate. apply xeqb_fin in Q. now subst.
Qed.
Lemma ran1 (c : M pynum) (t : flt -> bool) : match fst (c mode_NE) with Ok (PFlt f) => t f | _ => false end = true -> exists v, returns c mode_NE v.
Proof. intro H. unfold returns, outcome. destruct (fst (c mode_NE)) as [v|]; [now exists v | discriminate]. Qed.
Lemma np_ones_ones r : SpecRecogOpt.ones r (np_ones r).
Proof.
  destruct (ones_weights r 1 (Rle_refl 1)) as (H1 & H2 & _). split; [exact H1|]. split; [exact H2|].
  apply Forall_forall. intros w Hw. apply repeat_spec in Hw. subst w. split; [exact I|]. split; [reflexivity|].
  change (B2R (fl 1 0) = 1). rewrite (B2R_sf _ false 4503599627370496 (-52)) by (vm_compute; reflexivity). feval. lra.
Qed.
Section Gap.
Variable fdot : list (flt * flt) -> flt.
Hypothesis FD : one_term fdot.
Lemma gap_parts x I J Q : returns (calc_parts fdot eq3 rhs3 (point x)) mode_NE (I, J, Q) ->
  ashape I = [1%nat] /\ ashape J = [1%nat] /\ ashape Q = [1%nat] /\ exists z fi fs c p g,
    x = [z] /\ aget I [0%nat] = Some fi /\ aget J [0%nat] = Some fs /\ fi = fsub mode_NE c (fadd mode_NE p g) /\ fs = fsub mode_NE c (fsub mode_NE p g) /\
    xflt c = XFin gapR /\ xflt p = xmul mode_NE (XFin 3) (xflt z) /\ xflt g = xmul mode_NE (XFin 0) (xabs (xflt z)) /\ xflt (f_get Q [0%nat]) = XFin 0.
Proof.
  intro H. unfold calc_parts in H. change (shp eq3) with [1%nat; 1%nat] in H. change (ashape (point x)) with [length x] in H. cbv iota in H. unfold arr_rad, arr_mid in H.
  assert (NA : adata (adat eq3) <> []) by (intro L; discriminate L). assert (Nb : adata (adat rhs3) <> []) by (intro L; discriminate L).
  assert (TA : forall e, In e (adata (adat eq3)) -> (exists v, returns (mid e) mode_NE v) /\ exists v, returns (rad e) mode_NE v).
  { intros e [<-|[]]. split; [apply (ran1 _ (fun f => flt_eqb f f3)) | apply (ran1 _ (fun f => flt_eqb f f0))]; vm_compute; reflexivity. }
  assert (TB : forall e, In e (adata (adat rhs3)) -> (exists v, returns (mid e) mode_NE v) /\ exists v, returns (rad e) mode_NE v).
  { intros e [<-|[]]. split; [apply (ran1 _ (fun f => flt_eqb f gap)) | apply (ran1 _ (fun f => flt_eqb f f0))]; vm_compute; reflexivity. }
  rewrite keeps_returns in H by (apply keeps_vectorize_num, keeps_mid). destruct H as (C0 & HC0 & H).
  rewrite keeps_returns in H by apply keeps_f_of. destruct H as (C & HC & H).
  destruct (doubles mid eq3 mode_NE keeps_mid (fun e v => mid_double e mode_NE v) NA (fun e He => proj1 (TA e He))) as (C0' & C' & HC0' & HC' & SC & PC).
  rewrite (ret_det _ _ _ _ HC0 HC0') in *. rewrite (ret_det _ _ _ _ HC HC') in *. clear C0 C HC0 HC.
  rewrite keeps_returns in H by (apply keeps_vectorize_num, keeps_rad). destruct H as (G0 & HG0 & H).
  rewrite keeps_returns in H by apply keeps_f_of. destruct H as (G & HG & H).
  destruct (doubles rad eq3 mode_NE keeps_rad (fun e v => rad_double e mode_NE v) NA (fun e He => proj2 (TA e He))) as (G0' & G' & HG0' & HG' & SG & PG).
  rewrite (ret_det _ _ _ _ HG0 HG0') in *. rewrite (ret_det _ _ _ _ HG HG') in *. clear G0 G HG0 HG.
  rewrite keeps_returns in H by (apply keeps_vectorize_num, keeps_mid). destruct H as (c0 & Hc0 & H).
  rewrite keeps_returns in H by apply keeps_f_of. destruct H as (c & Hc & H).
  destruct (doubles mid rhs3 mode_NE keeps_mid (fun e v => mid_double e mode_NE v) Nb (fun e He => proj1 (TB e He))) as (c0' & c' & Hc0' & Hc' & Sc & Pc).
  rewrite (ret_det _ _ _ _ Hc0 Hc0') in *. rewrite (ret_det _ _ _ _ Hc Hc') in *. clear c0 c Hc0 Hc.
  rewrite keeps_returns in H by (apply keeps_vectorize_num, keeps_rad). destruct H as (q0 & Hq0 & H).
  rewrite keeps_returns in H by apply keeps_f_of. destruct H as (q & Hq & H).
  destruct (doubles rad rhs3 mode_NE keeps_rad (fun e v => rad_double e mode_NE v) Nb (fun e He => proj2 (TB e He))) as (q0' & q' & Hq0' & Hq' & Sq & Pq).
  rewrite (ret_det _ _ _ _ Hq0 Hq0') in *. rewrite (ret_det _ _ _ _ Hq Hq') in *. clear q0 q Hq0 Hq.
  destruct (Nat.eqb_spec 1 (length x)) as [LX|LX]; cbn [negb] in H; [|discriminate H].
  destruct x as [|z [|]]; try discriminate LX. clear LX.
  rewrite keeps_returns in H by apply keeps_f_of. destruct H as (y & Hy & H).
  destruct (f_of_run (point [z]) mode_NE) as (y' & Hy' & Sy & Py).
  { intros v [<-|[]]. now exists z. }
  rewrite (ret_det _ _ _ _ Hy Hy') in *. clear y Hy.
  assert (KB : forall f (a c : arr flt), keeps_mode (f_bin f a c)) by (intros; apply keeps_binop_arr, f_op_keeps).
  rewrite keeps_returns in H by apply KB. destruct H as (u & Hu & H).
  rewrite keeps_returns in H by apply KB. destruct H as (I' & HI & H).
  rewrite keeps_returns in H by apply KB. destruct H as (vv & Hvv & H).
  rewrite keeps_returns in H by apply KB. destruct H as (J' & HJ & H).
  assert (EE : (I', J', q') = (I, J, Q)) by (unfold returns, outcome, mret in H; cbn [fst] in H; congruence). inversion EE; subst I' J' Q. clear EE H.
  change (ashape (adat rhs3)) with [1%nat] in Sc, Sq.
  destruct (binop_1 (f_op fadd) (f_mv fdot 1 1 C' y') (f_mv fdot 1 1 G' (amap fabs y')) mode_NE u 1 (f_op_keeps fadd) eq_refl eq_refl Hu) as (Su & Wu & Pu).
  destruct (binop_1 (f_op fsub) c' u mode_NE I 1 (f_op_keeps fsub) Sc Su HI) as (SI & WI & PI).
  destruct (binop_1 (f_op fsub) (f_mv fdot 1 1 C' y') (f_mv fdot 1 1 G' (amap fabs y')) mode_NE vv 1 (f_op_keeps fsub) eq_refl eq_refl Hvv) as (Svv & Wv & Pv).
  destruct (binop_1 (f_op fsub) c' vv mode_NE J 1 (f_op_keeps fsub) Sc Svv HJ) as (SJ & WJ & PJ).
  split; [exact SI|]. split; [exact SJ|]. split; [exact Sq|].
  assert (Hi : (0 < 1)%nat) by lia.
  destruct (Pu 0%nat Hi) as (C1 & g1 & u1 & A1 & A2 & A3 & A4). rewrite f_mv_get in A1, A2 by exact Hi.
  destruct (PI 0%nat Hi) as (c1 & u2 & i1 & B1 & B2 & B3 & B4). assert (u2 = u1) by congruence. subst u2.
  destruct (Pv 0%nat Hi) as (C2 & g2 & v1 & V1 & V2 & V3 & V4). rewrite f_mv_get in V1, V2 by exact Hi.
  assert (C2 = C1) by congruence. assert (g2 = g1) by congruence. subst C2 g2. clear V1 V2.
  destruct (PJ 0%nat Hi) as (c2 & v2 & s1 & D1 & D2 & D3 & D4). assert (v2 = v1) by congruence. assert (c2 = c1) by congruence. subst v2 c2.
  inversion A1 as [A1']. inversion A2 as [A2']. clear A1 A2.
  assert (E1 : u1 = fadd mode_NE C1 g1) by (unfold returns, outcome, f_op, mprim in A4; cbn [fst] in A4; congruence).
  assert (E2 : i1 = fsub mode_NE c1 u1) by (unfold returns, outcome, f_op, mprim in B4; cbn [fst] in B4; congruence).
  assert (E3 : v1 = fsub mode_NE C1 g1) by (unfold returns, outcome, f_op, mprim in V4; cbn [fst] in V4; congruence).
  assert (E4 : s1 = fsub mode_NE c1 v1) by (unfold returns, outcome, f_op, mprim in D4; cbn [fst] in D4; congruence).
  assert (Yz : f_get y' [0%nat] = z) by (assert (Q := Py [0%nat] (PFlt z) eq_refl); cbn [to_double] in Q; congruence).
  assert (Ya : f_get (amap fabs y') [0%nat] = fabs z).
  { unfold f_get in *. rewrite aget_map. destruct (aget y' [0%nat]) as [y0|] eqn:Ey; [cbn [option_map]; now rewrite Yz|]. exfalso.
    unfold f_of, amapM, returns, outcome in Hy'. cbn in Hy'. inversion Hy'; subst y'. discriminate. }
  exists z, i1, s1, c1, C1, g1. split; [reflexivity|]. split; [exact B3|]. split; [exact D3|].
  split; [now rewrite E2, E1|]. split; [now rewrite E4, E3|]. split.
  { apply midg. assert (Q := Pc [0%nat] _ eq_refl). unfold f_get in Q. rewrite B1 in Q. exact Q. }
  assert (M3 := mid3 _ (PC [0%nat; 0%nat] _ eq_refl)). assert (R3 := rad3 _ (PG [0%nat; 0%nat] _ eq_refl)).
  split. { rewrite <- A1'. unfold f_row. cbn [seq map]. rewrite FD, fmul_x, M3, Yz. reflexivity. }
  split. { rewrite <- A2'. unfold f_row. cbn [seq map]. rewrite FD, fmul_x, R3, Ya, xflt_abs. reflexivity. }
  exact (radg _ (Pq [0%nat] _ eq_refl)).
Qed.
Lemma xround_not_nan p : xround mode_NE p <> XNan.
Proof. unfold xround. destruct Rlt_bool; [discriminate|]. destruct Rlt_bool; discriminate. Qed.
Lemma f_max_nan a c : xflt a = XNan -> xflt (f_max a c) = XNan.
Proof. intro H. unfold f_max. rewrite (proj2 (is_nan_x a) H). exact H. Qed.
(** Same residual at both ends: the radius is zero. *)
Lemma f_max_same a c : xflt a = xflt c -> xflt (f_max a c) = xflt a.
Proof. intro H. unfold f_max. destruct (is_nan a); [reflexivity|]. destruct (is_nan c); [now symmetry|]. destruct (flt_ltb a c); [now symmetry | reflexivity]. Qed.
Lemma gap_neg x T v : returns (tol_calc fdot eq3 rhs3 (point x) (np_ones 1)) mode_NE T -> least T v -> is_nan v = false -> flt_ltb v f0 = true.
Proof.
  intros H [IN _] NV. unfold tol_calc in H. rewrite keeps_returns in H by apply keeps_parts. destruct H as ([[I J] Q] & HP & H).
  destruct (gap_parts x I J Q HP) as (SI & SJ & SQ & z & fi & fs & c & p & g & -> & Ai & As & Ei & Es & Xc & Xp & Xg & Xq).
  rewrite keeps_returns in H by apply keeps_bin. destruct H as (G & HG & H). rewrite keeps_returns in H by apply keeps_bin. destruct H as (D & HDD & H).
  destruct (binop_1 (f_op (fun _ => f_max)) (amap fabs I) (amap fabs J) mode_NE G 1 (f_op_keeps _) SI SJ HG) as (SG & _ & PG).
  destruct (binop_1 (f_op fsub) Q G mode_NE D 1 (f_op_keeps _) SQ SG HDD) as (SD & _ & PD).
  assert (Km : forall p p', keeps_mode (mul_ p p')) by (intros; apply keeps_prim).
  destruct (binop_1 mul_ (np_ones 1) (amap PFlt D) mode_NE T 1 Km eq_refl SD H) as (ST & WT & PT).
  assert (Hi : (0 < 1)%nat) by lia.
  destruct (PG 0%nat Hi) as (k1 & k2 & m1 & A1 & A2 & A3 & A4). rewrite aget_map, Ai in A1. rewrite aget_map, As in A2. inversion A1; subst k1. inversion A2; subst k2. clear A1 A2.
  destruct (PD 0%nat Hi) as (fq & m2 & d & B1 & B2 & B3 & B4). assert (m2 = m1) by congruence. subst m2.
  destruct (PT 0%nat Hi) as (wi & d2 & ti & T1 & T2 & T3 & T4). rewrite aget_map, B3 in T2. inversion T2; subst d2. clear T2.
  assert (Eq : f_get Q [0%nat] = fq) by (unfold f_get; now rewrite B1). rewrite Eq in Xq.
  assert (Em : m1 = f_max (fabs fi) (fabs fs)) by (unfold returns, outcome, f_op, mprim in A4; cbn [fst] in A4; congruence).
  assert (Ed : d = fsub mode_NE fq m1) by (unfold returns, outcome, f_op, mprim in B4; cbn [fst] in B4; congruence).
  assert (TV : ti = PFlt v).
  { rewrite (aget_1 T 1 0%nat ST Hi) in T3. assert (L : length (adata T) = 1%nat) by (rewrite WT, ST; reflexivity). destruct (adata T) as [|t [|]]; try discriminate L. destruct IN as [->|[]]. cbn in T3. congruence. }
  destruct (one_of 1 _ 0%nat wi (np_ones_ones 1) T1) as (S1 & F1 & W1).
  assert (XV := times_one wi ti d S1 F1 W1 T4). rewrite TV in XV. cbn [xval] in XV.
  assert (NX : xflt v <> XNan) by (intro E; apply is_nan_x in E; congruence).
  rewrite flt_ltb_x. change (xflt f0) with (XFin 0). rewrite XV in *. rewrite Ed, fsub_x, Xq in *. clear XV.
  destruct (xflt z) as [| | |y] eqn:Ez.
  1-3: exfalso; apply NX; rewrite Em, f_max_nan; [reflexivity|]; rewrite xflt_abs, Ei, fsub_x, fadd_x, Xc, Xp, Xg; cbn; rewrite ?(Rcompare_Eq 0 0 eq_refl); cbn; try (destruct (Rcompare 3 0)); reflexivity.
  assert (DY : is_dbl (XFin y)) by (rewrite <- Ez; apply flt_dbl). cbn [xmul xabs] in Xp, Xg.
  assert (X0 : xflt g = XFin 0). { rewrite Xg, Rmult_0_l. now rewrite xround_dbl_id by exact zero_dbl. }
  assert (U1 : xflt (fadd mode_NE p g) = xflt p).
  { rewrite fadd_x, X0. assert (DP := flt_dbl p). destruct (xflt p); try reflexivity. cbn [xadd]. rewrite Rplus_0_r. now apply xround_dbl_id. }
  assert (U2 : xflt (fsub mode_NE p g) = xflt p).
  { rewrite fsub_x, X0. unfold xsub. cbn [xopp]. assert (DP := flt_dbl p). destruct (xflt p); try reflexivity. cbn [xadd]. rewrite Ropp_0, Rplus_0_r. now apply xround_dbl_id. }
  assert (XM : xflt m1 = xabs (xsub mode_NE (xflt c) (xflt p))).
  { rewrite Em, f_max_same; rewrite !xflt_abs, ?Ei, ?Es, !fsub_x; [now rewrite U1|]. rewrite U1. rewrite <- (fsub_x mode_NE p g), U2. reflexivity. }
  destruct (residual y c p DY Xc Xp) as (q & EQ & HQ). rewrite XM, EQ. destruct HQ as [->|(w & -> & W)]; [reflexivity|].
  assert (DW : is_dbl (XFin w)) by (rewrite <- EQ, <- XM; apply flt_dbl). unfold xsub. cbn [xopp xadd]. rewrite Rplus_0_l.
  assert (DN : is_dbl (XFin (- w))). { destruct DW as [f Hf]. exists (fneg f). rewrite xflt_neg, Hf. reflexivity. }
  rewrite xround_dbl_id by exact DN. apply xltb_fin. lra.
Qed.
End Gap.
Lemma gap_tolerable : exists x, tolerable 1 1 (end_mat eq3) (end_vec rhs3) x.
Proof.
  exists (fun _ => gapR / 3). intros M HM i Hi. assert (i = 0%nat) by lia. subst i. assert (Q := HM 0%nat 0%nat Hi Hi).
  destruct gap_val as [_ V]. unfold inI, end_mat, end_vec, times in *. simpl in *. change (@B2R 53 1024 gap) with (B2R gap). rewrite V. assert (E : M 0%nat 0%nat = 3) by lra. rewrite E. lra.
Qed.
Lemma rohn_denies fdot g h W P lp y : dot_within fdot 1 g h -> 0 <= g <= 1 -> 0 <= h <= 1 -> one_term fdot -> is_finite y = true -> Rabs (B2R y) <= 1024 ->
  rohn_tol_fl fdot W P lp eq3 rhs3 [y] = None.
Proof.
  intros HD Hg Hh FD FY BY. unfold rohn_tol_fl. change (shp eq3) with [1%nat; 1%nat]. cbv iota zeta.
  destruct gap_val as [FG VG]. assert (B3 : Rabs (num_val (PFlt gap)) <= 1024) by (cbn [num_val]; rewrite VG; unfold gapR; apply Rabs_le; lra).
  assert (SY : system 1 1 eq3 rhs3 (point [y])).
  { change (point [y]) with (one_pt (PFlt y)). apply one_system; try exact I; try reflexivity; try (simpl; lia); try apply Rle_refl; assumption. }
  assert (MO : moderate eq3 rhs3 (point [y])).
  { change (point [y]) with (one_pt (PFlt y)). apply one_moderate; try exact I; try (simpl; lia); try assumption. simpl. apply Rabs_le. lra. }
  assert (NV := tol_max_num fdot g h 1 1 eq3 rhs3 (np_ones 1) W P [y] HD Hg Hh ltac:(simpl; lia) ltac:(lia) SY MO (ones_weights 1 1 (Rle_refl 1))).
  destruct (tol_maximize_fl fdot W P eq3 rhs3 (np_ones 1) [y]) as [x v] eqn:E. cbn [snd] in *.
  destruct (tol_run fdot eq3 rhs3 (np_ones 1) W P [y] x v E NV) as [(T & HT & LT) _]. now rewrite (gap_neg fdot FD x T v HT LT NV).
Qed.

(** ** A system on which it works: [1, 2] x = [-2, 4] *)
Definition exA : aitv := array_interval (mkarr [1%nat; 1%nat] [mkitv Classical (PInt 1) (PInt 2)]).
Definition exb : aitv := one_rhs (PInt (-2)) (PInt 4).
Lemma ex_feasible y : feasible 4 2 (rt_A 1 1 (end_mat exA)) (rt_b 1 (end_vec exb)) y <-> (2 * y 0%nat - y 1%nat <= 4 /\ - y 0%nat + 2 * y 1%nat <= 2 /\ 0 <= y 0%nat /\ 0 <= y 1%nat).
Proof.
  unfold feasible. split.
  - intro H. assert (H0 := H 0%nat ltac:(lia)). assert (H1 := H 1%nat ltac:(lia)). assert (H2 := H 2%nat ltac:(lia)). assert (H3 := H 3%nat ltac:(lia)).
    unfold times, rt_A, rt_b, end_mat, end_vec, eye in *. simpl in *. lra.
  - intros H i Hi. unfold times, rt_A, rt_b, end_mat, end_vec, eye. destruct i as [|[|[|[|i]]]]; [| | | |lia]; simpl; lra.
Qed.
Lemma ex_calls : lp_calls_ok EstimRefute.rt_exlp 1 1 (end_mat exA) (end_vec exb).
Proof.
  intros nu Hnu. replace nu with O by lia. unfold EstimRefute.rt_exlp, lp_truthful. change (2 * (1 + 1))%nat with 4%nat. change (2 * 1)%nat with 2%nat.
  split; (split; [apply ex_feasible | intros y Hy; apply ex_feasible in Hy; unfold dot]); unfold rt_c; simpl; repeat destruct Rlt_dec; lra.
Qed.
Lemma ex_tolerable x : tolerable 1 1 (end_mat exA) (end_vec exb) x <-> -1 <= x 0%nat <= 2.
Proof.
  split.
  - intro H. assert (H1 := H (fun _ _ => 1) ltac:(intros i j Hi Hj; replace i with 0%nat by lia; replace j with 0%nat by lia; unfold inI, end_mat; simpl; lra) 0%nat ltac:(lia)).
    assert (H2 := H (fun _ _ => 2) ltac:(intros i j Hi Hj; replace i with 0%nat by lia; replace j with 0%nat by lia; unfold inI, end_mat; simpl; lra) 0%nat ltac:(lia)).
    unfold inI, end_vec, times in *. simpl in *. lra.
  - intros H M HM i Hi. replace i with 0%nat by lia. assert (Q := HM 0%nat 0%nat ltac:(lia) ltac:(lia)). unfold inI, end_mat, end_vec, times in *. simpl in *. nra.
Qed.
Lemma ex_start : forall T v0, returns (tol_calc seq_dot exA exb (point [f0]) (np_ones 1)) mode_NE T -> least T v0 -> flt_leb f0 v0 = true.
Proof.
  intros T v0 H [IN _].
  assert (Q : match fst (tol_calc seq_dot exA exb (point [f0]) (np_ones 1) mode_NE) with Ok T => forallb (fun t => num_le (PInt 0) t) (adata T) | _ => false end = true) by (vm_compute; reflexivity).
  unfold returns, outcome in H. rewrite H in Q. rewrite forallb_forall in Q. specialize (Q _ IN). rewrite num_le_x in Q. rewrite flt_leb_x. exact Q.
Qed.

(** ** Rohn as it is called *)
Section Call.
Open Scope string_scope.
Variables (inv : arr flt -> res (arr flt)) (fdot : list (flt * flt) -> flt) (W : vops) (P : params (ops_of W)) (lp : lp_solver) (r n : nat) (A b : aitv) (tol : flt) (maxiter : Z) (x0 : list flt).
Lemma rohn_other c : c <> "uni" -> c <> "tol" -> rohn inv fdot W P lp A b tol maxiter c x0 = None.
Proof. intros H1 H2. unfold rohn, rohn_choice. apply String.eqb_neq in H1, H2. now rewrite H1, H2. Qed.
Lemma call_tol : rohn inv fdot W P lp A b tol maxiter "tol" x0 = option_map inr (rohn_tol_fl fdot W P lp A b x0).
Proof. reflexivity. Qed.
Hypothesis SA : shp A = [r; n].
Hypothesis PA : Forall proper_fin (adata (adat A)).
Hypothesis LP : lp_calls_ok lp r n (end_mat A) (end_vec b).
Lemma rohn_hull R : rohn inv fdot W P lp A b tol maxiter "tol" x0 = Some R ->
  exists l, R = inr l /\ length l = n /\ forall j, (j < n)%nat -> coordinate_range (tolerable r n (end_mat A) (end_vec b)) j (nth j l (mkr 0 0)).
Proof.
  rewrite call_tol. destruct (rohn_tol_fl fdot W P lp A b x0) as [l|] eqn:E; [|discriminate]. intro H. exists l. split; [cbn [option_map] in H; congruence|].
  exact (tol_fl_hull fdot W P lp r n A b x0 SA PA LP l E).
Qed.
Lemma rohn_empty : (0 < n)%nat -> (forall x, ~ tolerable r n (end_mat A) (end_vec b) x) -> rohn inv fdot W P lp A b tol maxiter "tol" x0 = None.
Proof. intros N H. rewrite call_tol. now rewrite (tol_fl_empty fdot W P lp r n A b x0 SA PA LP N H). Qed.
Lemma rohn_raises : (exists x, tolerable r n (end_mat A) (end_vec b) x) ->
  (exists t, forall x j, tolerable r n (end_mat A) (end_vec b) x -> (j < n)%nat -> Rabs (x j) <= t) ->
  rohn inv fdot W P lp A b tol maxiter "tol" x0 = None <-> flt_ltb (snd (tol_maximize_fl fdot W P A b (np_ones r) x0)) f0 = true.
Proof.
  intros NE BD. rewrite call_tol, <- (tol_fl_raises fdot W P lp r n A b x0 SA PA LP NE BD). destruct (rohn_tol_fl fdot W P lp A b x0); cbn [option_map]; split; intro H; congruence.
Qed.
Lemma rohn_returns : (exists x, tolerable r n (end_mat A) (end_vec b) x) ->
  (exists t, forall x j, tolerable r n (end_mat A) (end_vec b) x -> (j < n)%nat -> Rabs (x j) <= t) ->
  (forall T v0, returns (tol_calc fdot A b (point x0) (np_ones r)) mode_NE T -> least T v0 -> flt_leb f0 v0 = true) ->
  exists l, rohn inv fdot W P lp A b tol maxiter "tol" x0 = Some (inr l).
Proof. intros NE BD ST. destruct (tol_fl_returns fdot W P lp r n A b x0 SA PA LP NE BD ST) as [l E]. exists l. now rewrite call_tol, E. Qed.
End Call.
Lemma rohn_denies_x : exists A b, (exists x, tolerable 1 1 (end_mat A) (end_vec b) x) /\
  forall inv fdot g h W P lp tol maxiter y, dot_within fdot 1 g h -> 0 <= g <= 1 -> 0 <= h <= 1 -> one_term fdot -> is_finite y = true -> Rabs (B2R y) <= 1024 ->
  rohn inv fdot W P lp A b tol maxiter "tol"%string [y] = None.
Proof.
  exists eq3, rhs3. split; [exact gap_tolerable|]. intros inv fdot g h W P lp tol maxiter y HD Hg Hh FD FY BY. rewrite call_tol.
  now rewrite (rohn_denies fdot g h W P lp y HD Hg Hh FD FY BY).
Qed.
