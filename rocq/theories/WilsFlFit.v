(** WILS.fit and WILS.predict in binary64: the theorems. *)
From Coq Require Import ZArith Reals List Bool Arith Lia Lra.
From Flocq Require Import Core IEEE754.BinarySingleNaN.
From Verif Require Models.
From Verif Require Import Base PyNum Kernel Spec Expr Arrays Construct SpecArray XReal XArith KernelProofs KernelMore KernelAlg ExprProofs ArrayProofs ArrayMore ArrayMat ConstructProofs KaucherProofs
  RecogFl SpecRecogFl RecogFlProofs RecogFlCor HbrFl HbrFlProofs RohnFl GSProofs UssFl SpecUssFl UssFlProofs Ralgb5 RalgbProofs RalgbMore ConstrainedProofs RecogOpt SpecRecogOpt RecogOptProofs RecogOptMargin RecogOptSign RecogOptRun RecogOptTotal RecogOptFinal RecogOptAccuracy
  RecogOptCon SpecRecogOptCon RecogOptConProofs Witness WilsFl SpecWilsFl WilsFlProofs WilsFlMain.
Import ListNotations.
Open Scope R_scope.

Lemma smooth_length alpha beta l : forall prev, length (smooth_rest alpha beta prev l) = length l.
Proof. induction l as [|w l IH]; intro prev; [reflexivity|]. cbn [smooth_rest length]. now rewrite IH. Qed.
Section Fit.
Variables (fdot : list (flt * flt) -> flt) (cdot : list flt -> list flt -> flt) (csum : list flt -> flt) (alpha beta : flt).
Variables (o : Models.objective) (nm : Models.norm) (constraint : option (flt * list (list flt * flt))) (W : vops) (P : params (ops_of W)).
Notation fit := (wils_fit_fl fdot cdot csum alpha beta o nm constraint W P).
Lemma fit_shape X y weight x0 r k n : shp X = [r; n] -> shp y = [k] -> r <> k -> fit X y weight x0 = Err AssertionError.
Proof. intros SX SY N. unfold wils_fit_fl. rewrite SX, SY. apply Nat.eqb_neq in N. now rewrite N. Qed.
Lemma fit_total X y weight x0 r n : shp X = [r; n] -> shp y = [r] -> weight <> [] ->
  exists x v w, fit X y weight x0 = Ok (x, v, w) /\ length w = length weight.
Proof.
  intros SX SY N. unfold wils_fit_fl. rewrite SX, SY, Nat.eqb_refl. cbn [negb]. destruct weight as [|a l]; [congruence|]. cbn [smooth_fl rbind].
  eexists _, _, _. split; [reflexivity|]. cbn [length]. now rewrite smooth_length.
Qed.
Lemma fit_inv X y weight x0 x v w : fit X y weight x0 = Ok (x, v, w) -> smooth_fl alpha beta weight = Ok w /\
  let r := fst (ralgb5 (ops_of W) P (wils_objective fdot cdot csum o nm constraint X y (point w)) (length x0) x0) in x = r_x _ r /\ v = fneg (r_f _ r).
Proof.
  unfold wils_fit_fl. destruct (shp X) as [|r [|n [|]]]; try discriminate. destruct (shp y) as [|k [|]]; try discriminate. destruct (r =? k)%nat; cbn [negb]; try discriminate.
  destruct (smooth_fl alpha beta weight) as [w'|]; cbn [rbind]; try discriminate. intro H. injection H as E1 E2 E3. subst w'. auto.
Qed.
Theorem fit_value X y weight x0 x v w : fit X y weight x0 = Ok (x, v, w) -> is_nan v = false ->
  (exists T t, returns (slacks fdot o X y w x) mode_NE T /\ norm_of csum nm T t /\ less_penalty cdot csum constraint x t v) /\
  exists T0 t0 v0, returns (slacks fdot o X y w x0) mode_NE T0 /\ norm_of csum nm T0 t0 /\ less_penalty cdot csum constraint x0 t0 v0 /\ flt_leb v0 v = true.
Proof.
  intros E N. destruct (fit_inv _ _ _ _ _ _ _ E) as (_ & Ex & Ev). set (r := fst _) in *. set (fg := wils_objective _ _ _ _ _ _ _ _ _) in *.
  assert (Nr : is_nan (r_f _ r) = false) by (rewrite Ev in N; destruct (r_f _ r); auto).
  destruct (run_best W P fg x0 Nr) as (F & N0 & L). fold r in F, L.
  assert (Nx : is_nan (fst (fg x)) = false). { rewrite Ex. assert (Q : is_nan (r_f _ r) = is_nan (fst (fg (r_x _ r)))) by exact (f_equal (@is_nan 53 1024) F). congruence. }
  destruct (objective_at fdot cdot csum o X y (point w) constraint nm x Nx) as (t & (T & HT & MT) & _ & LP).
  destruct (objective_at fdot cdot csum o X y (point w) constraint nm x0 N0) as (t0 & (T0 & HT0 & MT0) & _ & LP0). split.
  - exists T, t. split; [destruct o; exact HT|]. split; [destruct nm; exact MT|]. rewrite Ev.
    assert (Q : fneg (r_f _ r) = fneg (fst (fg x))) by (rewrite Ex; exact (f_equal fneg F)). rewrite Q. exact LP.
  - exists T0, t0, (fneg (fst (fg x0))). split; [destruct o; exact HT0|]. split; [destruct nm; exact MT0|]. split; [exact LP0|]. rewrite Ev. exact L.
Qed.

(** ** Signs *)
Variables (g h : R) (r n : nat) (X y : aitv) (weight x0 x : list flt) (v : flt) (w : list flt).
Hypothesis AU : adds_up csum.
Hypothesis HD : dot_within fdot n g h.
Hypothesis Hg : 0 <= g <= 1.
Hypothesis Hh : 0 <= h <= 1.
Hypothesis Hn : (Z.of_nat n <= 2 ^ 100)%Z.
Hypothesis SY : system r n X y (point x).
Hypothesis MO : moderate X y (point x).
Hypothesis Hr : length w = r.
Hypothesis Bw : between (bpow radix2 (-500)) (bpow radix2 300) w.
Notation margin := (uss_margin g h n X y (point x)).
Lemma pt_weights : weights_from (bpow radix2 (-500)) r (point w).
Proof.
  split; [unfold awf, point; cbn [adata ashape size]; rewrite map_length; lia|]. split; [unfold point; cbn [ashape]; now rewrite Hr|].
  apply Forall_forall. intros u Hu. cbn [point adata] in Hu. apply in_map_iff in Hu. destruct Hu as (a & <- & Ha). unfold between in Bw. rewrite Forall_forall in Bw. destruct (Bw a Ha) as [F B].
  split; [exact I|]. split; [exact F|]. cbn [num_val]. lra.
Qed.
Lemma pt_weights0 : weights_from 0 r (point w).
Proof.
  destruct pt_weights as (H1 & H2 & H3). split; [exact H1|]. split; [exact H2|]. eapply Forall_impl; [|exact H3]. intros u (A1 & A2 & A3). split; [exact A1|]. split; [exact A2|].
  assert (Q := bpow_gt_0 radix2 (-500)). lra.
Qed.
Lemma prod_num wi ti d : small_num wi -> finite_num wi -> 0 < num_val wi -> returns (mul_ wi (PFlt d)) mode_NE ti -> xflt d <> XNan -> is_nan_num ti = false.
Proof.
  intros S F H RT N. assert (Q := con_x wi ti d S F RT). destruct (is_nan_num ti) eqn:E; [|reflexivity]. apply is_nan_num_x in E. rewrite E in Q. exfalso.
  destruct (xflt d) as [| | |p]; [congruence | | |]; cbn [xmul] in Q.
  - unfold xinf_times in Q. destruct (Rcompare_spec (num_val wi) 0); try lra; discriminate.
  - unfold xinf_times in Q. destruct (Rcompare_spec (num_val wi) 0); try lra; discriminate.
  - unfold xround in Q. destruct Rlt_bool; [discriminate|]. destruct (Rlt_bool _ 0); discriminate.
Qed.
Lemma slack_num T : returns (slacks fdot o X y w x) mode_NE T -> forall u, In u (adata T) -> is_nan_num u = false.
Proof.
  assert (PW := pt_weights). assert (P5 := bpow_gt_0 radix2 (-500)).
  assert (K : forall good, rows_of g h r n X y (point x) (point w) T good -> forall u, In u (adata T) -> is_nan_num u = false).
  { intros good (ST & WT & _ & PR) u Hu. apply In_nth_error in Hu. destruct Hu as [i Ei]. assert (Hi : (i < r)%nat).
    { assert (Q : (i < length (adata T))%nat) by (apply nth_error_Some; congruence). rewrite WT, ST in Q. cbn [size] in Q. lia. }
    destruct (PR i Hi) as (wi & ti & d & fq & fm & c & C & G & q & m & H1 & H2 & H3 & H4 & H5 & H6 & _). rewrite (aget_1 T r i ST Hi) in H2. assert (ti = u) by congruence. subst ti.
    destruct (weight_of r (point w) _ i wi PW H1) as (S1 & F1 & W1). apply (prod_num wi u d S1 F1 ltac:(lra) H3). rewrite H4, fsub_x, H5, H6. apply sub_num. }
  intro H. destruct o; cbn [slacks] in H.
  - apply (K _ (tol_rows fdot g h r n X y (point x) (point w) HD Hg Hh Hn SY MO (proj1 (proj2 PW)) T H)).
  - apply (K _ (uni_rows fdot g h r n X y (point x) (point w) HD Hg Hh Hn SY MO (proj1 (proj2 PW)) T H)).
  - intros u Hu. destruct (uss_rows fdot g h r n X y (point x) HD Hg Hh Hn SY MO (point w) T (proj1 (proj2 PW)) H) as (ST & WT & _ & PR).
    apply In_nth_error in Hu. destruct Hu as [i Ei]. assert (Hi : (i < r)%nat).
    { assert (Q : (i < length (adata T))%nat) by (apply nth_error_Some; congruence). rewrite WT, ST in Q. cbn [size] in Q. lia. }
    destruct (PR i Hi) as (wi & ti & d & p & z & H1 & H2 & H3 & H4 & _). rewrite (aget_1 T r i ST Hi) in H2. assert (ti = u) by congruence. subst ti.
    destruct (weight_of r (point w) _ i wi PW H1) as (S1 & F1 & W1). apply (prod_num wi u d S1 F1 ltac:(lra) H3). rewrite H4. apply sub_num.
Qed.
Lemma norm_neg T t : returns (slacks fdot o X y w x) mode_NE T -> norm_of csum nm T t -> flt_ltb t f0 = true -> some_neg T.
Proof.
  intros HT HN L. destruct nm; [exact (least_neg T t HN L)|]. destruct HN as (l & D & ->).
  destruct (forallb (flt_leb f0) l) eqn:A.
  - exfalso. rewrite forallb_forall in A. assert (Q := proj1 AU l). rewrite <- Forall_forall in A. specialize (Q A). rewrite flt_leb_x in Q. rewrite flt_ltb_x in L.
    change (xflt f0) with (XFin 0) in *. destruct (xflt (csum l)); try discriminate. apply xleb_fin in Q. apply xltb_fin in L. lra.
  - assert (EX : exists a, In a l /\ flt_leb f0 a = false).
    { clear - A. induction l as [|a l IH]; [discriminate|]. cbn [forallb] in A. destruct (flt_leb f0 a) eqn:E; [|exists a; split; [now left | exact E]]. destruct IH as (c & Hc & Ec); [exact A|]. exists c. split; [now right | exact Ec]. }
    destruct EX as (a & Ha & La). assert (Iu : In (PFlt a) (adata T)) by (rewrite D; now apply in_map). assert (Nu := slack_num T HT _ Iu).
    exists (PFlt a). split; [exact Iu|]. rewrite num_lt_x. rewrite flt_leb_x in La. assert (NN : xval (PFlt a) <> XNan) by (intro Q; apply is_nan_num_x in Q; congruence). cbn [xval] in *.
    change (xflt f0) with (XFin 0) in La. destruct (xflt a) as [| | |q]; try congruence; try discriminate; try reflexivity. apply xltb_fin. apply Rnot_le_lt. intro Q. apply xleb_fin in Q. congruence.
Qed.
Lemma margin_nn i : 0 <= margin i.
Proof.
  unfold uss_margin. assert (B1 := bpow_gt_0 radix2 (-49)). assert (B2 := bpow_gt_0 radix2 (-1070)).
  assert (S1 : 0 <= Rsum n (abs_at (point x))) by (apply Rsum_nn; intros; apply abs_nn).
  assert (S2 : 0 <= mag_at y [i]) by apply mag_nn. assert (S3 : 0 <= Rsum n (fun k => mag_at X [i; k] * abs_at (point x) k)) by (apply Rsum_nn; intros; apply Rmult_le_pos; [apply mag_nn | apply abs_nn]).
  assert (0 <= (3 * g + bpow radix2 (-49)) * (mag_at y [i] + Rsum n (fun k => mag_at X [i; k] * abs_at (point x) k))) by (apply Rmult_le_pos; lra).
  assert (0 <= bpow radix2 (-1070) * (1 + Rsum n (abs_at (point x)))) by (apply Rmult_le_pos; lra). lra.
Qed.
Lemma narrower z : in_rhs_by y (fun i => - (2 * margin i)) z -> in_rhs_by y (fun i => - margin i) z.
Proof. intros H i e He. specialize (H i e He). cbv beta in *. assert (Q := margin_nn i). lra. Qed.
Lemma sign_nn : nm = Models.NInf -> penalises constraint -> fit X y weight x0 = Ok (x, v, w) -> flt_leb f0 v = true ->
  explains o n X y (fun i => 2 * margin i + bpow radix2 (-535)) x.
Proof.
  intros EN HP E L. destruct (fit_value _ _ _ _ _ _ _ E (nn_num v L)) as [(T & t & HT & NT & LP) _]. rewrite EN in NT. cbn [norm_of] in NT.
  assert (VT : flt_leb v t = true).
  { unfold less_penalty in LP. unfold penalises in HP. destruct constraint as [[mu rows]|]; [|exact (proj1 LP)]. exact (penalised_le cdot csum mu rows AU x t v HP LP (nn_num v L)). }
  assert (NN := least_nn T t NT (leb_trans _ _ _ L VT)). destruct o; cbn [slacks explains] in *.
  - exact (tol_small_nn fdot g h r n X y (point w) x HD Hg Hh Hn SY MO pt_weights T HT NN).
  - exact (uni_small_nn fdot g h r n X y (point w) x HD Hg Hh Hn SY MO pt_weights T HT NN).
  - exact (uss_small_nn fdot g h r n X y (point w) x HD Hg Hh Hn SY MO pt_weights T HT NN).
Qed.
Lemma sign_neg : satisfied cdot constraint x -> fit X y weight x0 = Ok (x, v, w) -> flt_ltb v f0 = true ->
  ~ explains o n X y (fun i => - (2 * margin i)) x.
Proof.
  intros HS E L. destruct (fit_value _ _ _ _ _ _ _ E (neg_num v L)) as [(T & t & HT & NT & LP) _].
  assert (LT : flt_ltb t f0 = true).
  { unfold less_penalty in LP. unfold satisfied in HS. destruct constraint as [[mu rows]|].
    - destruct HS as [Fm Hx]. rewrite LP, (ltb_same _ t (penalised_eq cdot csum mu rows AU x t Fm Hx)) in L. exact L.
    - destruct LP as [L1 L2]. rewrite flt_leb_x in L1, L2. rewrite flt_ltb_x in *. destruct (xflt v), (xflt t); try discriminate; try reflexivity; cbn [xflt f0] in *.
      change (xflt f0) with (XFin 0) in *. apply xleb_fin in L2. apply xltb_fin in L. apply xltb_fin. lra. }
  assert (SN := norm_neg T t HT NT LT). destruct o; cbn [slacks explains] in *.
  - destruct (tol_calc_neg fdot g h r n X y (point x) (point w) HD Hg Hh Hn SY MO (proj1 (proj2 pt_weights)) T pt_weights0 HT SN) as (Q & HQ & NQ). intro H. apply NQ. apply narrower. now apply H.
  - intros (Q & HQ & IN). apply (uni_calc_neg fdot g h r n X y (point x) (point w) HD Hg Hh Hn SY MO (proj1 (proj2 pt_weights)) T pt_weights0 HT SN Q HQ). now apply narrower.
  - intros (Q & HQ & IN). exact (uss_small_neg fdot g h r n X y (point w) x HD Hg Hh Hn SY MO pt_weights T HT SN Q HQ IN).
Qed.
End Fit.

(** ** With the arguments of the caller *)
Section Caller.
Variables (fdot : list (flt * flt) -> flt) (cdot : list flt -> list flt -> flt) (csum : list flt -> flt) (alpha beta : flt).
Variables (o : Models.objective) (nm : Models.norm) (constraint : option (flt * list (list flt * flt))) (W : vops) (P : params (ops_of W)).
Variables (g h : R) (r n : nat) (X y : aitv) (weight x0 x : list flt) (v : flt) (w : list flt).
Notation fit := (wils_fit_fl fdot cdot csum alpha beta o nm constraint W P).
Hypothesis Fa : is_finite alpha = true.
Hypothesis Ra : 0 <= B2R alpha < 1.
Hypothesis Fb : is_finite beta = true.
Hypothesis Rb : bpow radix2 (-100) <= B2R beta <= 1.
Hypothesis Hl : length weight = r.
Hypothesis Hw : between (bpow radix2 (-300)) (bpow radix2 300) weight.
Hypothesis E : fit X y weight x0 = Ok (x, v, w).
Lemma fit_weights : length w = r /\ between (bpow radix2 (-453)) (bpow radix2 300) w.
Proof.
  destruct (fit_inv _ _ _ _ _ _ _ _ _ _ _ _ _ _ _ _ _ E) as (S & _). assert (N : weight <> []) by (intros ->; discriminate S).
  destruct (smooth_in alpha beta Fa Ra Fb Rb weight N Hw) as (w' & S' & L & B). assert (w' = w) by congruence. subst w'. split; [congruence | exact B].
Qed.
Lemma fit_weights_500 : between (bpow radix2 (-500)) (bpow radix2 300) w.
Proof. eapply Forall_impl; [|exact (proj2 fit_weights)]. intros a [F B]. split; [exact F|]. assert (bpow radix2 (-500) <= bpow radix2 (-453)) by (apply bpow_le; lia). lra. Qed.
Theorem fit_nn : adds_up csum -> dot_within fdot n g h -> 0 <= g <= 1 -> 0 <= h <= 1 -> (Z.of_nat n <= 2 ^ 100)%Z ->
  system r n X y (point x) -> moderate X y (point x) -> nm = Models.NInf -> penalises constraint -> flt_leb f0 v = true ->
  explains o n X y (fun i => 2 * uss_margin g h n X y (point x) i + bpow radix2 (-535)) x.
Proof.
  intros AU HD Hg Hh Hn SY MO EN HP L.
  exact (sign_nn fdot cdot csum alpha beta o nm constraint W P g h r n X y weight x0 x v w AU HD Hg Hh Hn SY MO (proj1 fit_weights) fit_weights_500 EN HP E L).
Qed.
Theorem fit_neg : adds_up csum -> dot_within fdot n g h -> 0 <= g <= 1 -> 0 <= h <= 1 -> (Z.of_nat n <= 2 ^ 100)%Z ->
  system r n X y (point x) -> moderate X y (point x) -> satisfied cdot constraint x -> flt_ltb v f0 = true ->
  ~ explains o n X y (fun i => - (2 * uss_margin g h n X y (point x) i)) x.
Proof.
  intros AU HD Hg Hh Hn SY MO HS L.
  exact (sign_neg fdot cdot csum alpha beta o nm constraint W P g h r n X y weight x0 x v w AU HD Hg Hh Hn SY MO (proj1 fit_weights) fit_weights_500 HS E L).
Qed.
End Caller.

(** ** No smoothing *)
Lemma exact_in (f : flt) z : xflt f = xround mode_NE z -> is_dbl (XFin z) -> is_finite f = true /\ B2R f = z.
Proof. intros Ef D. destruct (round_in f z z z Ef D D) as [F B]; [lra|]. split; [exact F | lra]. Qed.
Section Plain.
Variables alpha beta : flt.
Hypothesis Fa : is_finite alpha = true.
Hypothesis Va : B2R alpha = 0.
Hypothesis Fb : is_finite beta = true.
Hypothesis Vb : B2R beta = 1.
Lemma comp_one : is_finite (fsub mode_NE f1 alpha) = true /\ B2R (fsub mode_NE f1 alpha) = 1.
Proof.
  apply exact_in; [|apply (pow_dbl 0); lia]. rewrite fsub_x, (fin_x alpha Fa), (fin_x f1 eq_refl), one_val, Va. unfold xsub. cbn [xopp xadd]. f_equal. lra.
Qed.
Lemma plain_step prev w : is_finite prev = true -> is_finite w = true -> is_finite (smooth_step alpha beta prev w) = true /\ B2R (smooth_step alpha beta prev w) = B2R w.
Proof.
  intros Fp Fw. destruct comp_one as [F1 V1]. unfold smooth_step.
  destruct (exact_in (fmul mode_NE w (fsub mode_NE f1 alpha)) (B2R w)) as [F2 V2]; [|now apply fin_dbl|].
  { rewrite fmul_x, (fin_x w Fw), (fin_x _ F1), V1. cbn [xmul]. f_equal. lra. }
  destruct (exact_in (fmul mode_NE alpha prev) 0) as [F3 V3]; [|apply zero_dbl|].
  { rewrite fmul_x, (fin_x alpha Fa), (fin_x _ Fp), Va. cbn [xmul]. f_equal. lra. }
  destruct (exact_in (fadd mode_NE (fmul mode_NE w (fsub mode_NE f1 alpha)) (fmul mode_NE alpha prev)) (B2R w)) as [F4 V4]; [|now apply fin_dbl|].
  { rewrite fadd_x, (fin_x _ F2), (fin_x _ F3), V2, V3. cbn [xadd]. f_equal. lra. }
  apply exact_in; [|now apply fin_dbl]. rewrite fmul_x, (fin_x beta Fb), (fin_x _ F4), Vb, V4. cbn [xmul]. f_equal. lra.
Qed.
Definition kept_value (a b : flt) : Prop := is_finite b = true /\ B2R b = B2R a.
Lemma plain_rest l : forall prev, is_finite prev = true -> Forall (fun a => is_finite a = true) l -> Forall2 kept_value l (smooth_rest alpha beta prev l).
Proof.
  induction l as [|w l IH]; intros prev Fp Fl; [constructor|]. inversion Fl as [|? ? Fw Fl']; subst. cbn [smooth_rest]. destruct (plain_step prev w Fp Fw) as [F1 V1].
  constructor; [split; assumption | now apply IH].
Qed.
Lemma plain weight w : Forall (fun a => is_finite a = true) weight -> smooth_fl alpha beta weight = Ok w -> Forall2 kept_value weight w.
Proof.
  intros Fl Ew. destruct weight as [|a l]; [discriminate|]. inversion Fl as [|? ? Fw Fl']; subst. cbn [smooth_fl] in Ew. injection Ew as <-. destruct comp_one as [F1 V1].
  destruct (exact_in (fmul mode_NE beta a) (B2R a)) as [F2 V2]; [|now apply fin_dbl|].
  { rewrite fmul_x, (fin_x beta Fb), (fin_x _ Fw), Vb. cbn [xmul]. f_equal. lra. }
  destruct (exact_in (fmul mode_NE (fmul mode_NE beta a) (fsub mode_NE f1 alpha)) (B2R a)) as [F3 V3]; [|now apply fin_dbl|].
  { rewrite fmul_x, (fin_x _ F2), (fin_x _ F1), V2, V1. cbn [xmul]. f_equal. lra. }
  constructor; [split; assumption | now apply plain_rest].
Qed.
Theorem fit_plain fdot cdot csum o nm constraint W P X y weight x0 x v w : Forall (fun a => is_finite a = true) weight ->
  wils_fit_fl fdot cdot csum alpha beta o nm constraint W P X y weight x0 = Ok (x, v, w) ->
  Forall2 (fun a b => is_finite b = true /\ B2R b = B2R a) weight w.
Proof. intros Fl E. destruct (fit_inv _ _ _ _ _ _ _ _ _ _ _ _ _ _ _ _ _ E) as (S & _). exact (plain weight w Fl S). Qed.
End Plain.

(** ** Predictions *)
Theorem predict_encloses r n X x m : (0 < n)%nat -> consistent X -> shp X = [r; n] -> Forall good (adata (adat X)) -> length x = n -> Forall (fun a => is_finite a = true) x ->
  exists Z, returns (wils_predict_fl X x) m Z /\ ashape Z = [r] /\
    forall Q, in_matrix X Q -> forall i, (i < r)%nat -> exists e, aget Z [i] = Some (OItv e) /\ member_or_nan e (row_value n Q (point x) i).
Proof.
  intros Hn [CA WA] SA GA Lx Fx. unfold wils_predict_fl. rewrite <- (map_map PFlt ONum). change (mkarr [length x] (map ONum (map PFlt x))) with (amap ONum (point x)).
  assert (Wx : awf (point x)) by (unfold awf, point; cbn [adata ashape size]; rewrite map_length; lia).
  assert (Sx' : ashape (amap ONum (point x)) = [n]) by (unfold point; cbn [amap ashape]; now f_equal).
  assert (SA' : ashape (op_arr X) = [r; n]) by (unfold op_arr; cbn [ashape amap]; congruence).
  assert (OK : product_ok (op_arr X) (amap ONum (point x))).
  { split; [now apply op_arr_wf|]. split; [now apply amap_wf|]. split; [|split].
    - cbn [op_arr amap adata]. rewrite Forall_map. revert GA. apply Forall_impl. intros e He. exact He.
    - cbn [amap adata point]. rewrite !Forall_map. revert Fx. apply Forall_impl. intros v Hv. split; [exact I | exact Hv].
    - left. cbn [op_arr amap adata]. rewrite Forall_map. apply Forall_forall. intros e _. exact I. }
  destruct (matvec (op_arr X) (amap ONum (point x)) r n m SA' Sx' OK) as (Z & HZ & SZ & WZ & K). exists Z. split; [exact HZ|]. split; [exact SZ|].
  intros Q HQ i Hi. destruct (K Q (fun k => match aget (point x) [k] with Some v => num_val v | None => 0 end)) with (i := i) as (z & Hz & EZ & IN); [| |exact Hi|].
  - intros i' k o. unfold op_arr. rewrite aget_map. destruct (aget (adat X) [i'; k]) as [e|] eqn:Q'; [|discriminate]. intro H. inversion H. simpl. now apply HQ.
  - intros k o. rewrite aget_map. destruct (aget (point x) [k]) as [v|]; [|discriminate]. intro H. inversion H. reflexivity.
  - destruct (EZ Hn) as (e & -> & _). exists e. split; [exact Hz | exact IN].
Qed.
