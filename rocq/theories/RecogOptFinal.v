(** maximize of Tol, Uni and Uss: what the returned point and value say. *)
From Coq Require Import ZArith Reals List Bool Arith Lia Lra.
From Flocq Require Import Core IEEE754.BinarySingleNaN.
From Verif Require Import Base PyNum Kernel Spec Expr Arrays Construct SpecArray XReal XArith KernelProofs KernelMore KernelAlg ExprProofs ArrayProofs ArrayMore ArrayMat ConstructProofs KaucherProofs
  RecogFl SpecRecogFl RecogFlProofs RecogFlCor HbrFl HbrFlProofs RohnFl GSProofs UssFl SpecUssFl UssFlProofs Ralgb5 RalgbProofs RalgbMore ConstrainedProofs RecogOpt SpecRecogOpt RecogOptProofs RecogOptMargin RecogOptSign RecogOptRun RecogOptTotal.
Import ListNotations.
Open Scope R_scope.

(** ** The three functionals *)
Lemma mul_is_double w d m T v : returns (np_mul w (amap PFlt d)) m T -> In v (adata T) -> is_double v.
Proof.
  intros H I. unfold np_mul in H. destruct (binop_arr_spec mul_ ltac:(intros; apply keeps_prim) w (amap PFlt d) m T H) as (s & Hs & ST & WT & P).
  apply In_nth_error in I. destruct I as [k Hk].
  assert (L : (k < size s)%nat) by (rewrite <- ST, <- WT; apply nth_error_Some; congruence).
  destruct (nth_flat s k L) as (idx & _ & F).
  destruct (P idx k F) as (a & c & e & Ha & Hc & R & G). unfold aget in G. rewrite ST, F in G. assert (e = v) by congruence. subst e.
  unfold bget in Hc. apply aget_in in Hc. cbn [amap adata] in Hc. apply in_map_iff in Hc. destruct Hc as (f & <- & _).
  unfold returns, outcome, mul_, mprim, num_mul, arith2 in R. cbn [fst] in R. destruct a as [z|y]; simpl in R.
  - destruct (int_to_double z); [|discriminate]. inversion R. now eexists.
  - inversion R. now eexists.
Qed.
Section Three.
Variables (fdot : list (flt * flt) -> flt) (A b : aitv) (w : arr pynum).
Lemma keeps_tol x : keeps_mode (tol_calc fdot A b x w).
Proof. unfold tol_calc. apply keeps_bind; [apply keeps_parts|]. intros [[i s] q]. apply keeps_bind; [apply keeps_bin|]. intro. apply keeps_bind; [apply keeps_bin|]. intro. apply keeps_binop_arr. intros; apply keeps_prim. Qed.
Lemma keeps_uni x : keeps_mode (uni_calc fdot A b x w).
Proof. unfold uni_calc. apply keeps_bind; [apply keeps_parts|]. intros [[i s] q]. apply keeps_bind; [apply keeps_bin|]. intro. apply keeps_bind; [apply keeps_bin|]. intro. apply keeps_binop_arr. intros; apply keeps_prim. Qed.
Lemma keeps_ends tol mc x : keeps_mode (ends_grad fdot tol A b w mc x).
Proof. unfold ends_grad. apply keeps_bind; [apply keeps_parts|]. intros [[i s] q]. apply keeps_bind; [apply keeps_lift|]. intro. apply keeps_lift. Qed.
Lemma keeps_uss_grad mc x : keeps_mode (uss_grad fdot A b w mc x).
Proof.
  unfold uss_grad. destruct (shp A) as [|? [|? [|]]]; try (intro; reflexivity).
  repeat (apply keeps_bind; [first [unfold arr_rad, arr_mid; apply keeps_vectorize_num; first [apply keeps_rad | apply keeps_mid] | apply keeps_f_of | apply keeps_lift] | intro]).
  intro; reflexivity.
Qed.
Lemma tol_double x T v : returns (tol_calc fdot A b x w) mode_NE T -> In v (adata T) -> is_double v.
Proof.
  intro H. unfold tol_calc in H. rewrite keeps_returns in H by apply keeps_parts. destruct H as ([[i s] q] & _ & H).
  rewrite keeps_returns in H by apply keeps_bin. destruct H as (g & _ & H). rewrite keeps_returns in H by apply keeps_bin. destruct H as (d & _ & H). exact (mul_is_double _ _ _ _ _ H).
Qed.
Lemma uni_double x T v : returns (uni_calc fdot A b x w) mode_NE T -> In v (adata T) -> is_double v.
Proof.
  intro H. unfold uni_calc in H. rewrite keeps_returns in H by apply keeps_parts. destruct H as ([[i s] q] & _ & H).
  rewrite keeps_returns in H by apply keeps_bin. destruct H as (g & _ & H). rewrite keeps_returns in H by apply keeps_bin. destruct H as (d & _ & H). exact (mul_is_double _ _ _ _ _ H).
Qed.
Lemma uss_double x T v : returns (uss_calc fdot A b x w) mode_NE T -> In v (adata T) -> is_double v.
Proof.
  unfold uss_calc, uss_constituent_fl. destruct (shp A) as [|r [|n [|]]]; try discriminate. destruct (ashape x) as [|k [|]]; try discriminate. intro H.
  repeat (rewrite keeps_returns in H by first [unfold arr_rad, arr_mid; apply keeps_vectorize_num; first [apply keeps_rad | apply keeps_mid] | apply keeps_f_of | apply keeps_bin]; destruct H as (? & _ & H)).
  destruct (negb (n =? k)%nat); [discriminate|].
  repeat (rewrite keeps_returns in H by first [unfold arr_rad, arr_mid; apply keeps_vectorize_num; first [apply keeps_rad | apply keeps_mid] | apply keeps_f_of | apply keeps_bin]; destruct H as (? & _ & H)).
  exact (mul_is_double _ _ _ _ _ H).
Qed.
Theorem tol_run W P x0 x v : tol_maximize_fl fdot W P A b w x0 = (x, v) -> is_nan v = false ->
  (exists T, returns (tol_calc fdot A b (point x) w) mode_NE T /\ least T v) /\
  exists T0 v0, returns (tol_calc fdot A b (point x0) w) mode_NE T0 /\ least T0 v0 /\ flt_leb v0 v = true.
Proof. exact (maximize_run (fun x => tol_calc fdot A b x w) (ends_grad fdot true A b w) keeps_tol (keeps_ends true) tol_double W P x0 x v). Qed.
Theorem uni_run W P x0 x v : uni_maximize_fl fdot W P A b w x0 = (x, v) -> is_nan v = false ->
  (exists T, returns (uni_calc fdot A b (point x) w) mode_NE T /\ least T v) /\
  exists T0 v0, returns (uni_calc fdot A b (point x0) w) mode_NE T0 /\ least T0 v0 /\ flt_leb v0 v = true.
Proof. exact (maximize_run (fun x => uni_calc fdot A b x w) (ends_grad fdot false A b w) keeps_uni (keeps_ends false) uni_double W P x0 x v). Qed.
Theorem uss_run W P x0 x v : uss_maximize_fl fdot W P A b w x0 = (x, v) -> is_nan v = false ->
  (exists T, returns (uss_constituent_fl fdot A b (point x) w) mode_NE T /\ least T v) /\
  exists T0 v0, returns (uss_constituent_fl fdot A b (point x0) w) mode_NE T0 /\ least T0 v0 /\ flt_leb v0 v = true.
Proof. exact (maximize_run (fun x => uss_calc fdot A b x w) (uss_grad fdot A b w) (fun x => keeps_uss fdot A b x w) keeps_uss_grad uss_double W P x0 x v). Qed.
End Three.

(** ** Signs *)
Lemma nn_num v : flt_leb f0 v = true -> is_nan v = false.
Proof. rewrite flt_leb_x. intro H. destruct (is_nan v) eqn:E; [|reflexivity]. apply is_nan_x in E. rewrite E in H. discriminate. Qed.
Lemma neg_num v : flt_ltb v f0 = true -> is_nan v = false.
Proof. rewrite flt_ltb_x. intro H. destruct (is_nan v) eqn:E; [|reflexivity]. apply is_nan_x in E. rewrite E in H. discriminate. Qed.
Lemma least_nn T v : least T v -> flt_leb f0 v = true -> all_nn T.
Proof. intros [_ L] H u Hu. specialize (L u Hu). rewrite num_le_x in *. rewrite flt_leb_x in H. eapply xleb_trans; [exact H | exact L]. Qed.
Lemma least_neg T v : least T v -> flt_ltb v f0 = true -> some_neg T.
Proof. intros [I _] H. exists (PFlt v). split; [exact I|]. rewrite num_lt_x. rewrite flt_ltb_x in H. exact H. Qed.
Lemma least_min T v : least T v -> is_nan v = false -> exists t, np_min T = Ok t /\ xval t = xflt v.
Proof.
  intros [I L] N. unfold np_min. destruct (adata T) as [|a l] eqn:E; [destruct I|].
  destruct (existsb is_nan_num (a :: l)) eqn:X.
  - exfalso. apply existsb_exists in X. destruct X as (u & Hu & Nu). specialize (L u Hu). rewrite num_le_x in L. apply is_nan_num_x in Nu. rewrite Nu in L. destruct (xval (PFlt v)); discriminate.
  - exists (fold_left num_min2 l a). split; [reflexivity|].
    assert (MS : np_min T = Ok (fold_left num_min2 l a)) by (unfold np_min; rewrite E, X; reflexivity).
    assert (NN : is_nan_num (fold_left num_min2 l a) = false).
    { assert (G : forall l' a', is_nan_num a' = false -> (forall u, In u l' -> is_nan_num u = false) -> is_nan_num (fold_left num_min2 l' a') = false).
      { induction l' as [|c l' IH]; intros a' Na Hl; [exact Na|]. cbn [fold_left]. apply IH; [|intros; apply Hl; now right]. unfold num_min2. destruct num_lt; [|exact Na]. apply Hl. now left. }
      cbn [existsb] in X. apply orb_false_elim in X. destruct X as [X1 X2]. apply G; [exact X1|]. intros u Hu. destruct (is_nan_num u) eqn:Q; [|reflexivity].
      exfalso. rewrite (proj2 (existsb_exists is_nan_num l)) in X2 by eauto. discriminate. }
    destruct (np_min_spec T _ MS NN) as [I2 M2]. rewrite E in I2, M2. destruct (M2 _ I) as [_ L2]. specialize (L _ I2). rewrite num_le_x in L, L2.
    cbn [xval] in L, L2. destruct (xflt v) as [| | |p], (xval (fold_left num_min2 l a)) as [| | |q]; try discriminate; try reflexivity.
    apply xleb_fin in L, L2. f_equal. lra.
Qed.
Section Meaning.
Variables (fdot : list (flt * flt) -> flt) (g h : R) (r n : nat) (A b : aitv) (w : arr pynum) (W : vops) (P : params (ops_of W)) (x0 x : list flt) (v : flt).
Hypothesis HD : dot_within fdot n g h.
Hypothesis Hg : 0 <= g <= 1.
Hypothesis Hh : 0 <= h <= 1.
Hypothesis Hn : (Z.of_nat n <= 2 ^ 100)%Z.
Hypothesis SY : system r n A b (point x).
Hypothesis MO : moderate A b (point x).
Theorem tol_max_nn : weights_from 1 r w -> tol_maximize_fl fdot W P A b w x0 = (x, v) -> flt_leb f0 v = true ->
  forall Q, in_matrix A Q -> in_rhs_by b (uss_margin g h n A b (point x)) (row_value n Q (point x)).
Proof.
  intros Hw E L. destruct (tol_run fdot A b w W P x0 x v E (nn_num v L)) as [(T & HT & LT) _].
  exact (tol_calc_nn fdot g h r n A b (point x) w HD Hg Hh Hn SY MO (proj1 (proj2 Hw)) T Hw HT (least_nn T v LT L)).
Qed.
Theorem tol_max_neg : weights_from 0 r w -> tol_maximize_fl fdot W P A b w x0 = (x, v) -> flt_ltb v f0 = true ->
  exists Q, in_matrix A Q /\ ~ in_rhs_by b (fun i => - uss_margin g h n A b (point x) i) (row_value n Q (point x)).
Proof.
  intros Hw E L. destruct (tol_run fdot A b w W P x0 x v E (neg_num v L)) as [(T & HT & LT) _].
  exact (tol_calc_neg fdot g h r n A b (point x) w HD Hg Hh Hn SY MO (proj1 (proj2 Hw)) T Hw HT (least_neg T v LT L)).
Qed.
Theorem uni_max_nn : weights_from 1 r w -> uni_maximize_fl fdot W P A b w x0 = (x, v) -> flt_leb f0 v = true ->
  exists Q, in_matrix A Q /\ in_rhs_by b (fun i => uss_margin g h n A b (point x) i + bpow radix2 (-536)) (row_value n Q (point x)).
Proof.
  intros Hw E L. destruct (uni_run fdot A b w W P x0 x v E (nn_num v L)) as [(T & HT & LT) _].
  exact (uni_calc_nn fdot g h r n A b (point x) w HD Hg Hh Hn SY MO (proj1 (proj2 Hw)) T Hw HT (least_nn T v LT L)).
Qed.
Theorem uni_max_neg : weights_from 0 r w -> uni_maximize_fl fdot W P A b w x0 = (x, v) -> flt_ltb v f0 = true ->
  forall Q, in_matrix A Q -> ~ in_rhs_by b (fun i => - uss_margin g h n A b (point x) i) (row_value n Q (point x)).
Proof.
  intros Hw E L. destruct (uni_run fdot A b w W P x0 x v E (neg_num v L)) as [(T & HT & LT) _].
  exact (uni_calc_neg fdot g h r n A b (point x) w HD Hg Hh Hn SY MO (proj1 (proj2 Hw)) T Hw HT (least_neg T v LT L)).
Qed.
Lemma uss_value_of T : returns (uss_constituent_fl fdot A b (point x) w) mode_NE T -> least T v -> is_nan v = false ->
  exists t, returns (uss_value_fl fdot A b (point x) w) mode_NE t /\ xval t = xflt v.
Proof.
  intros HT LT N. destruct (least_min T v LT N) as (t & Ht & Xt). exists t. split; [|exact Xt]. unfold uss_value_fl. rewrite keeps_returns by apply keeps_uss.
  exists T. split; [exact HT | exact Ht].
Qed.
Theorem uss_max_nn : weights_from 1 r w -> uss_maximize_fl fdot W P A b w x0 = (x, v) -> flt_leb f0 v = true ->
  exists Q, in_matrix A Q /\ in_rhs_by b (uss_margin g h n A b (point x)) (row_value n Q (point x)).
Proof.
  intros Hw E L. destruct (uss_run fdot A b w W P x0 x v E (nn_num v L)) as [(T & HT & LT) _].
  destruct (uss_value_of T HT LT (nn_num v L)) as (t & Ht & Xt).
  apply (uss_fl_margin fdot g h r n A b (point x) w t HD Hg Hh Hn SY MO Hw Ht). rewrite num_le_x, Xt. rewrite flt_leb_x in L. exact L.
Qed.
Theorem uss_max_neg : weights_from 0 r w -> uss_maximize_fl fdot W P A b w x0 = (x, v) -> flt_ltb v f0 = true ->
  forall Q, in_matrix A Q -> ~ in_rhs_by b (fun i => - uss_margin g h n A b (point x) i) (row_value n Q (point x)).
Proof.
  intros Hw E L. destruct (uss_run fdot A b w W P x0 x v E (neg_num v L)) as [(T & HT & LT) _].
  destruct (uss_value_of T HT LT (neg_num v L)) as (t & Ht & Xt).
  apply (uss_fl_excludes fdot g h r n A b (point x) w t HD Hg Hh Hn SY MO Hw Ht). rewrite num_lt_x, Xt. rewrite flt_ltb_x in L. exact L.
Qed.
End Meaning.

(** ** No NaN *)
Section NoNan.
Variables (fdot : list (flt * flt) -> flt) (g h : R) (r n : nat) (A b : aitv) (w : arr pynum) (W : vops) (P : params (ops_of W)) (x0 : list flt).
Hypothesis HD : dot_within fdot n g h.
Hypothesis Hg : 0 <= g <= 1.
Hypothesis Hh : 0 <= h <= 1.
Hypothesis Hn : (Z.of_nat n <= 2 ^ 100)%Z.
Hypothesis R0 : (0 < r)%nat.
Hypothesis SY : system r n A b (point x0).
Hypothesis MO : moderate A b (point x0).
Hypothesis Hw : weights_from 1 r w.
Lemma product_num wi ti d : small_num wi -> finite_num wi -> 1 <= num_val wi -> returns (mul_ wi (PFlt d)) mode_NE ti -> xflt d <> XNan -> is_nan_num ti = false.
Proof.
  intros S F H RT N. assert (X := con_x wi ti d S F RT). destruct (is_nan_num ti) eqn:E; [|reflexivity]. apply is_nan_num_x in E. rewrite E in X. exfalso.
  destruct (xflt d) as [| | |p]; [congruence | | |]; cbn [xmul] in X.
  - unfold xinf_times in X. destruct (Rcompare_spec (num_val wi) 0); try lra; discriminate.
  - unfold xinf_times in X. destruct (Rcompare_spec (num_val wi) 0); try lra; discriminate.
  - unfold xround in X. destruct Rlt_bool; [discriminate|]. destruct (Rlt_bool _ 0); discriminate.
Qed.
Lemma sub_num q m : xsub mode_NE (XFin q) (XFin m) <> XNan.
Proof. unfold xsub. cbn [xopp xadd]. unfold xround. destruct Rlt_bool; [discriminate|]. destruct (Rlt_bool _ 0); discriminate. Qed.
Lemma rows_num good T : rows_of g h r n A b (point x0) w T good -> forall v, In v (adata T) -> is_nan_num v = false.
Proof.
  intros (ST & WT & _ & PR) v Hv. apply In_nth_error in Hv. destruct Hv as [i Ei]. assert (Hi : (i < r)%nat).
  { assert (Q : (i < length (adata T))%nat) by (apply nth_error_Some; congruence). rewrite WT, ST in Q. cbn [size] in Q. lia. }
  destruct (PR i Hi) as (wi & ti & d & fq & fm & c & C & G & q & m & H1 & H2 & H3 & H4 & H5 & H6 & _). rewrite (aget_1 T r i ST Hi) in H2. assert (ti = v) by congruence. subst ti.
  destruct (weight_of r w 1 i wi Hw H1) as (S1 & F1 & W1). apply (product_num wi v d S1 F1 W1 H3). rewrite H4, fsub_x, H5, H6. apply sub_num.
Qed.
Lemma uss_num T : returns (uss_calc fdot A b (point x0) w) mode_NE T -> forall v, In v (adata T) -> is_nan_num v = false.
Proof.
  intros H v Hv. destruct (uss_rows fdot g h r n A b (point x0) HD Hg Hh Hn SY MO w T (proj1 (proj2 Hw)) H) as (ST & WT & _ & PR).
  apply In_nth_error in Hv. destruct Hv as [i Ei]. assert (Hi : (i < r)%nat).
  { assert (Q : (i < length (adata T))%nat) by (apply nth_error_Some; congruence). rewrite WT, ST in Q. cbn [size] in Q. lia. }
  destruct (PR i Hi) as (wi & ti & d & p & z & H1 & H2 & H3 & H4 & _). rewrite (aget_1 T r i ST Hi) in H2. assert (ti = v) by congruence. subst ti.
  destruct (weight_of r w 1 i wi Hw H1) as (S1 & F1 & W1). apply (product_num wi v d S1 F1 W1 H3). rewrite H4. apply sub_num.
Qed.
Lemma weight_at mc : (mc < r)%nat -> exists v f, aget w [mc] = Some v /\ to_double v = Ok f.
Proof.
  intro H. destruct Hw as (Ww & Sw & Fw). destruct (aget_some w [mc] mc Ww) as (v & Hv & _). { rewrite Sw. now apply flat_1. }
  rewrite Forall_forall in Fw. destruct (Fw v (aget_in _ _ _ Hv)) as [Sv _]. destruct (to_double_exact v (small_exact v Sv)) as (f & Hf & _). eauto.
Qed.
Lemma length_n : length x0 = n.
Proof. destruct SY as (_ & _ & _ & _ & _ & _ & _ & _ & Sx & _). unfold point in Sx. cbn [ashape] in Sx. congruence. Qed.
Lemma ends_total tol mc : (mc < r)%nat -> exists gl, returns (ends_grad fdot tol A b w mc x0) mode_NE gl.
Proof.
  intro H. destruct (parts_total fdot r n A b (point x0) R0 SY MO) as (i & s & q & Hp & _). destruct (weight_at mc H) as (v & f & Hv & Hf).
  assert (TT : forall (F : nat -> res flt) l, (forall k, In k l -> exists y, F k = Ok y) -> exists gl, res_map F l = Ok gl).
  { intros F l. induction l as [|k l IH]; intro HF; [now exists []|]. destruct (HF k (or_introl eq_refl)) as [y Hy]. destruct (IH (fun k' Hk' => HF k' (or_intror Hk'))) as [gl Hl].
    exists (y :: gl). cbn [res_map]. rewrite Hy. cbn [rbind]. rewrite Hl. reflexivity. }
  set (F := fun up k => l <~ end_row (if Bool.eqb up tol then lo else hi) A mc k ;; u <~ end_row (if Bool.eqb up tol then hi else lo) A mc k ;;
    Ok (fmul mode_NE (if up then f else fneg f) (by_sign (nth k x0 f0) l u))).
  destruct (TT (F (flt_leb (fneg (f_get i [mc])) (f_get s [mc]))) (seq 0 (length x0))) as [gl Hl].
  { intros k Hk. apply in_seq in Hk. rewrite length_n in Hk. destruct (entryA r n A b (point x0) SY MO mc k H ltac:(lia)) as (e & He & [Sl Sh] & _).
    destruct (to_double_exact (lo e) (small_exact _ Sl)) as (fl0 & Hl0 & _). destruct (to_double_exact (hi e) (small_exact _ Sh)) as (fh & Hh0 & _).
    unfold F, end_row. rewrite He. destruct (Bool.eqb _ tol); rewrite Hl0, Hh0; cbn [rbind]; now eexists. }
  exists gl. unfold ends_grad. fold (point x0). rewrite keeps_returns by apply keeps_parts. exists (i, s, q). split; [exact Hp|].
  rewrite keeps_returns by apply keeps_lift. exists f. split; [rewrite Hv; unfold returns, outcome, mlift; cbn [fst]; exact Hf|]. exact Hl.
Qed.
Lemma uss_grad_total mc : (mc < r)%nat -> exists gl, returns (uss_grad fdot A b w mc x0) mode_NE gl.
Proof.
  intro H. destruct (entries_total r n A b (point x0) R0 SY MO) as (TB & TA & NB & NA). destruct (weight_at mc H) as (v & f & Hv & Hf).
  destruct SY as (N0 & CA & SA & GA & CB & Sb & _). 
  destruct (doubles_wf mid A CA keeps_mid (fun e v => mid_double e mode_NE v) NA (fun e He => proj1 (TA e He))) as (C0 & C & HC0 & HC & _).
  destruct (doubles_wf rad A CA keeps_rad (fun e v => rad_double e mode_NE v) NA (fun e He => proj2 (TA e He))) as (G0 & G & HG0 & HG & _).
  destruct (doubles_wf mid b CB keeps_mid (fun e v => mid_double e mode_NE v) NB (fun e He => proj1 (TB e He))) as (c0 & c & Hc0 & Hc & _).
  eexists. unfold uss_grad. rewrite SA.
  rewrite keeps_returns by (unfold arr_mid; apply keeps_vectorize_num, keeps_mid). exists C0. split; [exact HC0|]. rewrite keeps_returns by apply keeps_f_of. exists C. split; [exact HC|].
  rewrite keeps_returns by (unfold arr_rad; apply keeps_vectorize_num, keeps_rad). exists G0. split; [exact HG0|]. rewrite keeps_returns by apply keeps_f_of. exists G. split; [exact HG|].
  rewrite keeps_returns by (unfold arr_mid; apply keeps_vectorize_num, keeps_mid). exists c0. split; [exact Hc0|]. rewrite keeps_returns by apply keeps_f_of. exists c. split; [exact Hc|].
  rewrite keeps_returns by apply keeps_lift. exists f. split; [rewrite Hv; unfold returns, outcome, mlift; cbn [fst]; exact Hf|]. reflexivity.
Qed.
Lemma objective_num con grad T : (forall x, keeps_mode (con x)) -> (forall mc x, keeps_mode (grad mc x)) ->
  returns (con (point x0)) mode_NE T -> ashape T = [r] -> awf T -> (forall v, In v (adata T) -> is_double v /\ is_nan_num v = false) ->
  (forall mc, (mc < r)%nat -> exists gl, returns (grad mc x0) mode_NE gl) -> is_nan (snd (maximize_fl W P con grad x0)) = false.
Proof.
  intros KC KG HT ST WT NN GT.
  assert (LT : length (adata T) = r) by (rewrite WT, ST; cbn [size]; lia).
  destruct (np_argmin T) as [mc|] eqn:E; [|unfold np_argmin in E; destruct (adata T); [simpl in LT; lia | discriminate]].
  destruct (argmin_spec T mc E) as (v & Hv & _). destruct (NN v (nth_error_In _ _ Hv)) as [[fv ->] Nv].
  assert (Hm : (mc < r)%nat) by (rewrite <- LT; apply nth_error_Some; congruence). destruct (GT mc Hm) as [gl Hgl].
  assert (EO : objective con grad x0 = (fneg fv, map fneg gl)).
  { unfold objective. fold (point x0). set (c := T <- con (point x0) ;; _). assert (RC : returns c mode_NE (fv, gl)).
    { unfold c. rewrite keeps_returns by apply KC. exists T. split; [exact HT|]. rewrite keeps_returns by apply keeps_lift. exists mc. split; [exact E|].
      rewrite keeps_returns by apply keeps_lift. exists fv. split; [rewrite Hv; reflexivity|]. rewrite keeps_returns by apply KG. exists gl. split; [exact Hgl | reflexivity]. }
    unfold returns, outcome in RC. rewrite RC. reflexivity. }
  unfold maximize_fl. cbn [snd]. assert (Q := run_num W P (objective con grad) (length x0) x0). rewrite EO in Q. cbn [fst] in Q.
  assert (N1 : is_nan (fneg fv) = false) by (cbn [is_nan_num] in Nv; destruct fv; auto). specialize (Q N1). unfold numf in Q.
  destruct (r_f (ops_of W) (fst (ralgb5 (ops_of W) P (objective con grad) (length x0) x0))); auto.
Qed.
Theorem tol_max_num : is_nan (snd (tol_maximize_fl fdot W P A b w x0)) = false.
Proof.
  destruct (tol_total fdot r n A b (point x0) w R0 SY MO 1 Hw) as [T HT].
  assert (RW := tol_rows fdot g h r n A b (point x0) w HD Hg Hh Hn SY MO (proj1 (proj2 Hw)) T HT). assert (RW' := RW). destruct RW' as (ST & WT & _).
  apply (objective_num _ _ T (keeps_tol fdot A b w) (keeps_ends fdot A b w true) HT ST WT).
  - intros v Hv. split; [exact (tol_double fdot A b w _ T v HT Hv) | exact (rows_num _ T RW v Hv)].
  - apply ends_total.
Qed.
Theorem uni_max_num : is_nan (snd (uni_maximize_fl fdot W P A b w x0)) = false.
Proof.
  destruct (uni_total fdot r n A b (point x0) w R0 SY MO 1 Hw) as [T HT].
  assert (RW := uni_rows fdot g h r n A b (point x0) w HD Hg Hh Hn SY MO (proj1 (proj2 Hw)) T HT). assert (RW' := RW). destruct RW' as (ST & WT & _).
  apply (objective_num _ _ T (keeps_uni fdot A b w) (keeps_ends fdot A b w false) HT ST WT).
  - intros v Hv. split; [exact (uni_double fdot A b w _ T v HT Hv) | exact (rows_num _ T RW v Hv)].
  - apply ends_total.
Qed.
Theorem uss_max_num : is_nan (snd (uss_maximize_fl fdot W P A b w x0)) = false.
Proof.
  destruct (uss_total fdot r n A b (point x0) w R0 SY MO 1 Hw) as [T HT].
  destruct (uss_rows fdot g h r n A b (point x0) HD Hg Hh Hn SY MO w T (proj1 (proj2 Hw)) HT) as (ST & WT & _).
  apply (objective_num _ _ T (fun x => keeps_uss fdot A b x w) (keeps_uss_grad fdot A b w) HT ST WT).
  - intros v Hv. split; [exact (uss_double fdot A b w _ T v HT Hv) | exact (uss_num T HT v Hv)].
  - apply uss_grad_total.
Qed.
End NoNan.
