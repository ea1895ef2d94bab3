(** Proofs about Tol and Uni in binary64. *)
From Coq Require Import ZArith Reals List Bool Arith Lia Lra.
From Flocq Require Import Core IEEE754.BinarySingleNaN.
From Verif Require Import Base PyNum Kernel Spec Expr Arrays Construct SpecArray XReal XArith KernelProofs KernelMore KernelAlg ExprProofs ArrayProofs ArrayMore ArrayMat ConstructProofs KaucherProofs RecogFl SpecRecogFl.
Import ListNotations.
Open Scope R_scope.

(** ** Vectors *)
Lemma ib_1 r i : (i < r)%nat -> in_bounds [r] [i].
Proof. intro H. now repeat constructor. Qed.
Lemma flat_1 r i : (i < r)%nat -> flat [r] [i] = Some i.
Proof. intro H. cbn [flat size]. destruct (Nat.ltb_spec i r); [|lia]. f_equal. lia. Qed.
Lemma reads_1 {A} (a : arr A) r i v : ashape a = [r] -> (i < r)%nat -> reads a [i] v -> aget a [i] = Some v.
Proof.
  intros S H Hv. apply bget_reads in Hv; [|rewrite S; simpl; lia]. unfold bget in Hv. rewrite S in Hv.
  now rewrite (bidx_same [r] [i] i (flat_1 r i H)) in Hv.
Qed.
Lemma shape_1 r s : broadcast_shape [r] [r] s -> s = [r].
Proof. intro H. apply bcast_iff in H. rewrite bcast_same in H. congruence. Qed.
Lemma aget_1 {A} (a : arr A) r i : ashape a = [r] -> (i < r)%nat -> aget a [i] = nth_error (adata a) i.
Proof. intros S H. unfold aget. now rewrite S, flat_1. Qed.
Lemma aget_1_lt {A} (a : arr A) r i v : ashape a = [r] -> aget a [i] = Some v -> (i < r)%nat.
Proof. intros S H. unfold aget in H. rewrite S in H. cbn [flat size] in H. destruct (Nat.ltb_spec i r); [assumption | discriminate]. Qed.
Lemma binop_1 {A B C} (f : A -> B -> M C) x y m Z r : (forall a b, keeps_mode (f a b)) -> ashape x = [r] -> ashape y = [r] ->
  returns (binop_arr f x y) m Z ->
  ashape Z = [r] /\ awf Z /\ forall i, (i < r)%nat -> exists a b c, aget x [i] = Some a /\ aget y [i] = Some b /\ aget Z [i] = Some c /\ returns (f a b) m c.
Proof.
  intros K Sx Sy H. destruct (binop_reads f x y m Z K H) as (s & Hs & SZ & WZ & P). rewrite Sx, Sy in Hs. apply shape_1 in Hs. rewrite Hs in *. clear s Hs.
  split; [assumption|]. split; [assumption|]. intros i Hi. destruct (P [i] (ib_1 r i Hi)) as (a & b & c & Ra & Rb & Rc & G).
  exists a, b, c. split; [now apply (reads_1 x r)|]. split; [now apply (reads_1 y r)|]. auto.
Qed.

(** ** Midpoints, radii and magnitudes are doubles *)
Lemma mul_half_double w m v : returns (mul_ (PFlt fhalf) w) m v -> is_double v.
Proof.
  unfold returns, outcome, mul_, mprim, num_mul, arith2. cbn [fst]. destruct w as [z|g]; simpl.
  - destruct (int_to_double z); [|discriminate]. intro H. inversion H. now eexists.
  - intro H. inversion H. now eexists.
Qed.
Lemma mid_double e m v : returns (mid e) m v -> is_double v.
Proof.
  unfold mid. rewrite keeps_returns by (unfold add_; apply keeps_prim). intros (w & _ & H). now apply mul_half_double in H.
Qed.
Lemma rad_double e m v : returns (rad e) m v -> is_double v.
Proof.
  unfold rad. rewrite keeps_returns by apply keeps_wid. intros (w & _ & H). now apply mul_half_double in H.
Qed.
Lemma flt_double (c : M flt) m v : keeps_mode c -> returns (w <- c ;; mret (PFlt w)) m v -> exists f, v = PFlt f /\ returns c m f.
Proof. intros K. rewrite keeps_returns by exact K. intros (f & Hf & E). apply returns_ret in E. subst. eauto. Qed.

Lemma ret_det {A} (c : M A) m x y : returns c m x -> returns c m y -> x = y.
Proof. unfold returns. congruence. Qed.

Lemma Forall2_aget {A B} (R : A -> B -> Prop) (a : arr A) (b : arr B) r i : ashape a = [r] -> ashape b = [r] -> awf a ->
  Forall2 R (adata a) (adata b) -> (i < r)%nat -> exists x y, aget a [i] = Some x /\ aget b [i] = Some y /\ R x y.
Proof.
  intros Sa Sb W F Hi. rewrite (aget_1 a r i Sa Hi), (aget_1 b r i Sb Hi).
  assert (L : (i < length (adata a))%nat) by (rewrite W, Sa; simpl; lia).
  destruct (nth_error (adata a) i) as [x|] eqn:E; [|apply nth_error_None in E; lia].
  destruct (Forall2_nth _ _ _ F i x E) as (y & Hy & Q). eauto.
Qed.

(** ** The product *)
Lemma keeps_entry o : keeps_mode (entry_itv o). Proof. destruct o; [intro; reflexivity | apply keeps_ret]. Qed.
Lemma keeps_matmul_1 x y r n : ashape x = [r; n] -> ashape y = [n] -> keeps_mode (matmul x y).
Proof.
  intros Sx Sy. unfold matmul. rewrite Sx, Sy, Nat.eqb_refl. apply keeps_bind; [apply keeps_mapM; intro; apply keeps_dot|].
  intro. apply keeps_ret.
Qed.
Lemma matvec_entries x y r n m : ashape x = [r; n] -> ashape y = [n] -> product_ok x y ->
  exists Z, returns (matmul x y) m Z /\ ashape Z = [r] /\ awf Z /\
    forall i, (i < r)%nat -> exists z, aget Z [i] = Some z /\ entry_result z n /\
      forall a b, (forall k o, (k < n)%nat -> aget x [i; k] = Some o -> in_operand o (a k)) ->
        (forall k o, (k < n)%nat -> aget y [k] = Some o -> in_operand o (b k)) -> in_operand_or_nan z (Rsum n (fun k => a k * b k)).
Proof.
  intros Sx Sy OK.
  set (f := fun i => dot (map (fun k => (oget x [i; k], oget y [k])) (seq 0 n))).
  set (Q := fun i z => entry_result z n /\ forall a b, (forall k o, (k < n)%nat -> aget x [i; k] = Some o -> in_operand o (a k)) ->
      (forall k o, (k < n)%nat -> aget y [k] = Some o -> in_operand o (b k)) -> in_operand_or_nan z (Rsum n (fun k => a k * b k))).
  destruct (mapM_entries f Q (seq 0 r) m) as (zs & Hzs & HQ).
  - intro. apply keeps_dot.
  - intros i Hi. apply in_seq in Hi. destruct (entry_arr x y m n (fun k => [i; k]) (fun k => [k]) OK) as (z & Hz & NN & E).
    + intros k Hk. rewrite Sx. apply ib2; lia.
    + intros k Hk. rewrite Sy. now apply ib1.
    + exists z. split; [exact Hz|]. split; assumption.
  - exists (mkarr [r] zs). split; [|split; [reflexivity|split]].
    + unfold matmul. rewrite Sx, Sy, Nat.eqb_refl. rewrite keeps_returns by (apply keeps_mapM; intro; apply keeps_dot).
      exists zs. split; [exact Hzs|]. now apply returns_ret.
    + unfold awf. cbn [ashape adata size]. rewrite <- (Forall2_len _ _ _ HQ), seq_length. lia.
    + intros i Hi. destruct (Forall2_nth _ _ _ HQ i i (nth_seq r i Hi)) as (z & Hz & NN & E). exists z. split; [|split; [assumption|exact E]].
      rewrite (aget_1 (mkarr [r] zs) r i eq_refl Hi). exact Hz.
Qed.
Lemma mat_vec_spec r n A b x m : system r n A b x ->
  keeps_mode (mat_vec A x) /\ exists Z, returns (mat_vec A x) m Z /\ ashape (adat Z) = [r] /\ awf (adat Z) /\ Forall good (adata (adat Z)) /\
    forall P, in_matrix A P -> forall i z, aget (adat Z) [i] = Some z -> member_or_nan z (row_value n P x i).
Proof.
  intros (Hn & [CA WA] & SA & GA & _ & _ & _ & Wx & Sx & Fx).
  assert (Sx' : ashape (amap ONum x) = [n]) by exact Sx.
  assert (SA' : ashape (op_arr A) = [r; n]) by (unfold op_arr; cbn [ashape amap]; congruence).
  assert (K := keeps_matmul_1 _ _ r n SA' Sx').
  assert (K2 : forall p : arr operand, keeps_mode (amapM entry_itv p)).
  { intro p. unfold amapM. apply keeps_bind; [apply keeps_mapM; apply keeps_entry|]. intro. apply keeps_ret. }
  split.
  { unfold mat_vec. apply keeps_bind; [exact K|]. intro p. now apply keeps_lift_arr. }
  assert (OK : product_ok (op_arr A) (amap ONum x)).
  { split; [now apply op_arr_wf|]. split; [now apply amap_wf|]. split; [|split].
    - cbn [op_arr amap adata]. rewrite Forall_map. revert GA. apply Forall_impl. intros e He. exact He.
    - cbn [amap adata]. rewrite Forall_map. revert Fx. apply Forall_impl. intros v Hv. exact Hv.
    - left. cbn [op_arr amap adata]. rewrite Forall_map. apply Forall_forall. intros e _. exact I. }
  destruct (matvec_entries (op_arr A) (amap ONum x) r n m SA' Sx' OK) as (p & Hp & Sp & Wp & E).
  assert (G : Forall (fun o => exists W, o = OItv W /\ good W) (adata p)).
  { apply all_of_indices; [exact Wp|]. rewrite Sp. intros idx Hi. inversion Hi as [|i ? t ? Hi1 Ht]; subst. inversion Ht; subst.
    destruct (E i Hi1) as (z & Hz & NZ & _). exists z. split; [exact Hz|]. now apply NZ. }
  destruct (mapM_total entry_itv (adata p) m keeps_entry) as [es Hes].
  { rewrite Forall_forall in G. intros o Ho. destruct (G o Ho) as (W & -> & _). exists W. now apply returns_ret. }
  assert (F2 := Hes). apply mapM_returns in F2; [|apply keeps_entry].
  exists (array_interval (mkarr [r] es)). split; [|split; [reflexivity|split; [|split]]].
  - unfold mat_vec. rewrite keeps_returns by exact K. exists p. split; [exact Hp|]. apply lift_returns; [apply K2|].
    exists (mkarr [r] es). split; [|reflexivity]. unfold amapM. rewrite keeps_returns by (apply keeps_mapM; apply keeps_entry).
    exists es. split; [exact Hes|]. apply returns_ret. now rewrite Sp.
  - unfold awf. cbn [adat array_interval adata ashape]. rewrite <- (Forall2_len _ _ _ F2). rewrite Wp, Sp. reflexivity.
  - cbn [adat array_interval adata]. clear -F2 G. induction F2 as [|o e l l' H F IH]; [constructor|]. inversion G as [|? ? H1 H2]; subst.
    constructor; [|now apply IH]. destruct H1 as (W & -> & GW). apply returns_ret in H. now subst.
  - intros P HP i z Hz. cbn [adat array_interval] in Hz.
    assert (Hi : (i < r)%nat) by (eapply (aget_1_lt (mkarr [r] es)); [reflexivity | exact Hz]).
    destruct (E i Hi) as (o & Ho & NZ & Mo).
    rewrite (aget_1 _ r i Sp Hi) in Ho. destruct (Forall2_nth _ _ _ F2 i o Ho) as (e & He & Re).
    rewrite (aget_1 (mkarr [r] es) r i eq_refl Hi) in Hz. cbn [adata] in Hz. assert (e = z) by congruence. subst e.
    destruct (NZ Hn) as (W & -> & GW). apply returns_ret in Re. subst W. unfold row_value. apply Mo.
    + intros k o Hk. unfold op_arr. rewrite aget_map. destruct (aget (adat A) [i; k]) as [e|] eqn:Q; [|discriminate].
      intro H. inversion H. simpl. now apply HP.
    + intros k o Hk. rewrite aget_map. destruct (aget x [k]) as [v|]; [|discriminate]. intro H. inversion H. reflexivity.
Qed.

(** ** The rows *)
Section Rows.
Variables (g : itv -> M flt) (Kg : forall e, keeps_mode (g e)).
Variable (m : rmode).
Hypothesis Tg : forall e, good e -> exists f, returns (g e) m f.
Definition gnum (e : itv) : M pynum := v <- g e ;; mret (PFlt v).
Lemma rows r n A b x w T : system r n A b x -> awf w -> ashape w = [r] ->
  (forall e, In e (adata (adat b)) -> exists c q, mid_rad m e c q) ->
  returns (q <- arr_rad b ;; c <- arr_mid b ;; Ax <- mat_vec A x ;;
           D <- np_arr_right OpSub (amap ONum c) Ax ;; h <- vectorize_num gnum (adat D) ;;
           d <- np_sub q h ;; np_mul w d) m T ->
  ashape T = [r] /\ awf T /\ forall i, (i < r)%nat -> exists e vc vr D gv wi d ti,
    aget (adat b) [i] = Some e /\ returns (mid e) m vc /\ returns (rad e) m vr /\ good D /\
    (forall P, in_matrix A P -> member_or_nan D (num_val vc - row_value n P x i)) /\
    returns (g D) m gv /\ aget w [i] = Some wi /\ returns (sub_ vr (PFlt gv)) m d /\ returns (mul_ wi d) m ti /\ aget T [i] = Some ti.
Proof.
  intros SY Ww Sw MR H.
  destruct (mat_vec_spec r n A b x m SY) as (KA & Z & HZ & SZ & WZ & GZ & EZ).
  destruct SY as (Hn & [CA WA] & SA & GA & [Cb Wb] & Sb & Fb & Wx & Sx & Fx). rewrite Cb in Sb.
  assert (K1 : forall e, keeps_mode (gnum e)) by (intro e; apply keeps_bind; [apply Kg | intro; apply keeps_ret]).
  unfold arr_rad in H. rewrite keeps_returns in H by (apply keeps_vectorize_num, keeps_rad). destruct H as (q & Hq & H).
  unfold arr_mid in H. rewrite keeps_returns in H by (apply keeps_vectorize_num, keeps_mid). destruct H as (c & Hc & H).
  rewrite keeps_returns in H by exact KA. destruct H as (Z' & HZ' & H). rewrite (ret_det _ _ _ _ HZ' HZ) in *. clear Z' HZ'.
  assert (KL : forall c0, keeps_mode (np_arr_right OpSub c0 Z)).
  { intro c0. unfold np_arr_right, arr_ufunc. apply keeps_lift_arr, keeps_binop_arr, keeps_py_op. }
  rewrite keeps_returns in H by apply KL. destruct H as (D & HD & H).
  rewrite keeps_returns in H by now apply keeps_vectorize_num. destruct H as (h & Hh & H).
  assert (Ks : forall p p', keeps_mode (sub_ p p')) by (intros; apply keeps_prim).
  assert (Km : forall p p', keeps_mode (mul_ p p')) by (intros; apply keeps_prim).
  rewrite keeps_returns in H by (apply keeps_binop_arr, Ks). destruct H as (d & Hd & H).
  (* b is not empty *)
  destruct (Nat.eq_dec r 0) as [R0|R0].
  { exfalso. assert (L : adata (adat b) = []) by (apply length_zero_iff_nil; rewrite Wb, Sb, R0; reflexivity).
    unfold returns, outcome, vectorize_num, vectorize, mbind in Hq. rewrite L in Hq. discriminate. }
  assert (Nb : adata (adat b) <> []) by (intro L; apply (f_equal (@length itv)) in L; rewrite Wb, Sb in L; simpl in L; lia).
  destruct (double_fun_exact rad b m keeps_rad (fun e v => rad_double e m v) Nb) as (q' & Hq' & Sq & Fq).
  { intros e He. destruct (MR e He) as (? & ? & vc & vr & _ & R & _). eauto. }
  rewrite (ret_det _ _ _ _ Hq Hq') in *. clear q Hq.
  destruct (double_fun_exact mid b m keeps_mid (fun e v => mid_double e m v) Nb) as (c' & Hc' & Sc & Fc).
  { intros e He. destruct (MR e He) as (? & ? & vc & vr & R & _). eauto. }
  rewrite (ret_det _ _ _ _ Hc Hc') in *. clear c Hc.
  rewrite Sb in Sq, Sc.
  assert (Wc : awf c') by (unfold awf; rewrite Sc, <- (Forall2_len _ _ _ Fc), Wb, Sb; reflexivity).
  assert (Gc : Forall num_operand (adata (amap ONum c'))).
  { cbn [amap adata]. rewrite Forall_map. rewrite Forall_forall. intros v Hv. apply In_nth_error in Hv. destruct Hv as [k Hk].
    assert (Lk : (k < length (adata (adat b)))%nat) by (rewrite (Forall2_len _ _ _ Fc); apply nth_error_Some; congruence).
    destruct (nth_error (adata (adat b)) k) as [e|] eqn:Ek; [|apply nth_error_None in Ek; lia].
    destruct (Forall2_nth _ _ _ Fc k e Ek) as (v' & Hv' & Rv). assert (v' = v) by congruence. subst v'.
    destruct (MR e (nth_error_In _ _ Ek)) as (? & ? & vc & vr & R & _ & F & _). rewrite (ret_det _ _ _ _ Rv R).
    destruct (mid_double _ _ _ R) as [f ->]. split; [exact I | exact F]. }
  unfold np_arr_right, arr_ufunc in HD. apply lift_returns in HD; [|apply keeps_binop_arr, keeps_py_op]. destruct HD as (D' & HD & ->).
  assert (GcF := Gc). rewrite Forall_forall in GcF. assert (GZF := GZ). rewrite Forall_forall in GZF.
  destruct (binop_reads (py_op OpSub) _ _ m D' (keeps_py_op OpSub) HD) as (s & Hs & SD & WD & PD0).
  assert (PD : forall idx, in_bounds s idx -> exists bb e cc, reads (amap ONum c') idx bb /\ reads (adat Z) idx e /\ aget D' idx = Some cc /\ good cc /\
    (nan_itv e -> nan_itv cc) /\ forall v u, in_operand bb v -> member e u -> member_or_nan cc (v - u)).
  { intros idx Hi. destruct (PD0 idx Hi) as (bb & e' & cc & Hb & He & Hcc & Gt). apply op_arr_reads in He. destruct He as (e & -> & He).
    exists bb, e, cc. split; [assumption|]. split; [assumption|]. split; [assumption|].
    assert (Gb := GcF _ (reads_in _ _ _ Hb)). destruct bb as [nb|]; [|contradiction]. destruct Gb as [Sn Fn].
    assert (Ge := GZF _ (reads_in _ _ _ He)).
    destruct (py_op_num_left OpSub nb e m cc Ge Sn Fn Hcc) as [Gcc W]. split; [assumption|].
    destruct (py_op_num_l OpSub e nb m cc Ge Sn Fn Hcc) as (_ & _ & [W1 _]). split; [exact W1|].
    intros v u -> Hu. exact (proj1 (W u Hu)). }
  cbn [amap ashape op_arr] in Hs. rewrite Sc, SZ in Hs. apply shape_1 in Hs. rewrite Hs in *. clear s Hs.
  cbn [adat array_interval] in *.
  assert (GD : Forall good (adata D')).
  { apply all_of_indices; [exact WD|]. rewrite SD. intros idx Hi. destruct (PD idx Hi) as (? & ? & cc & _ & _ & Gt & Gg & _). eauto. }
  assert (ND : adata (adat (array_interval D')) <> []) by (cbn [adat array_interval]; intro L; apply (f_equal (@length itv)) in L; rewrite WD, SD in L; simpl in L; lia).
  destruct (double_fun_exact gnum (array_interval D') m K1) as (h' & Hh' & Sh & Fh); auto.
  { intros e v Hv. destruct (flt_double (g e) m v (Kg e) Hv) as (f & -> & _). now exists f. }
  { intros e He. rewrite Forall_forall in GD. destruct (Tg e (GD e He)) as [f Hf]. exists (PFlt f). unfold gnum. rewrite keeps_returns by apply Kg.
    exists f. split; [exact Hf|]. now apply returns_ret. }
  cbn [adat array_interval] in Hh', Sh, Fh. rewrite (ret_det _ _ _ _ Hh Hh') in *. clear h Hh. rewrite SD in Sh.
  destruct (binop_1 sub_ q' h' m d r Ks Sq Sh Hd) as (Sd & Wd & Pd).
  destruct (binop_1 mul_ w d m T r Km Sw Sd H) as (ST & WT & PT).
  split; [exact ST|]. split; [exact WT|]. intros i Hi.
  destruct (Forall2_aget _ (adat b) q' r i Sb Sq Wb Fq Hi) as (e & vr & He & Hvr & Rr).
  destruct (Forall2_aget _ (adat b) c' r i Sb Sc Wb Fc Hi) as (e' & vc & He' & Hvc & Rc). assert (e' = e) by congruence. subst e'.
  destruct (PD [i] (ib_1 r i Hi)) as (bb & z & cc & Rb & Rz & Gcc & Ggc & Ncc & Mcc).
  apply (reads_1 _ r) in Rb; [|exact Sc|exact Hi]. rewrite aget_map, Hvc in Rb. inversion Rb; subst bb.
  apply (reads_1 _ r) in Rz; [|exact SZ|exact Hi].
  destruct (Forall2_aget _ D' h' r i SD Sh WD Fh Hi) as (c2 & hv & Hc2 & Hhv & Rh). assert (c2 = cc) by congruence. subst c2.
  destruct (flt_double (g cc) m hv (Kg cc) Rh) as (gv & -> & Rg).
  destruct (Pd i Hi) as (a1 & a2 & di & A1 & A2 & A3 & A4). assert (a1 = vr) by congruence. assert (a2 = PFlt gv) by congruence. subst a1 a2.
  destruct (PT i Hi) as (wi & d2 & ti & B1 & B2 & B3 & B4). assert (d2 = di) by congruence. subst d2.
  exists e, vc, vr, cc, gv, wi, di, ti. repeat (split; [eassumption|]). split; [|tauto].
  intros P HP. destruct (EZ P HP i z Rz) as [Nz|Mz].
  - left. now apply Ncc.
  - exact (Mcc (num_val vc) (row_value n P x i) eq_refl Mz).
Qed.
End Rows.

(** ** Signs *)
Definition tiny : R := bpow radix2 (-1074).
Lemma tiny_pos : 0 < tiny. Proof. apply bpow_gt_0. Qed.
Lemma multiple_of_tiny r : generic_format radix2 fexp r -> exists k : Z, r = IZR k * tiny.
Proof.
  intro H. apply (generic_format_FIX_FLT radix2 (-1074) 53) in H. apply FIX_format_generic in H.
  destruct H as [f Hf He]. exists (Fnum f). rewrite Hf. unfold F2R. now rewrite He.
Qed.
Lemma apart r g : generic_format radix2 fexp r -> generic_format radix2 fexp g -> r < g -> r - g <= - tiny.
Proof.
  intros Hr Hg H. destruct (multiple_of_tiny r Hr) as [k ->], (multiple_of_tiny g Hg) as [l ->]. assert (P := tiny_pos).
  assert (K : (k < l)%Z) by (apply lt_IZR; apply Rmult_lt_reg_r with tiny; assumption).
  assert (L : IZR k + 1 <= IZR l) by (rewrite <- plus_IZR; apply IZR_le; lia).
  replace (IZR k * tiny - IZR l * tiny) with ((IZR k - IZR l) * tiny) by ring. replace (- tiny) with ((-1) * tiny) by ring.
  apply Rmult_le_compat_r; lra.
Qed.
Lemma tiny_dbl : is_dbl (XFin (- tiny)).
Proof.
  apply generic_dbl.
  - apply generic_format_opp. apply generic_format_bpow. vm_compute; discriminate.
  - rewrite Rabs_Ropp, Rabs_pos_eq by (apply Rlt_le, tiny_pos). apply bpow_lt. lia.
Qed.
(** The sign of a difference of doubles is right, in every rounding mode. *)
Lemma sub_sign m r g : is_dbl (XFin r) -> is_dbl (XFin g) -> xleb (XFin 0) (xsub m (XFin r) (XFin g)) = true <-> g <= r.
Proof.
  intros Dr Dg. destruct (dbl_gen _ Dr) as [Gr _], (dbl_gen _ Dg) as [Gg _]. unfold xsub. cbn [xopp xadd]. split.
  - intro H. destruct (Rle_lt_dec g r) as [L|L]; [assumption|]. exfalso. assert (A := apart r g Gr Gg L).
    assert (B := xround_le_dbl m (r + - g) (- tiny) tiny_dbl ltac:(lra)). assert (C := xleb_trans _ _ _ H B). apply xleb_fin in C.
    assert (P := tiny_pos). lra.
  - intro H. apply xround_nn. lra.
Qed.
Lemma flt_dbl (f : flt) : is_dbl (xflt f). Proof. now exists f. Qed.
Lemma double_small v : is_double v -> small_num v. Proof. intros [f ->]. exact I. Qed.
(** [wi * d >= 0] with [wi >= 1] forces [d >= 0]. *)
Lemma mul_sign m w D : is_dbl D -> 1 <= w -> xleb (XFin 0) (xmul m (XFin w) D) = true -> xleb (XFin 0) D = true.
Proof.
  intros DD Hw H. destruct D as [| | |d].
  - exfalso. rewrite xmul_nan_r in H. discriminate.
  - exfalso. revert H. cbn [xmul]. unfold xinf_times. destruct (Rcompare_spec w 0); try lra. discriminate.
  - reflexivity.
  - cbn [xmul] in H. destruct (Rle_lt_dec 0 d) as [L|L]; [now apply xleb_fin|]. exfalso.
    assert (A := xround_mono m (w * d) d ltac:(nra)). rewrite (xround_dbl_id m d DD) in A. assert (B := xleb_trans _ _ _ H A). apply xleb_fin in B. lra.
Qed.
Lemma mul_sign_nn m w D : 0 <= w -> xleb (XFin 0) D = true -> D <> XPInf -> xleb (XFin 0) (xmul m (XFin w) D) = true.
Proof.
  intros Hw H N. destruct D as [| | |d]; try discriminate; [congruence|]. cbn [xmul]. apply xleb_fin in H. apply xround_nn. nra.
Qed.

(** ** The minimum *)
Lemma xmin2_ge a b c : xleb c a = true -> xleb c b = true -> xleb c (xmin2 a b) = true.
Proof. intros. destruct (xmin2_or a b) as [-> | ->]; assumption. Qed.
Lemma fold_min l : forall v, is_nan_num v = false -> existsb is_nan_num l = false ->
  is_nan_num (fold_left num_min2 l v) = false /\ (forall u, In u (v :: l) -> num_le (fold_left num_min2 l v) u = true) /\ In (fold_left num_min2 l v) (v :: l).
Proof.
  induction l as [|u l IH]; intros v Hv Hl.
  - cbn [fold_left]. split; [exact Hv|]. split; [|now left]. intros u [<-|[]]. rewrite num_le_x. apply xleb_refl.
    intro E. apply is_nan_num_x in E. congruence.
  - cbn [existsb] in Hl. apply orb_false_elim in Hl. destruct Hl as [Hu Hl]. cbn [fold_left].
    assert (Nv : xval v <> XNan) by (intro E; apply is_nan_num_x in E; congruence).
    assert (Nu : xval u <> XNan) by (intro E; apply is_nan_num_x in E; congruence).
    assert (N2 : is_nan_num (num_min2 v u) = false).
    { destruct (is_nan_num (num_min2 v u)) eqn:E; [|reflexivity]. exfalso. apply is_nan_num_x in E. rewrite num_min2_x in E. revert E. now apply xmin2_nnan. }
    destruct (IH (num_min2 v u) N2 Hl) as (A & B & C). split; [exact A|]. split.
    + assert (B0 := B (num_min2 v u) (or_introl eq_refl)). rewrite num_le_x in B0. intros t [<-|[<-|Ht]].
      * rewrite num_le_x. eapply xleb_trans; [exact B0|]. rewrite num_min2_x. now apply xmin2_le_l.
      * rewrite num_le_x. eapply xleb_trans; [exact B0|]. rewrite num_min2_x. now apply xmin2_le_r.
      * apply B. now right.
    + destruct C as [C|C]; [|right; now right]. rewrite <- C. unfold num_min2. destruct num_lt; [right; now left | now left].
Qed.
(** A minimum that is not NaN is at most every element, is one of them, and no
    element is NaN. *)
Lemma np_min_spec a t : np_min a = Ok t -> is_nan_num t = false ->
  In t (adata a) /\ forall u, In u (adata a) -> is_nan_num u = false /\ num_le t u = true.
Proof.
  unfold np_min. destruct (adata a) as [|v l]; [discriminate|]. destruct (existsb is_nan_num (v :: l)) eqn:E; intros H N; inversion H; subst t; [discriminate|].
  assert (E' := E). cbn [existsb] in E'. apply orb_false_elim in E'. destruct E' as [Ev El].
  destruct (fold_min l v Ev El) as (_ & B & C). split; [exact C|]. intros u Hu. split; [|now apply B].
  destruct (is_nan_num u) eqn:Q; [|reflexivity]. exfalso. assert (X : existsb is_nan_num (v :: l) = true) by (apply existsb_exists; eauto). congruence.
Qed.

(** ** Tol *)
Lemma mid_rad_num m e c q vc vr : mid_rad m e c q -> returns (mid e) m vc -> returns (rad e) m vr ->
  num_val vc = c /\ num_val vr = q /\ xval vc = XFin c /\ xval vr = XFin q /\ is_double vr.
Proof.
  intros (vc' & vr' & Rc & Rr & Fc & Fr & Ec & Er) Hc Hr. rewrite (ret_det _ _ _ _ Hc Rc), (ret_det _ _ _ _ Hr Rr).
  apply finite_num_x in Fc, Fr. rewrite Fc, Fr, Ec, Er. repeat split. exact (rad_double _ _ _ Rr).
Qed.
Lemma mag_total m e : good e -> exists f, returns (mag e) m f.
Proof. intros (_ & S & _). destruct (mag_run e m S) as (f & Hf & _). exists f. now apply ret_returns with m. Qed.
Lemma mig_total m e : good e -> exists f, returns (mig e) m f.
Proof. intros (_ & S & _). destruct (mig_run e m S) as (f & Hf & _). exists f. now apply ret_returns with m. Qed.
Lemma aget_vec_in {A} (a : arr A) i v : aget a [i] = Some v -> In v (adata a).
Proof. apply aget_in. Qed.

Lemma row_run m vr gv wi d ti q : is_double vr -> xval vr = XFin q -> small_num wi -> finite_num wi ->
  returns (sub_ vr (PFlt gv)) m d -> returns (mul_ wi d) m ti ->
  is_double d /\ xval d = xsub m (XFin q) (xflt gv) /\ xval ti = xmul m (XFin (num_val wi)) (xval d).
Proof.
  intros Dr Xq Sw1 Fw1 Rd Rm. apply finite_num_x in Fw1.
  assert (Dd : is_double d).
  { unfold returns, outcome, sub_, mprim, num_sub, arith2 in Rd. cbn [fst] in Rd. destruct Dr as [f ->]. inversion Rd. now eexists. }
  split; [exact Dd|]. split.
  - unfold returns, outcome, sub_, mprim in Rd. cbn [fst] in Rd.
    destruct (XArith.num_sub_x m vr (PFlt gv) (double_small _ Dr) I) as (d' & Hd' & _ & Xd').
    rewrite Hd' in Rd. inversion Rd; subst d'. rewrite Xd', Xq. reflexivity.
  - unfold returns, outcome, mul_, mprim in Rm. cbn [fst] in Rm. destruct (num_mul_x m wi d Sw1 (double_small _ Dd)) as (t' & Ht' & _ & Xt').
    rewrite Ht' in Rm. inversion Rm; subst t'. now rewrite Xt', Fw1.
Qed.

(** What a non-negative value means, in terms of the computed midpoints and
    radii. *)
Lemma tol_fl_balls r n A b x w m t : system r n A b x -> weights_from 1 r w ->
  (forall e, In e (adata (adat b)) -> exists c q, mid_rad m e c q) ->
  returns (tol_value_fl A b x w) m t -> num_le (PInt 0) t = true ->
  forall P, in_matrix A P -> forall i e c q, aget (adat b) [i] = Some e -> mid_rad m e c q -> Rabs (c - row_value n P x i) <= q.
Proof.
  intros SY (Ww & Sw & Fw) MR H Ht P HP i e c q He Hm.
  unfold tol_value_fl in H. unfold returns, outcome, mbind in H.
  destruct (tol_constituent_fl A b x w m) as [[T|] m'] eqn:E; [|discriminate]. cbn [fst mlift] in H.
  assert (HT : returns (tol_constituent_fl A b x w) m T) by (unfold returns, outcome; now rewrite E).
  destruct (rows mag keeps_mag m (mag_total m) r n A b x w T SY Ww Sw MR HT) as (ST & WT & RT).
  assert (Nt : is_nan_num t = false).
  { destruct (is_nan_num t) eqn:Q; [|reflexivity]. apply is_nan_num_x in Q. rewrite num_le_x, Q in Ht. destruct (xval (PInt 0)); discriminate. }
  destruct (np_min_spec T t H Nt) as [_ Min].
  assert (Hi : (i < r)%nat).
  { destruct SY as (_ & _ & _ & _ & [Cb _] & Sb & _). assert (Sb' : ashape (adat b) = [r]) by congruence. exact (aget_1_lt (adat b) r i e Sb' He). }
  destruct (RT i Hi) as (e' & vc & vr & D & gv & wi & d & ti & He' & Rc & Rr & GD & MD & Rg & Hw & Rd & Rm & HT').
  assert (e' = e) by congruence. subst e'.
  destruct (mid_rad_num m e c q vc vr Hm Rc Rr) as (Ec & Eq & Xc & Xq & Dr).
  destruct (Min ti (aget_vec_in _ _ _ HT')) as [_ Lt].
  assert (L0 : xleb (XFin 0) (xval ti) = true).
  { rewrite num_le_x in Ht, Lt. change (xval (PInt 0)) with (XFin 0) in Ht. eapply xleb_trans; eassumption. }
  rewrite Forall_forall in Fw. destruct (Fw wi (aget_vec_in _ _ _ Hw)) as (Sw1 & Fw1 & Lw1).
  destruct (row_run m vr gv wi d ti q Dr Xq Sw1 Fw1 Rd Rm) as (Dd & Xd & Xt).
  rewrite Xt in L0. apply mul_sign in L0; [|destruct Dd as [f ->]; apply flt_dbl | exact Lw1]. rewrite Xd in L0.
  destruct GD as (_ & SD & GD).
  destruct (mag_run D m SD) as (gv' & Hg & Xg). rewrite (ret_det _ _ _ _ Rg (ret_returns _ _ _ _ Hg)) in *.
  destruct (MD P HP) as [ND|MDm].
  - exfalso. destruct ND as [N1 N2]. apply is_nan_num_x in N1, N2. unfold xmag in Xg. rewrite N1, N2 in Xg. cbn in Xg. rewrite Xg in L0. discriminate.
  - apply xmag_high in MDm. rewrite <- Xg in MDm. rewrite Ec in MDm.
    destruct (xflt gv') as [| | |gr] eqn:G; [contradiction|contradiction|discriminate|].
    apply sub_sign in L0; [cbn [R_xle] in MDm; lra | destruct Dr as [f ->]; rewrite <- Xq; apply flt_dbl | rewrite <- G; apply flt_dbl].
Qed.

(** What a negative value means. *)
Lemma uni_fl_balls r n A b x w m t : system r n A b x -> weights_from 0 r w ->
  (forall e, In e (adata (adat b)) -> exists c q, mid_rad m e c q) ->
  returns (uni_value_fl A b x w) m t -> num_lt t (PInt 0) = true ->
  forall P, in_matrix A P -> exists i e c q, aget (adat b) [i] = Some e /\ mid_rad m e c q /\ q < Rabs (c - row_value n P x i).
Proof.
  intros SY (Ww & Sw & Fw) MR H Ht P HP.
  unfold uni_value_fl in H. unfold returns, outcome, mbind in H.
  destruct (uni_constituent_fl A b x w m) as [[T|] m'] eqn:E; [|discriminate]. cbn [fst mlift] in H.
  assert (HT : returns (uni_constituent_fl A b x w) m T) by (unfold returns, outcome; now rewrite E).
  destruct (rows mig keeps_mig m (mig_total m) r n A b x w T SY Ww Sw MR HT) as (ST & WT & RT).
  assert (Nt : is_nan_num t = false).
  { destruct (is_nan_num t) eqn:Q; [|reflexivity]. apply is_nan_num_x in Q. rewrite num_lt_x, Q in Ht. discriminate. }
  destruct (np_min_spec T t H Nt) as [It _].
  apply In_nth_error in It. destruct It as [i Hi0].
  assert (Hi : (i < r)%nat) by (assert (L : (i < length (adata T))%nat) by (apply nth_error_Some; congruence); rewrite WT, ST in L; simpl in L; lia).
  destruct (RT i Hi) as (e & vc & vr & D & gv & wi & d & ti & He & Rc & Rr & GD & MD & Rg & Hw & Rd & Rm & HT').
  assert (ti = t) by (rewrite (aget_1 T r i ST Hi) in HT'; congruence). subst ti.
  destruct (MR e (aget_vec_in _ _ _ He)) as (c & q & Hm).
  destruct (mid_rad_num m e c q vc vr Hm Rc Rr) as (Ec & Eq & Xc & Xq & Dr).
  exists i, e, c, q. split; [exact He|]. split; [exact Hm|].
  rewrite Forall_forall in Fw. destruct (Fw wi (aget_vec_in _ _ _ Hw)) as (Sw1 & Fw1 & Lw1).
  destruct (row_run m vr gv wi d t q Dr Xq Sw1 Fw1 Rd Rm) as (Dd & Xd & Xt).
  destruct (Rlt_le_dec q (Rabs (c - row_value n P x i))) as [L|L]; [assumption|]. exfalso.
  destruct GD as (_ & SD & GD).
  destruct (mig_run D m SD) as (gv' & Hg & Xg). rewrite (ret_det _ _ _ _ Rg (ret_returns _ _ _ _ Hg)) in *.
  destruct (MD P HP) as [ND|MDm].
  - destruct ND as [N1 N2]. apply is_nan_num_x in N1, N2. unfold xmig in Xg.
    assert (C0 : contains_num D (PInt 0) = false) by (unfold contains_num; rewrite num_le_x, N1; reflexivity).
    rewrite C0, N1, N2 in Xg. cbn in Xg. rewrite Xg in Xd. cbn in Xd. assert (Q : xval t = XNan) by (rewrite Xt, Xd; apply xmul_nan_r).
    apply is_nan_num_x in Q. congruence.
  - assert (M1 := xmig_low _ _ MDm). rewrite <- Xg in M1. rewrite Ec in M1.
    assert (G0 : exists gr, xflt gv' = XFin gr /\ gr <= q).
    { rewrite Xg in M1 |- *. unfold xmig in M1 |- *. destruct (contains_num D (PInt 0)).
      - exists 0. split; [reflexivity|]. assert (R0 := Rabs_pos (c - row_value n P x i)). lra.
      - destruct (xmin2_or (xabs (xval (lo D))) (xabs (xval (hi D)))) as [Q|Q]; rewrite Q in M1 |- *.
        + destruct (xval (lo D)); cbn [xabs] in M1 |- *; try contradiction; cbn [xle_R] in M1; try discriminate; try contradiction. eexists; split; [reflexivity | lra].
        + destruct (xval (hi D)); cbn [xabs] in M1 |- *; try contradiction; cbn [xle_R] in M1; try discriminate; try contradiction. eexists; split; [reflexivity | lra]. }
    destruct G0 as (gr & G & Lg). rewrite G in Xd.
    assert (Dq : is_dbl (XFin q)) by (destruct Dr as [f ->]; rewrite <- Xq; apply flt_dbl).
    assert (Dg : is_dbl (XFin gr)) by (rewrite <- G; apply flt_dbl).
    assert (S0 : xleb (XFin 0) (xval d) = true) by (rewrite Xd; now apply sub_sign).
    assert (Gp : 0 <= gr).
    { rewrite Xg in G. unfold xmig in G. destruct (contains_num D (PInt 0)); [inversion G; lra|].
      destruct (xmin2_or (xabs (xval (lo D))) (xabs (xval (hi D)))) as [Q|Q]; rewrite Q in G;
        [destruct (xval (lo D)) | destruct (xval (hi D))]; cbn [xabs] in G; inversion G; apply Rabs_pos. }
    assert (Nd : xval d <> XPInf).
    { intro Q. rewrite Xd in Q. unfold xsub in Q. cbn [xopp xadd] in Q.
      assert (B := xround_le_dbl m (q + - gr) q Dq ltac:(lra)). rewrite Q in B. discriminate. }
    assert (S1 := mul_sign_nn m (num_val wi) (xval d) Lw1 S0 Nd). rewrite <- Xt in S1. rewrite num_lt_x in Ht. change (xval (PInt 0)) with (XFin 0) in Ht.
    destruct (xval t) as [| | |tr]; try discriminate. apply xleb_fin in S1. apply xltb_fin in Ht. lra.
Qed.
