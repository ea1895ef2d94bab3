(** Neumaier on doubles: the box is the centre with Tol's constituents over row sums. *)
From Coq Require Import ZArith Reals List Bool Arith Lia Lra.
From Flocq Require Import Core IEEE754.BinarySingleNaN.
From Verif Require TrigProofs.
From Verif Require Import Base PyNum Kernel Spec Expr Arrays Construct SpecArray XReal XArith KernelProofs KernelMore KernelAlg ExprProofs ArrayProofs ArrayMore ArrayMat ConstructProofs
  RecogFl SpecRecogFl RecogFlProofs HbrFl HbrFlProofs RohnFl PssFlRest UssFlProofs RoundMode SpecNeumFl.
Import ListNotations.
Open Scope R_scope.

(** ** One times a double *)
Lemma fmul_one m (x : flt) : fmul m f1 x = x.
Proof.
  destruct x as [s|s| |s mm ee HH]; try reflexivity.
  - now destruct s.
  - now destruct s.
  - set (x := B754_finite s mm ee HH). assert (Fx : is_finite x = true) by reflexivity.
    assert (X := fmul_x m f1 x). rewrite TrigProofs.xf1, (proj1 (is_finite_x x) Fx) in X. unfold xmul in X. rewrite Rmult_1_l in X.
    assert (DX : is_dbl (XFin (B2R x))) by (rewrite <- (proj1 (is_finite_x x) Fx); apply flt_dbl). rewrite (xround_dbl_id m _ DX) in X.
    assert (NZ : B2R x <> 0) by (destruct s; [apply Rlt_not_eq, F2R_lt_0 | apply Rgt_not_eq, F2R_gt_0]; reflexivity).
    destruct (fmul m f1 x) as [s'|s'| |s' m' e' H'] eqn:E.
    + cbn [xflt] in X. injection X as X'. exfalso. apply NZ. symmetry. exact X'.
    + destruct s'; discriminate X.
    + discriminate X.
    + apply (B2R_inj 53 1024); [reflexivity | reflexivity |]. cbn [xflt] in X. injection X as X'. exact X'.
Qed.

(** ** The hull around the centre *)
Lemma hull_run (c q : flt) m e : is_finite c = true -> is_finite q = true ->
  returns (z <- rmul_any (mkitv Classical (PInt (-1)) (PInt 1)) (ONum (PFlt q)) ;; radd z (PFlt c)) m e ->
  double_hull (B2R c) (Rabs (B2R q)) e.
Proof.
  intros Fc Fq H.
  set (U := mkitv Classical (PInt (-1)) (PInt 1)) in *.
  assert (SU : small_itv U) by (split; cbn; lia).
  destruct (gives_returns _ _ _ _ _ (rmul_gives U (PFlt q) m SU I eq_refl)) as (z & Hz & Kz & Lz & Uz & Sz & Mz).
  assert (XQ := proj1 (is_finite_x q) Fq). assert (XC := proj1 (is_finite_x c) Fc).
  assert (DQ : is_dbl (XFin (B2R q))) by (rewrite <- XQ; apply flt_dbl).
  assert (DN : is_dbl (XFin (- B2R q))) by (change (XFin (- B2R q)) with (xopp (XFin (B2R q))); rewrite <- XQ, <- xflt_neg; apply flt_dbl).
  cbn [xval lo hi U] in Lz, Uz. rewrite XQ in Lz, Uz. unfold xmul in Lz, Uz. rewrite Rmult_1_r in Lz, Uz.
  replace (B2R q * -1) with (- B2R q) in Lz, Uz by lra. rewrite (xround_dbl_id mode_DN _ DQ), (xround_dbl_id mode_DN _ DN) in Lz. rewrite (xround_dbl_id mode_UP _ DQ), (xround_dbl_id mode_UP _ DN) in Uz.
  assert (LZ : xval (lo z) = XFin (- Rabs (B2R q))).
  { rewrite Lz. unfold xmin2, xltb. cbn. destruct (Rcompare_spec (B2R q) (- B2R q)); f_equal; unfold Rabs; destruct (Rcase_abs (B2R q)); lra. }
  assert (UZ : xval (hi z) = XFin (Rabs (B2R q))).
  { rewrite Uz. unfold xmax2, xltb. cbn. destruct (Rcompare_spec (- B2R q) (B2R q)); f_equal; unfold Rabs; destruct (Rcase_abs (B2R q)); lra. }
  destruct (gives_returns _ _ _ _ _ (radd_gives z (PFlt c) m Sz I)) as (e' & He' & _ & Le & Ue & _ & _).
  cbn [xval] in Le, Ue. rewrite LZ, XC in Le. rewrite UZ, XC in Ue. cbn [xadd] in Le, Ue.
  assert (EE : e = e').
  { apply (ret_det _ m e e' H). unfold returns, outcome, mbind. cbn [rmul_any]. unfold returns, outcome in Hz, He'.
    destruct (rmul U (PFlt q) m) as [[z'|] m1]; [|discriminate]. cbn [fst snd] in *. inversion Hz. subst. exact He'. }
  subst e'. split.
  - intros x Hx. apply member_x. rewrite Le, Ue. unfold Rabs in Hx at 1. destruct (Rcase_abs (x - B2R c)).
    + split; [eapply xle_R_trans; [apply xround_DN_le | lra] | eapply R_xle_trans; [apply xround_UP_ge|]; pose proof (Rabs_pos (B2R q)); lra].
    + split; [eapply xle_R_trans; [apply xround_DN_le |]; pose proof (Rabs_pos (B2R q)); lra | eapply R_xle_trans; [apply xround_UP_ge|]; lra].
  - intros g Fg. assert (XG := proj1 (is_finite_x g) Fg). assert (DG : is_dbl (XFin (B2R g))) by (rewrite <- XG; apply flt_dbl). split; intros Hg x Hx; apply member_x in Hx; destruct Hx as [Hl Hh].
    + rewrite Le in Hl. assert (Q := xround_DN_greatest (XFin (B2R g)) (- Rabs (B2R q) + B2R c) DG). cbn [xle_R] in Q.
      exact (xleb_xle_R _ _ _ (Q ltac:(lra)) Hl).
    + rewrite Ue in Hh. assert (Q := xround_UP_least (XFin (B2R g)) (Rabs (B2R q) + B2R c) DG). cbn [R_xle] in Q.
      exact (R_xle_xleb _ _ _ Hh (Q ltac:(lra))).
Qed.

(** ** Reading the run *)
Lemma vnum_inv {A} (f : A -> M pynum) a m Z : (forall e, keeps_mode (f e)) -> (forall e v, returns (f e) m v -> is_double v) ->
  returns (vectorize_num f a) m Z -> adata a <> [] /\ ashape Z = ashape a /\ Forall2 (fun e v => returns (f e) m v) (adata a) (adata Z).
Proof.
  intros K D H. assert (N : adata a <> []).
  { intro N. unfold vectorize_num, vectorize in H. rewrite N in H. discriminate H. }
  assert (H0 := H). unfold vectorize_num in H. rewrite keeps_returns in H by (apply keeps_vectorize; exact K). destruct H as (r & Hr & _).
  unfold vectorize in Hr. assert (Hr' : returns (amapM f a) m r) by (destruct (adata a); [congruence | exact Hr]). clear Hr.
  unfold amapM in Hr'. rewrite keeps_returns in Hr' by (apply keeps_mapM; exact K). destruct Hr' as (vs & Hvs & _).
  apply mapM_returns in Hvs; [|exact K].
  assert (E : returns (vectorize_num f a) m (mkarr (ashape a) vs)).
  { apply vectorize_num_exact; [exact K | exact Hvs | |].
    - left. clear -Hvs D. induction Hvs; constructor; eauto.
    - intros ->. inversion Hvs. congruence. }
  rewrite (ret_det _ _ _ _ H0 E). split; [exact N|]. split; [reflexivity | exact Hvs].
Qed.
Lemma f_of_inv a m y : (forall v, In v (adata a) -> is_double v) -> returns (f_of a) m y -> a = amap PFlt y.
Proof.
  intros D H. unfold f_of, amapM in H. rewrite keeps_returns in H by (apply keeps_mapM; intro; apply keeps_lift). destruct H as (l & Hl & H). apply returns_ret in H. subst y.
  apply mapM_returns in Hl; [|intro; apply keeps_lift]. unfold amap. cbn [ashape adata]. destruct a as [s vs]. cbn [ashape adata] in *. f_equal.
  clear s. induction Hl as [|v f vs l H1 Hl IH]; [reflexivity|]. cbn [map]. rewrite <- IH by (intros; apply D; now right). f_equal.
  destruct (D v (or_introl eq_refl)) as [g ->]. unfold returns, outcome, mlift in H1. cbn in H1. congruence.
Qed.
Lemma F2_doubles {A} (f : A -> M pynum) m l vs : (forall e v, returns (f e) m v -> is_double v) -> Forall2 (fun e v => returns (f e) m v) l vs -> forall v, In v vs -> is_double v.
Proof. intros D F. induction F; intros w Hw; [destruct Hw | destruct Hw as [<-|Hw]; eauto]. Qed.
(** A vector of numbers computed entry by entry, as doubles. *)
Lemma vnum_floats {A} (f : A -> M pynum) (a : arr A) m Z y : (forall e, keeps_mode (f e)) -> (forall e v, returns (f e) m v -> is_double v) -> awf a ->
  returns (vectorize_num f a) m Z -> returns (f_of Z) m y ->
  Z = amap PFlt y /\ ashape y = ashape a /\ awf y /\ forall idx e, aget a idx = Some e -> exists g, aget y idx = Some g /\ returns (f e) m (PFlt g).
Proof.
  intros K D W HZ Hy. destruct (vnum_inv f a m Z K D HZ) as (N & SZ & F). assert (E := f_of_inv Z m y (F2_doubles f m _ _ D F) Hy).
  assert (S : ashape y = ashape a) by (rewrite <- SZ, E; reflexivity).
  split; [exact E|]. split; [exact S|]. split.
  - unfold awf in *. rewrite S, <- W. rewrite (Forall2_len _ _ _ F), E. cbn [amap adata]. now rewrite map_length.
  - intros idx e He. destruct (aget_F2 _ a Z idx e SZ F He) as (v & Hv & Rv). rewrite E, aget_map in Hv. destruct (aget y idx) as [g|]; [|discriminate].
    exists g. split; [reflexivity|]. cbn in Hv. congruence.
Qed.
Lemma mag_double e m v : returns (g <- mag e ;; mret (PFlt g)) m v -> is_double v.
Proof. intro H. destruct (flt_double (mag e) m v (keeps_mag e) H) as (f & -> & _). now exists f. Qed.
Lemma keeps_magnum e : keeps_mode (g <- mag e ;; mret (PFlt g)).
Proof. apply keeps_bind; [apply keeps_mag | intro; apply keeps_ret]. Qed.
Lemma mag_of e m g : returns (g <- mag e ;; mret (PFlt g)) m (PFlt g) -> returns (mag e) m g.
Proof. intro H. destruct (flt_double (mag e) m _ (keeps_mag e) H) as (f & E & R). inversion E. subst. exact R. Qed.

Lemma reads_row {A} (a : arr A) r j v : ashape a = [r] -> reads a [j] v -> aget a [if (r =? 1)%nat then 0%nat else j] = Some v.
Proof.
  intros S (idx & [L I] & H). rewrite S in L, I. destruct idx as [|i [|]]; try discriminate L. specialize (I 0%nat ltac:(cbn; lia)). cbn in I. now rewrite I in H.
Qed.
Lemma shape_row n r s : (0 < r)%nat -> r = n \/ r = 1%nat -> broadcast_shape [n] [r] s -> s = [n].
Proof.
  intros P C [L H]. cbn in L. destruct s as [|c [|]]; try discriminate L. specialize (H 0%nat ltac:(cbn; lia)). cbn in H. destruct H as [H|H]; destruct H as [H1 H2]; [now rewrite H1|]. destruct C as [C|C]; [now rewrite <- H1, C | rewrite <- H1, C, <- H2; reflexivity].
Qed.

(** numpy's elementwise operations on doubles, seen as numbers. *)
Lemma as_numbers (op : pynum -> pynum -> M pynum) (f : rmode -> flt -> flt -> flt) x y m z :
  (forall a b, op (PFlt a) (PFlt b) = mprim (fun m => Ok (PFlt (f m a b)))) ->
  returns (f_bin f x y) m z -> returns (binop_arr op (amap PFlt x) (amap PFlt y)) m (amap PFlt z).
Proof.
  intros E H. unfold f_bin, binop_arr in *. cbn [amap ashape]. destruct (bcast (ashape x) (ashape y)) as [s|]; [|discriminate H].
  apply bind_ret in H. destruct H as (l & Hl & ->).
  match type of Hl with returns (mapM ?h _) _ _ => assert (K1 : forall idx, keeps_mode (h idx)) by (intro idx; destruct (bget x idx), (bget y idx); try apply keeps_raise; apply f_op_keeps) end.
  match goal with |- returns (mbind (mapM ?h _) _) _ _ => set (body := h) end.
  assert (EB : forall idx f0, returns (match bget x idx, bget y idx with Some a, Some b => f_op f a b | _, _ => mraise IndexError end) m f0 -> returns (body idx) m (PFlt f0)).
  { intros idx f0 H. unfold body, bget in *. cbn [amap ashape]. rewrite !aget_map. destruct (aget x (bidx (ashape x) idx)) as [a|]; [|discriminate H].
    destruct (aget y (bidx (ashape y) idx)) as [b|]; [|discriminate H]. cbn. rewrite E. unfold f_op in H. unfold returns, outcome, mprim in *. cbn in *. congruence. }
  assert (K2 : forall idx, keeps_mode (body idx)).
  { intro idx. unfold body, bget. cbn [amap ashape]. rewrite !aget_map. destruct (aget x (bidx (ashape x) idx)) as [a|]; [|apply keeps_raise].
    destruct (aget y (bidx (ashape y) idx)) as [b|]; [|apply keeps_raise]. cbn. rewrite E. apply keeps_prim. }
  rewrite keeps_returns by (apply keeps_mapM, K2). exists (map PFlt l). split; [|apply returns_ret; reflexivity].
  apply mapM_returns; [exact K2|]. apply mapM_returns in Hl; [|exact K1]. clear -Hl EB. induction Hl; constructor; auto.
Qed.

Lemma neumaier_parts fsum r n A b y m d : consistent A -> consistent b -> shp A = [r; n] -> shp b = [r] -> awf y -> ashape y = [n] -> r = n \/ r = 1%nat ->
  returns (neumaier_fl fsum A b y) m d ->
  exists T, returns (tol_constituent_fl A b (amap PFlt y) (np_ones r)) m T /\ ashape d = [n] /\
    forall j, (j < n)%nat -> let i := if (r =? 1)%nat then 0%nat else j in
      exists t c l e, aget T [i] = Some (PFlt t) /\ magnitudes m A i n l /\ aget y [j] = Some c /\ aget d [j] = Some e /\
        returns (z <- rmul_any (mkitv Classical (PInt (-1)) (PInt 1)) (ONum (PFlt (fdiv m t (fsum l)))) ;; radd z (PFlt c)) m e.
Proof.
  intros [CA WA] [Cb Wb] SA Sb Wy Sy RN H. unfold neumaier_fl in H. rewrite SA, Sb, Sy, !Nat.eqb_refl in H. cbn [andb negb] in H.
  rewrite CA in SA. rewrite Cb in Sb.
  unfold arr_rad in H. rewrite keeps_returns in H by (apply keeps_vectorize_num, keeps_rad). destruct H as (t0 & Ht0 & H).
  rewrite keeps_returns in H by apply keeps_f_of. destruct H as (t & Ht & H).
  unfold arr_mid in H. rewrite keeps_returns in H by (apply keeps_vectorize_num, keeps_mid). destruct H as (c & Hc & H).
  rewrite keeps_returns in H by apply keeps_matmul. destruct H as (p & Hp & H).
  assert (KE : keeps_mode (lift_arr (amapM entry_itv p))).
  { apply keeps_lift_arr. unfold amapM. apply keeps_bind; [apply keeps_mapM, keeps_entry | intro; apply keeps_ret]. }
  rewrite keeps_returns in H by exact KE. destruct H as (w & Hw & H).
  assert (KD : keeps_mode (np_arr_right OpSub (amap ONum c) w)) by (unfold np_arr_right, arr_ufunc; apply keeps_lift_arr, keeps_binop_arr, keeps_py_op).
  rewrite keeps_returns in H by exact KD. destruct H as (D & HD & H).
  unfold arr_mag at 1 in H. rewrite keeps_returns in H by (apply keeps_vectorize_num, keeps_magnum). destruct H as (g0 & Hg0 & H).
  rewrite keeps_returns in H by apply keeps_f_of. destruct H as (g & Hg & H).
  unfold arr_mag at 1 in H. rewrite keeps_returns in H by (apply keeps_vectorize_num, keeps_magnum). destruct H as (a0 & Ha0 & H).
  rewrite keeps_returns in H by apply keeps_f_of. destruct H as (a & Ha & H).
  rewrite keeps_returns in H by (apply keeps_binop_arr, f_op_keeps). destruct H as (e & He & H).
  rewrite keeps_returns in H by (apply keeps_binop_arr, f_op_keeps). destruct H as (q & Hq & H).
  rewrite keeps_returns in H by (apply keeps_binop_arr, f_op_keeps). destruct H as (s & Hs & H).
  rewrite keeps_returns in H by (apply keeps_vectorize; intro; cbn [rmul_any]; apply keeps_rmul). destruct H as (z & Hz & H).
  (* the numbers *)
  destruct (vnum_floats rad (adat b) m t0 t keeps_rad (fun e v => rad_double e m v) Wb Ht0 Ht) as (Et & St & Wt & _).
  assert (WD : awf (adat D)).
  { unfold np_arr_right, arr_ufunc in HD. apply lift_returns in HD; [|apply keeps_binop_arr, keeps_py_op]. destruct HD as (D' & HD & ->).
    destruct (binop_reads (py_op OpSub) _ _ m D' (keeps_py_op OpSub) HD) as (sh & _ & _ & W & _). exact W. }
  destruct (vnum_floats _ (adat D) m g0 g keeps_magnum (fun e v => mag_double e m v) WD Hg0 Hg) as (Eg & Sg & Wg & _).
  destruct (vnum_floats _ (adat A) m a0 a keeps_magnum (fun e v => mag_double e m v) WA Ha0 Ha) as (_ & Sa & Wa & Pa).
  rewrite Sb in St. rewrite SA in Sa.
  assert (R0 : (0 < r)%nat).
  { destruct (vnum_inv rad (adat b) m t0 keeps_rad (fun e v => rad_double e m v) Ht0) as (N & _). destruct r; [|lia]. exfalso. apply N. apply length_zero_iff_nil. rewrite Wb, Sb. reflexivity. }
  assert (Sp : ashape p = [r]).
  { unfold matmul in Hp. unfold op_arr, itv_mat in Hp. cbn [ashape amap] in Hp. rewrite SA, Sy, Nat.eqb_refl in Hp.
    apply bind_ret in Hp. destruct Hp as (l & _ & ->). reflexivity. }
  assert (Sw : ashape (adat w) = [r]).
  { apply lift_returns in Hw; [|unfold amapM; apply keeps_bind; [apply keeps_mapM, keeps_entry | intro; apply keeps_ret]]. destruct Hw as (w' & Hw & ->).
    unfold amapM in Hw. apply bind_ret in Hw. destruct Hw as (l & _ & ->). exact Sp. }
  assert (Sc : ashape c = [r]).
  { destruct (vnum_inv mid (adat b) m c keeps_mid (fun e v => mid_double e m v) Hc) as (_ & S & _). congruence. }
  assert (SD : ashape (adat D) = [r]).
  { assert (HD' := HD). unfold np_arr_right, arr_ufunc in HD'. apply lift_returns in HD'; [|apply keeps_binop_arr, keeps_py_op]. destruct HD' as (D' & HD' & ->).
    destruct (binop_reads (py_op OpSub) _ _ m D' (keeps_py_op OpSub) HD') as (sh & Bs & S & _). cbn [adat array_interval]. rewrite S.
    cbn [amap ashape op_arr] in Bs. rewrite Sc, Sw in Bs. now apply shape_1 in Bs. }
  rewrite SD in Sg.
  destruct (binop_1 (f_op fsub) t g m e r (f_op_keeps fsub) St Sg He) as (Se & We & Pe).
  destruct (binop_1 (f_op fdiv) e (row_sums fsum r n a) m q r (f_op_keeps fdiv) Se eq_refl Hq) as (Sq & Wq & Pq).
  destruct (binop_reads (f_op fmul) (f_ones n) q m s (f_op_keeps fmul) Hs) as (sh & Bs & Ss & Ws & Ps).
  cbn [f_ones ashape] in Bs. rewrite Sq in Bs. apply shape_row in Bs; [|exact R0 | exact RN]. rewrite Bs in Ss, Ps. clear sh Bs.
  assert (KR : forall f, keeps_mode (rmul_any (mkitv Classical (PInt (-1)) (PInt 1)) (ONum (PFlt f)))) by (intro; cbn [rmul_any]; apply keeps_rmul).
  assert (Hz' : ashape z = ashape s /\ Forall2 (fun f v => returns (rmul_any (mkitv Classical (PInt (-1)) (PInt 1)) (ONum (PFlt f))) m v) (adata s) (adata z)).
  { unfold vectorize in Hz. destruct (adata s) eqn:E; [discriminate Hz|]. rewrite <- E. unfold amapM in Hz. apply bind_ret in Hz. destruct Hz as (l' & Hl' & ->). cbn [ashape adata].
    split; [reflexivity|]. apply mapM_returns in Hl'; [exact Hl' | exact KR]. }
  destruct Hz' as [Sz Fz].
  assert (Sz1 : ashape z = [n]) by congruence.
  destruct (binop_1 (fun f e => radd e (PFlt f)) y z m d n (fun f e => keeps_radd e (PFlt f)) Sy Sz1 H) as (Sd & Wd & Pd).
  (* Tol *)
  destruct (binop_arr_total (f_op fmul) (f_op_keeps fmul) (f_ones r) e [r] m) as [u Hu].
  { unfold awf. cbn [f_ones ashape adata]. rewrite repeat_length. cbn. lia. }
  { exact We. }
  { cbn [f_ones ashape]. rewrite Se. apply bcast_same. }
  { intros. now eexists. }
  assert (Sones : ashape (f_ones r) = [r]) by reflexivity.
  destruct (binop_1 (f_op fmul) (f_ones r) e m u r (f_op_keeps fmul) Sones Se Hu) as (Su & Wu & Pu).
  exists (amap PFlt u). split; [|split; [exact Sd|]].
  - unfold tol_constituent_fl, arr_rad, arr_mid, arr_mag. rewrite keeps_returns by (apply keeps_vectorize_num, keeps_rad). exists t0. split; [exact Ht0|].
    rewrite keeps_returns by (apply keeps_vectorize_num, keeps_mid). exists c. split; [exact Hc|].
    assert (KM : keeps_mode (mat_vec A (amap PFlt y))).
    { unfold mat_vec. apply keeps_bind; [apply keeps_matmul|]. intro. apply keeps_lift_arr. unfold amapM. apply keeps_bind; [apply keeps_mapM, keeps_entry | intro; apply keeps_ret]. }
    rewrite keeps_returns by exact KM. exists w. split.
    { unfold mat_vec. assert (EM : amap ONum (amap PFlt y) = itv_mat y) by (unfold itv_mat, amap; cbn [ashape adata]; now rewrite map_map).
      rewrite EM, keeps_returns by apply keeps_matmul. exists p. split; [exact Hp | exact Hw]. }
    rewrite keeps_returns by exact KD. exists D. split; [exact HD|].
    rewrite keeps_returns by (apply keeps_vectorize_num, keeps_magnum). exists g0. split; [exact Hg0|].
    rewrite keeps_returns by (apply keeps_binop_arr; intros; apply keeps_prim). exists (amap PFlt e). split.
    + rewrite Et, Eg. apply (as_numbers sub_ fsub); [reflexivity | exact He].
    + assert (EO : np_ones r = amap PFlt (f_ones r)).
      { unfold np_ones, f_ones, amap. cbn [ashape adata]. f_equal. clear. induction r; [reflexivity|]. cbn [repeat map]. f_equal. exact IHr. }
      rewrite EO. apply (as_numbers mul_ fmul); [reflexivity | exact Hu].
  - intros j Hj i. assert (Hi : (i < r)%nat) by (unfold i; destruct (Nat.eqb_spec r 1); [lia | destruct RN; lia]).
    destruct (Pe i Hi) as (ti & gi & ei & _ & _ & Ei & _).
    destruct (Pu i Hi) as (o & e1 & ui & Oi & E1 & Ui & Ru).
    destruct (Pq i Hi) as (e2 & si & qi & E2 & Si & Qi & Rq). assert (e1 = e2) by congruence. subst e2.
    assert (o = f1). { apply aget_vec_in in Oi. cbn [f_ones adata] in Oi. now apply repeat_spec in Oi. } subst o.
    assert (ui = e1). { change (Ok (fmul m f1 e1) = Ok ui) in Ru. rewrite fmul_one in Ru. congruence. } subst ui.
    destruct (Ps [j] (ib_1 n j Hj)) as (o & q2 & sj & Ro & Rq2 & Rs & Sj).
    apply (reads_row q r) in Rq2; [|exact Sq]. fold i in Rq2. assert (q2 = qi) by congruence. subst q2.
    apply (reads_1 _ n) in Ro; [|reflexivity | exact Hj]. assert (o = f1). { apply aget_vec_in in Ro. cbn [f_ones adata] in Ro. now apply repeat_spec in Ro. } subst o.
    assert (sj = qi). { change (Ok (fmul m f1 qi) = Ok sj) in Rs. rewrite fmul_one in Rs. congruence. } subst sj.
    destruct (Pd j Hj) as (cj & zj & dj & Cj & Zj & Dj & Rd).
    destruct (aget_F2 _ s z [j] qi (eq_trans Sz1 (eq_sym Ss)) Fz Sj) as (zj' & Zj' & Rz). assert (zj' = zj) by congruence. subst zj'.
    set (l := map (fun k => f_get a [i; k]) (seq 0 n)).
    assert (si = fsum l). { unfold row_sums in Si. rewrite (of_fun_get _ _ [i] i (flat_1 r i Hi)) in Si. cbn [nth] in Si. unfold l. congruence. } subst si.
    assert (qi = fdiv m e1 (fsum l)). { change (Ok (fdiv m e1 (fsum l)) = Ok qi) in Rq. congruence. }
    exists e1, cj, l, dj. split; [rewrite aget_map, Ui; reflexivity|]. split; [|split; [exact Cj|split; [exact Dj|]]].
    + split; [unfold l; now rewrite map_length, seq_length|]. intros k Hk.
      destruct (aget (adat A) [i; k]) as [x|] eqn:Ex.
      * exists x. split; [reflexivity|]. destruct (Pa _ _ Ex) as (gx & Gx & Rx). apply mag_of in Rx.
        replace (nth k l fnan) with gx; [exact Rx|]. unfold l. rewrite (nth_indep _ fnan (f_get a [i; 0%nat])) by (rewrite map_length, seq_length; exact Hk).
        rewrite (map_nth (fun k => f_get a [i; k]) (seq 0 n) 0%nat k), seq_nth by exact Hk. cbn [Nat.add]. unfold f_get. now rewrite Gx.
      * exfalso. assert (IB : in_bounds (ashape (adat A)) [i; k]) by (rewrite SA; constructor; [exact Hi | constructor; [exact Hk | constructor]]).
        apply in_bounds_flat in IB. destruct IB as [pos IB]. destruct (aget_some (adat A) [i; k] pos WA IB) as (x & Hx & _). congruence.
    + rewrite <- H0. rewrite keeps_returns by apply KR. exists zj. split; [exact Rz | exact Rd].
Qed.
Theorem neumaier_box fsum r n A b y m d : consistent A -> consistent b -> shp A = [r; n] -> shp b = [r] -> awf y -> ashape y = [n] -> r = n \/ r = 1%nat ->
  returns (neumaier_fl fsum A b y) m d ->
  exists T, returns (tol_constituent_fl A b (amap PFlt y) (np_ones r)) m T /\ ashape d = [n] /\
    forall j, (j < n)%nat -> let i := if (r =? 1)%nat then 0%nat else j in
      exists t c l e, aget T [i] = Some (PFlt t) /\ magnitudes m A i n l /\ aget y [j] = Some c /\ aget d [j] = Some e /\
        (is_finite c = true -> is_finite (fdiv m t (fsum l)) = true -> double_hull (B2R c) (Rabs (B2R (fdiv m t (fsum l)))) e).
Proof.
  intros CA Cb SA Sb Wy Sy RN H. destruct (neumaier_parts fsum r n A b y m d CA Cb SA Sb Wy Sy RN H) as (T & HT & Sd & P). exists T. split; [exact HT|]. split; [exact Sd|].
  intros j Hj i. destruct (P j Hj) as (t & c & l & e & Ht & Hl & Hc & He & R). exists t, c, l, e. repeat (split; [assumption|]). intros Fc Fq. exact (hull_run c _ m e Fc Fq R).
Qed.
