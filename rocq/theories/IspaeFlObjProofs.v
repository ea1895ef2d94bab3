(** What the signs of the ISPAE objectives say in binary64. *)
From Coq Require Import ZArith Reals List Bool Arith Lia Lra.
From Flocq Require Import Core IEEE754.BinarySingleNaN.
From Verif Require Models.
From Verif Require Import Base PyNum Kernel Spec Expr Arrays Construct SpecArray XReal XArith KernelProofs KernelMore KernelAlg ExprProofs ArrayProofs ArrayMore ConstructProofs KaucherProofs
  RecogFl SpecRecogFl RecogFlProofs RecogFlCor Solvers SolversProofs UssFl Ralgb5 RecogOpt RecogOptSign RecogOptRun WilsFl WilsFlProofs SpecModels IspaeFl SpecIspaeFl IspaeFlProofs IspaeFlRange IspaeFlTight IspaeFlObj SpecIspaeFlObj.
Import ListNotations.
Open Scope R_scope.

(** ** The sign of one residual *)
Lemma xle_not_nan a b : xleb a b = true -> a <> XNan /\ b <> XNan.
Proof. destruct a, b; try discriminate; split; discriminate. Qed.
Lemma xtot a b : a <> XNan -> b <> XNan -> xltb a b = false -> xleb b a = true.
Proof.
  destruct a as [| | |p], b as [| | |q]; try congruence; try reflexivity; try discriminate. intros _ _ H. apply xleb_fin. apply Rnot_lt_le. intro L. apply xltb_fin in L. congruence.
Qed.
Lemma xlt_le a b : xltb a b = true -> xleb a b = true.
Proof. destruct a as [| | |p], b as [| | |q]; try discriminate; try reflexivity. rewrite xltb_fin, xleb_fin. lra. Qed.
Lemma fm_cases a b : xflt a <> XNan -> xflt b <> XNan ->
  f_max a b = a /\ xleb (xflt b) (xflt a) = true \/ f_max a b = b /\ xleb (xflt a) (xflt b) = true.
Proof.
  intros A B. assert (A' : is_nan a = false) by (destruct (is_nan a) eqn:E; [apply is_nan_x in E; congruence | reflexivity]).
  assert (B' : is_nan b = false) by (destruct (is_nan b) eqn:E; [apply is_nan_x in E; congruence | reflexivity]).
  unfold f_max. rewrite A', B', flt_ltb_x. destruct (xltb (xflt a) (xflt b)) eqn:E; [right | left]; (split; [reflexivity|]); [now apply xlt_le | now apply xtot].
Qed.
Lemma xabs_nn x : x <> XNan -> xleb (XFin 0) (xabs x) = true.
Proof. destruct x; try congruence; try reflexivity. intros _. apply xleb_fin, Rabs_pos. Qed.
Lemma xabs_nan x : x <> XNan -> xabs x <> XNan. Proof. destruct x; congruence || discriminate. Qed.
Lemma max_le i s q : xflt i <> XNan -> xflt s <> XNan ->
  (xleb (xflt (f_max (fabs i) (fabs s))) q = true <-> xleb (xabs (xflt i)) q = true /\ xleb (xabs (xflt s)) q = true) /\
  xleb (XFin 0) (xflt (f_max (fabs i) (fabs s))) = true.
Proof.
  intros Ni Ns. assert (C := fm_cases (fabs i) (fabs s)). rewrite !xflt_abs in C. specialize (C (xabs_nan _ Ni) (xabs_nan _ Ns)).
  destruct C as [[E L]|[E L]]; rewrite E, xflt_abs; (split; [|now apply xabs_nn]); split; try tauto; intro H; (split; [|]); auto; eapply xleb_trans; eassumption.
Qed.
Lemma tol_sign w q G : is_dbl G -> is_dbl (XFin q) -> 1 <= w -> xleb (XFin 0) G = true ->
  (xleb (XFin 0) (xmul mode_NE (XFin w) (xsub mode_NE (XFin q) G)) = true <-> xleb G (XFin q) = true).
Proof.
  intros DG Dq W NG. destruct G as [| | |g]; try discriminate.
  - cbn [xsub xopp xadd xmul]. unfold xinf_times. destruct (Rcompare_spec w 0); try lra. cbn. split; discriminate.
  - assert (S := sub_sign mode_NE q g Dq DG). rewrite xleb_fin. rewrite <- S. split; intro H.
    + apply mul_sign in H; [exact H | unfold xsub; cbn [xopp xadd]; apply xround_dbl | exact W].
    + apply mul_sign_nn; [lra | exact H|]. apply S in H. apply xleb_fin in NG. unfold xsub. cbn [xopp xadd]. intro E.
      assert (Y := xround_le_dbl mode_NE (q + - g) q Dq ltac:(lra)). rewrite E in Y. discriminate.
Qed.
Lemma tol_real w q G : is_dbl G -> is_dbl (XFin q) -> 1 <= w -> xleb (XFin 0) G = true -> xmul mode_NE (XFin w) (xsub mode_NE (XFin q) G) <> XNan.
Proof.
  intros DG Dq W NG. destruct G as [| | |g]; try discriminate.
  - cbn [xsub xopp xadd xmul]. unfold xinf_times. destruct (Rcompare_spec w 0); try lra. cbn. discriminate.
  - unfold xsub. cbn [xopp xadd]. destruct (xround mode_NE (q + - g)) as [| | |d] eqn:E.
    + now apply xround_not_nan in E.
    + cbn [xmul]. unfold xinf_times. destruct (Rcompare_spec w 0); try lra. cbn. discriminate.
    + cbn [xmul]. unfold xinf_times. destruct (Rcompare_spec w 0); try lra. cbn. discriminate.
    + cbn [xmul]. apply xround_not_nan.
Qed.
(** The difference of the number and the interval: all of it within [q]. *)
Lemma ends_in c q a b i s : is_dbl (XFin q) -> a <= b -> i = xround mode_DN (c - b) -> s = xround mode_UP (c - a) ->
  (xleb (xabs i) (XFin q) = true /\ xleb (xabs s) (XFin q) = true <-> Rabs (c - a) <= q /\ Rabs (c - b) <= q).
Proof.
  intros Dq AB -> ->. assert (Dm : is_dbl (XFin (- q))).
  { destruct Dq as [f Hf]. exists (fneg f). rewrite xflt_neg, Hf. reflexivity. }
  split.
  - intros [H1 H2]. assert (L1 := xround_DN_le (c - b)). assert (L2 := xround_UP_ge (c - a)).
    destruct (xround mode_DN (c - b)) as [| | |u]; try discriminate; try contradiction. destruct (xround mode_UP (c - a)) as [| | |v]; try discriminate; try contradiction.
    cbn [xabs] in H1, H2. apply xleb_fin in H1, H2. cbn [xle_R R_xle] in L1, L2. apply Rabs_le_inv in H1, H2. split; apply Rabs_le; lra.
  - intros [H1 H2]. apply Rabs_le_inv in H1, H2.
    assert (G : forall mo t, - q <= t <= q -> xleb (xabs (xround mo t)) (XFin q) = true).
    { intros mo t [T1 T2]. assert (X := xround_le_dbl mo t q Dq T2). assert (Y := xround_ge_dbl mo t (- q) Dm T1). destruct (xround mo t) as [| | |u]; try discriminate.
      apply xleb_fin in X, Y. cbn [xabs]. apply xleb_fin. apply Rabs_le. lra. }
    split; apply G; lra.
Qed.
(** The difference avoids [-q, q] when its mignitude exceeds [q]. *)
Lemma mig_out i s q : xflt i <> XNan -> xflt s <> XNan -> 0 <= q -> xleb (xflt i) (xflt s) = true -> xltb (XFin q) (xflt (f_mig i s)) = true ->
  xltb (XFin q) (xflt i) = true \/ xltb (xflt s) (XFin (- q)) = true.
Proof.
  intros Ni Ns Q IS. unfold f_mig. rewrite flt_leb_x, fmul_x. change (xflt f0) with (XFin 0).
  destruct (xleb (xmul mode_NE (xflt i) (xflt s)) (XFin 0)) eqn:E.
  - change (xflt f0) with (XFin 0). intro H. apply xltb_fin in H. lra.
  - intro H. assert (B : xltb (XFin q) (xabs (xflt i)) = true /\ xltb (XFin q) (xabs (xflt s)) = true).
    { rewrite flt_ltb_x, !xflt_abs in H. destruct (xltb (xabs (xflt s)) (xabs (xflt i))) eqn:C; rewrite xflt_abs in H.
      - split; [|exact H]. destruct (xabs (xflt s)) as [| | |u], (xabs (xflt i)) as [| | |v]; try discriminate; try reflexivity. apply xltb_fin in H, C. apply xltb_fin. lra.
      - split; [exact H|]. apply xtot in C; [|now apply xabs_nan|now apply xabs_nan]. destruct (xabs (xflt s)) as [| | |u], (xabs (xflt i)) as [| | |v]; try discriminate; try reflexivity. apply xltb_fin in H. apply xleb_fin in C. apply xltb_fin. lra. }
    destruct B as [B1 B2]. destruct (xflt i) as [| | |u] eqn:Ei, (xflt s) as [| | |v] eqn:Es; try congruence; try discriminate; auto.
    + cbn [xabs] in B2. apply xltb_fin in B2. right. apply xltb_fin. cbn [xmul] in E. unfold xinf_times in E. destruct (Rcompare_spec v 0); cbn in E; try discriminate; [rewrite Rabs_left in B2; lra| subst v; rewrite Rabs_R0 in B2; lra].
    + cbn [xabs] in B1. apply xltb_fin in B1. left. apply xltb_fin. cbn [xmul] in E. unfold xinf_times in E. destruct (Rcompare_spec u 0); cbn in E; try discriminate; [subst u; rewrite Rabs_R0 in B1; lra | rewrite Rabs_pos_eq in B1; lra].
    + cbn [xabs] in B1, B2. apply xltb_fin in B1, B2. rewrite !xltb_fin. apply xleb_fin in IS. cbn [xmul] in E.
      destruct (Rle_lt_dec (u * v) 0) as [L|L]; [rewrite (xround_le_dbl mode_NE (u * v) 0 zero_dbl L) in E; discriminate|].
      destruct (Rle_lt_dec u 0) as [U|U].
      * right. destruct (Rle_lt_dec v 0) as [V|V]; [rewrite Rabs_left1 in B2; lra | nra].
      * left. rewrite Rabs_pos_eq in B1; lra.
Qed.

(** ** One observation *)
Lemma keeps_value roots beta cols : keeps_mode (value_fl roots beta cols).
Proof. unfold value_fl. apply keeps_bind; [apply keeps_cols | intro; apply keeps_py_sum]. Qed.
Lemma keeps_psub c V : keeps_mode (py_sub (ONum c) V).
Proof. destruct V; cbn [py_sub]; [intro; reflexivity | apply keeps_rsub]. Qed.
Lemma keeps_residual roots o beta r : keeps_mode (ispae_residual roots o beta r).
Proof.
  destruct r as [[cols y] w]. unfold ispae_residual. apply keeps_bind; [apply keeps_value|]. intro V. apply keeps_bind; [apply keeps_mid|]. intro c. apply keeps_bind; [apply keeps_rad|]. intro q.
  apply keeps_bind; [apply keeps_psub|]. intro D. apply keeps_bind; [apply keeps_lift|]. intro i. apply keeps_bind; [apply keeps_lift|]. intro s. apply keeps_bind; [apply keeps_lift|]. intro. apply keeps_ret.
Qed.
Definition picked (o : ispae_objective) (i s : flt) : flt := match o with ITol => f_max (fabs i) (fabs s) | IUni => f_mig i s end.
Lemma residual_run M delta roots o beta cols y w : 0 <= delta -> usable M delta roots beta ((cols, y), w) ->
  exists f a b c q i s, returns (ispae_residual roots o beta ((cols, y), w)) mode_NE f /\ a <= b /\
    (forall xs, in_row cols xs -> a - outer_error M delta beta cols <= model beta cols xs <= b + outer_error M delta beta cols) /\
    (exists xs, in_row cols xs /\ Rabs (model beta cols xs - a) <= inner_error M beta cols) /\
    (exists xs, in_row cols xs /\ Rabs (model beta cols xs - b) <= inner_error M beta cols) /\
    Rabs (c - (num_val (lo y) + num_val (hi y)) / 2) + Rabs (q - (num_val (hi y) - num_val (lo y)) / 2) <= rounding_margin y /\
    is_dbl (XFin q) /\ xflt i = xround mode_DN (c - b) /\ xflt s = xround mode_UP (c - a) /\
    xflt f = xmul mode_NE (XFin (B2R w)) (xsub mode_NE (XFin q) (xflt (picked o i s))).
Proof.
  intros D (T & N & HL & Sy & Py & By & Fw & Lw).
  destruct (row_outer M delta roots beta cols mode_NE D T N ltac:(lia)) as (Z & R & (_ & SZ & GZ) & _).
  destruct (row_within M delta roots beta cols mode_NE D T N HL) as (Z' & R' & _ & FZ & O1 & O2 & O3).
  assert (Q := ret_det _ _ _ _ R' R). injection Q as ->. clear R'.
  destruct (mid_rad_margin y Sy Py By) as (c & q & (vc & vr & Rc & Rr & Fc & Fr & Ec & Er) & MG).
  assert (Dr := rad_double _ _ _ Rr). assert (Dc := mid_double _ _ _ Rc). destruct Dr as [fq ->]. destruct Dc as [fc ->].
  destruct FZ as [FZ1 FZ2]. apply finite_num_x in FZ1, FZ2, Fc, Fr.
  assert (AB : num_val (lo Z) <= num_val (hi Z)).
  { destruct GZ as [[N1 _]|[r Hr]]; [apply is_nan_num_x in N1; congruence|]. apply member_x in Hr. rewrite FZ1, FZ2 in Hr. destruct Hr as [H1 H2]. cbn [xle_R R_xle] in H1, H2. lra. }
  destruct (rsub_gives Z (PFlt fc) mode_NE SZ Logic.I) as (i & s & HG & Hi & Hs).
  assert (RD : returns (py_sub (ONum (PFlt fc)) (OItv Z)) mode_NE (mkitv (kd Z) (PFlt i) (PFlt s))) by (unfold returns, outcome; cbn [py_sub]; now rewrite HG).
  exists (fmul mode_NE w (fsub mode_NE fq (picked o i s))), (num_val (lo Z)), (num_val (hi Z)), c, q, i, s.
  split.
  { unfold ispae_residual. apply keeps_returns; [apply keeps_value|]. exists (OItv Z). split; [exact R|].
    apply keeps_returns; [apply keeps_mid|]. eexists. split; [exact Rc|]. apply keeps_returns; [apply keeps_rad|]. eexists. split; [exact Rr|].
    apply keeps_returns; [apply keeps_psub|]. eexists. split; [exact RD|]. reflexivity. }
  split; [exact AB|]. split; [exact O1|]. split; [exact O2|]. split; [exact O3|]. split; [exact MG|].
  assert (Xq : xflt fq = XFin q) by (rewrite <- Er; exact Fr). assert (Xc : xflt fc = XFin c) by (rewrite <- Ec; exact Fc).
  split; [rewrite <- Xq; apply flt_dbl|]. rewrite FZ1, FZ2 in *. cbn [xval] in Hi, Hs. rewrite Xc in Hi, Hs. split; [exact Hi|]. split; [exact Hs|].
  rewrite fmul_x, fsub_x, Xq. rewrite (proj1 (is_finite_x w) Fw). reflexivity.
Qed.

(** ** What the sign of the residual says *)
Lemma rounded_order c a b i s : a <= b -> xflt i = xround mode_DN (c - b) -> xflt s = xround mode_UP (c - a) ->
  xflt i <> XNan /\ xflt s <> XNan /\ xleb (xflt i) (xflt s) = true.
Proof.
  intros AB -> ->. split; [apply xround_not_nan|]. split; [apply xround_not_nan|]. eapply xleb_trans; [apply xround_DN_UP|]. apply xround_UP_mono. lra.
Qed.
Lemma res_real M delta roots o beta cols y w f : 0 <= delta -> usable M delta roots beta ((cols, y), w) ->
  o = ITol -> returns (ispae_residual roots o beta ((cols, y), w)) mode_NE f -> is_nan f = false.
Proof.
  intros D U -> H. destruct (residual_run M delta roots ITol beta cols y w D U) as (f' & a & b & c & q & i & s & R & AB & _ & _ & _ & _ & Dq & Xi & Xs & Xf).
  rewrite (ret_det _ _ _ _ H R). destruct (rounded_order c a b i s AB Xi Xs) as (Ni & Ns & _). destruct (is_nan f') eqn:E; [|reflexivity]. exfalso. apply is_nan_x in E. rewrite E in Xf. symmetry in Xf. revert Xf.
  apply tol_real; [apply flt_dbl | exact Dq | apply U|]. apply (max_le i s (XFin q) Ni Ns).
Qed.
Lemma margin_in (l u c q v : R) mg : Rabs (c - (l + u) / 2) + Rabs (q - (u - l) / 2) <= mg -> Rabs (c - v) <= q -> l - mg <= v <= u + mg.
Proof. intros H V. apply Rabs_le_inv in V. revert H. unfold Rabs. destruct (Rcase_abs (c - _)), (Rcase_abs (q - _)); lra. Qed.
Lemma margin_out (l u c q v : R) mg : Rabs (c - (l + u) / 2) + Rabs (q - (u - l) / 2) <= mg -> q < Rabs (c - v) -> v < l + mg \/ u - mg < v.
Proof. intros H V. destruct (Rlt_le_dec v (l + mg)); [now left|]. destruct (Rlt_le_dec (u - mg) v); [now right|]. exfalso. revert H V. unfold Rabs. destruct (Rcase_abs (c - (l + u) / 2)), (Rcase_abs (q - _)), (Rcase_abs (c - v)); lra. Qed.
Theorem tol_nonneg M delta roots beta cols y w f : 0 <= delta -> usable M delta roots beta ((cols, y), w) ->
  returns (ispae_residual roots ITol beta ((cols, y), w)) mode_NE f -> flt_leb f0 f = true -> all_in beta cols y (outer_error M delta beta cols + rounding_margin y).
Proof.
  intros D U H L. destruct (residual_run M delta roots ITol beta cols y w D U) as (f' & a & b & c & q & i & s & R & AB & O1 & _ & _ & MG & Dq & Xi & Xs & Xf).
  rewrite (ret_det _ _ _ _ H R) in L. destruct (rounded_order c a b i s AB Xi Xs) as (Ni & Ns & _). destruct (max_le i s (XFin q) Ni Ns) as [ML MN].
  rewrite flt_leb_x, Xf in L. change (xflt f0) with (XFin 0) in L. cbn [picked] in L. apply tol_sign in L; [|apply flt_dbl | exact Dq | apply U | exact MN].
  apply ML in L. apply (ends_in c q a b _ _ Dq AB Xi Xs) in L. destruct L as [LA LB].
  destruct (margin_in _ _ _ _ _ _ MG LA) as [P1 P2]. destruct (margin_in _ _ _ _ _ _ MG LB) as [P3 P4]. intros xs Hx. specialize (O1 xs Hx). lra.
Qed.
Theorem tol_negative M delta roots beta cols y w f : 0 <= delta -> usable M delta roots beta ((cols, y), w) ->
  returns (ispae_residual roots ITol beta ((cols, y), w)) mode_NE f -> flt_ltb f f0 = true -> some_out beta cols y (inner_error M beta cols + rounding_margin y).
Proof.
  intros D U H L. destruct (residual_run M delta roots ITol beta cols y w D U) as (f' & a & b & c & q & i & s & R & AB & _ & O2 & O3 & MG & Dq & Xi & Xs & Xf).
  rewrite (ret_det _ _ _ _ H R) in L. destruct (rounded_order c a b i s AB Xi Xs) as (Ni & Ns & _). destruct (max_le i s (XFin q) Ni Ns) as [ML MN].
  rewrite flt_ltb_x, Xf in L. change (xflt f0) with (XFin 0) in L. cbn [picked] in L.
  assert (NL : ~ (Rabs (c - a) <= q /\ Rabs (c - b) <= q)).
  { intro C. apply (ends_in c q a b _ _ Dq AB Xi Xs) in C. apply ML in C. apply (tol_sign (B2R w) q _ (flt_dbl _) Dq) in C; [|apply U | exact MN].
    destruct (xmul _ _ _); try discriminate. apply xleb_fin in C. apply xltb_fin in L. lra. }
  assert (G : forall v, (exists xs, in_row cols xs /\ Rabs (model beta cols xs - v) <= inner_error M beta cols) -> q < Rabs (c - v) -> some_out beta cols y (inner_error M beta cols + rounding_margin y)).
  { intros v (xs & Hx & E) V. exists xs. split; [exact Hx|]. apply Rabs_le_inv in E. destruct (margin_out _ _ _ _ _ _ MG V); [left | right]; lra. }
  destruct (Rle_lt_dec (Rabs (c - a)) q) as [LA|LA]; [|exact (G a O2 LA)]. destruct (Rle_lt_dec (Rabs (c - b)) q) as [LB|LB]; [|exact (G b O3 LB)]. tauto.
Qed.
Lemma margin_low (l u c q : R) mg : Rabs (c - (l + u) / 2) + Rabs (q - (u - l) / 2) <= mg -> c - q <= l + mg /\ u - mg <= c + q.
Proof. unfold Rabs. destruct (Rcase_abs (c - _)), (Rcase_abs (q - _)); lra. Qed.
Lemma outer_nn M delta roots cols : forall beta, 0 <= delta -> tame_row M delta roots beta cols -> 0 <= outer_error M delta beta cols.
Proof.
  unfold outer_error. induction cols as [|[o [l u]] cols IH]; intros beta D; cbn [tame_row over_row]; [lra|]. intros (T & _ & H). specialize (IH _ D H). assert (P := rounding_pos _ _ _ _ T). lra.
Qed.
Lemma uni_sign w q G : is_dbl G -> is_dbl (XFin q) -> 0 <= w -> xleb (XFin 0) G = true ->
  xltb (xmul mode_NE (XFin w) (xsub mode_NE (XFin q) G)) (XFin 0) = true -> xltb (XFin q) G = true.
Proof.
  intros DG Dq W NG H. destruct G as [| | |g]; try discriminate; [reflexivity|]. apply xltb_fin. apply Rnot_le_lt. intro L. assert (S := proj2 (sub_sign mode_NE q g Dq DG) L).
  assert (Y : xleb (XFin 0) (xmul mode_NE (XFin w) (xsub mode_NE (XFin q) (XFin g))) = true).
  { apply mul_sign_nn; [exact W | exact S|]. apply xleb_fin in NG. unfold xsub. cbn [xopp xadd]. intro E. assert (Y := xround_le_dbl mode_NE (q + - g) q Dq ltac:(lra)). rewrite E in Y. discriminate. }
  destruct (xmul _ _ _); try discriminate. apply xleb_fin in Y. apply xltb_fin in H. lra.
Qed.
Lemma mig_nn i s : xflt i <> XNan -> xflt s <> XNan -> xleb (XFin 0) (xflt (f_mig i s)) = true.
Proof.
  intros Ni Ns. unfold f_mig. destruct (flt_leb _ _); [change (xflt f0) with (XFin 0); apply xleb_fin; lra|]. destruct (flt_ltb _ _); rewrite xflt_abs; now apply xabs_nn.
Qed.
Theorem uni_negative M delta roots beta cols y w f : 0 <= delta -> usable M delta roots beta ((cols, y), w) ->
  returns (ispae_residual roots IUni beta ((cols, y), w)) mode_NE f -> flt_ltb f f0 = true -> none_in beta cols y (outer_error M delta beta cols + rounding_margin y).
Proof.
  intros D U H L. destruct (residual_run M delta roots IUni beta cols y w D U) as (f' & a & b & c & q & i & s & R & AB & O1 & _ & _ & MG & Dq & Xi & Xs & Xf).
  rewrite (ret_det _ _ _ _ H R) in L. destruct (rounded_order c a b i s AB Xi Xs) as (Ni & Ns & IS).
  rewrite flt_ltb_x, Xf in L. change (xflt f0) with (XFin 0) in L. cbn [picked] in L.
  apply uni_sign in L; [|apply flt_dbl | exact Dq | destruct U as (_ & _ & _ & _ & _ & _ & _ & U); lra | now apply mig_nn].
  assert (E0 : forall xs, in_row cols xs -> 0 <= outer_error M delta beta cols) by (intros xs Hx; apply (outer_nn M delta roots cols beta); [exact D | apply U]).
  apply margin_low in MG. intros xs Hx. specialize (O1 xs Hx). specialize (E0 xs Hx). destruct (Rle_lt_dec 0 q) as [Q|Q].
  - apply mig_out in L; [|exact Ni | exact Ns | exact Q | exact IS]. destruct L as [L|L].
    + rewrite Xi in L. assert (q < c - b). { apply Rnot_le_lt. intro C. assert (X := xround_le_dbl mode_DN _ _ Dq C). destruct (xround mode_DN (c - b)); try discriminate. apply xltb_fin in L. apply xleb_fin in X. lra. }
      left. lra.
    + rewrite Xs in L. assert (Dm : is_dbl (XFin (- q))) by (destruct Dq as [g Hg]; exists (fneg g); rewrite xflt_neg, Hg; reflexivity).
      assert (c - a < - q). { apply Rnot_le_lt. intro C. assert (X := xround_ge_dbl mode_UP _ _ Dm C). destruct (xround mode_UP (c - a)); try discriminate. apply xltb_fin in L. apply xleb_fin in X. lra. }
      right. lra.
  - destruct (Rlt_le_dec (model beta cols xs) (num_val (lo y) + (outer_error M delta beta cols + rounding_margin y))) as [C|C]; [now left | right]. lra.
Qed.
