(** The range of a column and the value of a row of ISPAE. *)
From Coq Require Import ZArith Reals List Bool Arith Lia Lra.
From Flocq Require Import Core IEEE754.BinarySingleNaN.
From Verif Require Import Base PyNum Kernel Spec Expr Construct XReal XArith KernelProofs KernelMore KernelAlg ExprProofs ArrayProofs RoundMode Solvers SolversProofs GSEmpty SpecModels IspaeProofs IspaeFl SpecIspaeFl IspaeFlProofs.
Import ListNotations.
Open Scope R_scope.

Lemma sm_polynomial beta x : smooth_at (polynomial beta) x.
Proof.
  unfold polynomial. generalize 1%nat. induction (reals beta) as [|c cs IH]; intro d; [exact (sm_const 0 x)|].
  apply (sm_plus (fun y => c * y ^ d) (combination (fun d x => x ^ d) (S d) cs)); [|apply IH].
  apply (sm_mult (fun _ => c) (fun y => y ^ d)); [apply sm_const|]. exists (INR d * x ^ Nat.pred d). apply derivable_pt_lim_pow.
Qed.
Definition amid (l u d : flt) : Prop := is_finite d = true /\ B2R l <= B2R d <= B2R u.
Lemma near_min f (l u : flt) delta roots : is_finite l = true -> is_finite u = true -> B2R l <= B2R u -> 0 <= delta -> (forall x, smooth_at f x) -> critical_near f l u delta roots ->
  exists d, In d (l :: u :: roots) /\ amid l u d /\ forall x, B2R l <= x <= B2R u -> f (B2R d) - delta <= f x.
Proof.
  intros Fl Fu Hlu D S Hr. destruct (continuity_ab_min f _ _ Hlu (fun c _ => sm_cont f c (S c))) as (m & H1 & H2).
  destruct (Req_dec m (B2R l)) as [->|Nl]; [exists l; split; [now left|]; split; [split; [exact Fl | lra]|]; intros x Hx; specialize (H1 x Hx); lra|].
  destruct (Req_dec m (B2R u)) as [->|Nu]; [exists u; split; [now right; left|]; split; [split; [exact Fu | lra]|]; intros x Hx; specialize (H1 x Hx); lra|].
  destruct (S m) as [d Hd]. assert (pr : derivable_pt f m) by (exists d; exact Hd).
  assert (Z := deriv_minimum f (B2R l) (B2R u) m pr ltac:(lra) ltac:(lra) ltac:(intros; apply H1; lra)).
  assert (D0 : derivable_pt_lim f m 0) by (rewrite <- Z; apply (proj1 (derive_pt_eq f m (derive_pt f m pr) pr)); reflexivity).
  destruct Hr as [Hr|Hc].
  - destruct (Hr m H2 D0) as (r & R1 & R2 & R3 & R4). exists r. split; [now right; right|]. split; [now split|]. intros x Hx. specialize (H1 x Hx).
    assert (Q := Rle_abs (f (B2R r) - f m)). lra.
  - exists l. split; [now left|]. split; [split; [exact Fl | lra]|]. intros x _. rewrite (Hc (B2R l) x). lra.
Qed.
Lemma near_max f (l u : flt) delta roots : is_finite l = true -> is_finite u = true -> B2R l <= B2R u -> 0 <= delta -> (forall x, smooth_at f x) -> critical_near f l u delta roots ->
  exists d, In d (l :: u :: roots) /\ amid l u d /\ forall x, B2R l <= x <= B2R u -> f x <= f (B2R d) + delta.
Proof.
  intros Fl Fu Hlu D S Hr. destruct (continuity_ab_maj f _ _ Hlu (fun c _ => sm_cont f c (S c))) as (m & H1 & H2).
  destruct (Req_dec m (B2R l)) as [->|Nl]; [exists l; split; [now left|]; split; [split; [exact Fl | lra]|]; intros x Hx; specialize (H1 x Hx); lra|].
  destruct (Req_dec m (B2R u)) as [->|Nu]; [exists u; split; [now right; left|]; split; [split; [exact Fu | lra]|]; intros x Hx; specialize (H1 x Hx); lra|].
  destruct (S m) as [d Hd]. assert (pr : derivable_pt f m) by (exists d; exact Hd).
  assert (Z := deriv_maximum f (B2R l) (B2R u) m pr ltac:(lra) ltac:(lra) ltac:(intros; apply H1; lra)).
  assert (D0 : derivable_pt_lim f m 0) by (rewrite <- Z; apply (proj1 (derive_pt_eq f m (derive_pt f m pr) pr)); reflexivity).
  destruct Hr as [Hr|Hc].
  - destruct (Hr m H2 D0) as (r & R1 & R2 & R3 & R4). exists r. split; [now right; right|]. split; [now split|]. intros x Hx. specialize (H1 x Hx).
    assert (Q := Rle_abs (- (f (B2R r) - f m))). rewrite Rabs_Ropp in Q. lra.
  - exists l. split; [now left|]. split; [split; [exact Fl | lra]|]. intros x _. rewrite (Hc (B2R l) x). lra.
Qed.
Lemma leb_fin (a b : flt) : is_finite a = true -> is_finite b = true -> (flt_leb a b = true <-> B2R a <= B2R b).
Proof. intros Fa Fb. rewrite flt_leb_x, (proj1 (is_finite_x a) Fa), (proj1 (is_finite_x b) Fb). apply xleb_fin. Qed.
Lemma ltb_fin (a b : flt) : is_finite a = true -> is_finite b = true -> (flt_ltb a b = true <-> B2R a < B2R b).
Proof. intros Fa Fb. rewrite flt_ltb_x, (proj1 (is_finite_x a) Fa), (proj1 (is_finite_x b) Fb). apply xltb_fin. Qed.
Lemma filter_within (l u d : flt) : is_finite l = true -> is_finite u = true -> (flt_leb l d && flt_leb d u = true <-> amid l u d).
Proof.
  intros Fl Fu. rewrite andb_true_iff. split.
  - intros [H1 H2]. destruct (is_finite d) eqn:Fd.
    + split; [exact Fd|]. split; now apply leb_fin.
    + exfalso. rewrite flt_leb_x, (proj1 (is_finite_x l) Fl) in H1. rewrite flt_leb_x, (proj1 (is_finite_x u) Fu) in H2. destruct d as [|[|]| |]; discriminate.
  - intros [Fd H]. split; apply leb_fin; tauto.
Qed.
Lemma fold_min_fl vs : forall v, Forall (fun f => is_finite f = true) (v :: vs) -> In (fold_left flt_min2 vs v) (v :: vs) /\ forall w, In w (v :: vs) -> B2R (fold_left flt_min2 vs v) <= B2R w.
Proof.
  induction vs as [|a vs IH]; intros v F; cbn [fold_left].
  - split; [now left|]. intros w [->|[]]. lra.
  - inversion F as [|? ? Fv F']; subst. inversion F' as [|? ? Fa F'']; subst. unfold flt_min2 at 2 4. destruct (flt_ltb a v) eqn:E.
    + apply ltb_fin in E; [|assumption|assumption]. destruct (IH a F') as [I1 I2]. split; [destruct I1; [now right; left | now right; right]|].
      intros w [<-|[<-|Hw]]; [assert (Q := I2 a (or_introl eq_refl)); lra | apply I2; now left | apply I2; now right].
    + assert (NE : B2R v <= B2R a) by (apply Rnot_lt_le; intro C; apply (proj2 (ltb_fin a v Fa Fv)) in C; congruence).
      destruct (IH v ltac:(now constructor)) as [I1 I2]. split; [destruct I1; [now left | now right; right]|].
      intros w [<-|[<-|Hw]]; [apply I2; now left | assert (Q := I2 v (or_introl eq_refl)); lra | apply I2; now right].
Qed.
Lemma fold_max_fl vs : forall v, Forall (fun f => is_finite f = true) (v :: vs) -> In (fold_left flt_max2 vs v) (v :: vs) /\ forall w, In w (v :: vs) -> B2R w <= B2R (fold_left flt_max2 vs v).
Proof.
  induction vs as [|a vs IH]; intros v F; cbn [fold_left].
  - split; [now left|]. intros w [->|[]]. lra.
  - inversion F as [|? ? Fv F']; subst. inversion F' as [|? ? Fa F'']; subst. unfold flt_max2 at 2 4. destruct (flt_ltb v a) eqn:E.
    + apply ltb_fin in E; [|assumption|assumption]. destruct (IH a F') as [I1 I2]. split; [destruct I1; [now right; left | now right; right]|].
      intros w [<-|[<-|Hw]]; [assert (Q := I2 a (or_introl eq_refl)); lra | apply I2; now left | apply I2; now right].
    + assert (NE : B2R a <= B2R v) by (apply Rnot_lt_le; intro C; apply (proj2 (ltb_fin v a Fv Fa)) in C; congruence).
      destruct (IH v ltac:(now constructor)) as [I1 I2]. split; [destruct I1; [now left | now right; right]|].
      intros w [<-|[<-|Hw]]; [apply I2; now left | assert (Q := I2 v (or_introl eq_refl)); lra | apply I2; now right].
Qed.
Theorem column_within M delta beta l u roots m : tame M beta l u -> 0 <= delta -> critical_near (polynomial beta) l u delta roots ->
  exists Z, returns (col_fl roots beta l u) m Z /\ range_within (polynomial beta) l u (delta + rounding M beta) (rounding M beta) Z.
Proof.
  intros T D C. assert (T' := T). destruct T' as (_ & Fl & Fu & Hlu & _).
  destruct (near_min _ l u delta roots Fl Fu Hlu D (sm_polynomial beta) C) as (dm & A1 & A2 & A3).
  destruct (near_max _ l u delta roots Fl Fu Hlu D (sm_polynomial beta) C) as (dM & B1 & B2 & B3).
  unfold col_fl. set (L := filter (fun d => flt_leb l d && flt_leb d u) (l :: u :: roots)).
  assert (HL : forall d, In d L <-> In d (l :: u :: roots) /\ amid l u d).
  { intro d. unfold L. rewrite filter_In. now rewrite (filter_within l u d Fl Fu). }
  assert (FV : Forall (fun f => is_finite f = true) (map (poly_fl beta) L)).
  { apply Forall_forall. intros w Hw. apply in_map_iff in Hw. destruct Hw as (d & <- & Hd). apply HL in Hd. destruct Hd as [_ [W1 W2]]. exact (proj1 (poly_err M beta l u d T W1 W2)). }
  assert (Im : In (poly_fl beta dm) (map (poly_fl beta) L)) by (apply in_map, HL; now split).
  assert (IM : In (poly_fl beta dM) (map (poly_fl beta) L)) by (apply in_map, HL; now split).
  assert (AT : forall w, In w (map (poly_fl beta) L) -> exists x, B2R l <= x <= B2R u /\ Rabs (polynomial beta x - B2R w) <= rounding M beta).
  { intros w Hw. apply in_map_iff in Hw. destruct Hw as (d & <- & Hd). apply HL in Hd. destruct Hd as [_ [W1 W2]]. exists (B2R d). split; [exact W2|]. rewrite Rabs_minus_sym. exact (proj2 (poly_err M beta l u d T W1 W2)). }
  destruct (map (poly_fl beta) L) as [|v vs]; [destruct Im|].
  destruct (fold_min_fl vs v FV) as [N1 N2]. destruct (fold_max_fl vs v FV) as [X1 X2]. set (a := fold_left flt_min2 vs v) in *. set (b := fold_left flt_max2 vs v) in *.
  rewrite Forall_forall in FV. assert (Fa := FV a N1). assert (Fb := FV b X1). assert (AB := N2 b X1).
  exists (mkitv Classical (PFlt a) (PFlt b)). split.
  - unfold returns, outcome, single_interval, mbind, mret. cbn [fst]. rewrite num_le_x. cbn [xval]. rewrite (proj1 (is_finite_x a) Fa), (proj1 (is_finite_x b) Fb), (proj2 (xleb_fin _ _) AB). reflexivity.
  - exists a, b. split; [reflexivity|]. split; [exact Fa|]. split; [exact Fb|]. split; [exact AB|]. split; [|split; [exact (AT a N1) | exact (AT b X1)]].
    intros x Hx. assert (P1 := N2 _ Im). assert (P2 := X2 _ IM).
    assert (E1 := proj2 (poly_err M beta l u dm T (proj1 A2) (proj2 A2))). assert (E2 := proj2 (poly_err M beta l u dM T (proj1 B2) (proj2 B2))).
    apply Rabs_le_inv in E1, E2. specialize (A3 x Hx). specialize (B3 x Hx). lra.
Qed.
(** ** Rows *)
Lemma range_enc f l u e1 e2 Z x : range_within f l u e1 e2 Z -> 0 <= e1 -> B2R l <= x <= B2R u -> exists s, enc Z s /\ Rabs (s - f x) <= e1.
Proof.
  intros (a & b & -> & Fa & Fb & AB & H & _) E Hx. specialize (H x Hx). exists (Rmin (Rmax (f x) (B2R a)) (B2R b)).
  assert (ME : forall r, B2R a <= r <= B2R b -> member (mkitv Classical (PFlt a) (PFlt b)) r).
  { intros r Hr. apply member_x. cbn [lo hi xval]. rewrite (proj1 (is_finite_x a) Fa), (proj1 (is_finite_x b) Fb). exact Hr. }
  split.
  - split; [split; [reflexivity|]; split; [split; exact Logic.I | right; exists (B2R a); apply ME; lra]|]. right. apply ME. unfold Rmin, Rmax. destruct (Rle_dec (f x) (B2R a)); destruct (Rle_dec _ (B2R b)); lra.
  - apply Rabs_le. unfold Rmin, Rmax. destruct (Rle_dec (f x) (B2R a)); destruct (Rle_dec _ (B2R b)); lra.
Qed.
Lemma rounding_pos M beta l u : tame M beta l u -> 0 <= rounding M beta.
Proof. intros (_ & _ & _ & _ & M1 & _). unfold rounding. apply Rmult_le_pos; [apply Rmult_le_pos; [apply pos_INR | apply bpow_ge_0] | apply bulk_pos; lra]. Qed.
Lemma range_size M beta l u e1 Z : tame M beta l u -> range_within (polynomial beta) l u e1 (rounding M beta) Z -> within (bpow radix2 961) Z.
Proof.
  intros T R. assert (HE : rounding M beta <= bulk M (0 :: reals beta)).
  { destruct T as (_ & _ & _ & _ & M1 & _ & _ & _ & HL). assert (S0 := bulk_pos M (0 :: reals beta) ltac:(lra)). unfold rounding. rewrite <- (Rmult_1_l (bulk M (0 :: reals beta))) at 2. apply Rmult_le_compat_r; [exact S0|].
    apply Rle_trans with (bpow radix2 40 * bpow radix2 (-50)); [apply Rmult_le_compat_r; [apply bpow_ge_0 | exact HL]|]. rewrite <- bpow_plus. change 1 with (bpow radix2 0). apply bpow_le. lia. }
  destruct R as (a & b & -> & Fa & Fb & AB & _ & (x & Hx & Ex) & (y & Hy & Ey)).
  destruct T as (_ & _ & _ & _ & M1 & Hl & Hu & HB & _).
  assert (P : forall z, B2R l <= z <= B2R u -> Rabs (polynomial beta z) <= bpow radix2 960).
  { intros z Hz. rewrite polynomial_peval. eapply Rle_trans; [apply (peval_bulk M)|exact HB].
    assert (C1 := Rle_abs (B2R u)). assert (C2 := Rle_abs (- B2R l)). rewrite Rabs_Ropp in C2. apply Rabs_le. lra. }
  assert (E2 : bpow radix2 961 = 2 * bpow radix2 960) by (change 961%Z with (1 + 960)%Z; rewrite bpow_plus; reflexivity).
  assert (Q : forall z c, B2R l <= z <= B2R u -> Rabs (polynomial beta z - c) <= rounding M beta -> Rabs c <= bpow radix2 961).
  { intros z c Hz Hc. specialize (P z Hz). replace c with (polynomial beta z - (polynomial beta z - c)) by ring. eapply Rle_trans; [apply Rabs_triang|]. rewrite Rabs_Ropp. lra. }
  split; [|exists (B2R a), (B2R b); cbn [lo hi xval]; rewrite (proj1 (is_finite_x a) Fa), (proj1 (is_finite_x b) Fb); split; [reflexivity|]; split; [reflexivity|]; split; [exact (Q x _ Hx Ex) | exact (Q y _ Hy Ey)]].
  split; [reflexivity|]. split; [split; exact Logic.I|]. right. exists (B2R a). apply member_x. cbn [lo hi xval]. rewrite (proj1 (is_finite_x a) Fa), (proj1 (is_finite_x b) Fb). split; cbn; lra.
Qed.
Lemma reals_firstn o beta : reals (firstn o beta) = firstn o (reals beta). Proof. unfold reals. symmetry. apply firstn_map. Qed.
Lemma reals_skipn o beta : reals (skipn o beta) = skipn o (reals beta). Proof. unfold reals. symmetry. apply skipn_map. Qed.
Lemma cols_run M delta roots m : 0 <= delta -> forall cols beta, tame_row M delta roots beta cols ->
  exists vs, returns (cols_fl roots beta cols) m vs /\ length vs = length cols /\ Forall (within (bpow radix2 961)) vs /\ forall xs, in_row cols xs -> exists ss, Forall2 enc vs ss /\
    Rabs (sumR ss - model beta cols xs) <= over_row (fun b => delta + rounding M b) beta cols.
Proof.
  intros D. induction cols as [|[o [l u]] cols IH]; intros beta H.
  - exists []. split; [reflexivity|]. split; [reflexivity|]. split; [constructor|]. intros xs Hx. inversion Hx; subst. exists []. split; [constructor|]. cbn. rewrite Rminus_0_r, Rabs_R0. lra.
  - cbn [tame_row] in H. destruct H as (T & C & H). destruct (column_within M delta (firstn o beta) l u _ m T D C) as (Z & Z1 & Z2). destruct (IH _ H) as (vs & V1 & L1 & W1 & V2).
    exists (Z :: vs). split; [|split; [cbn [length]; now rewrite L1 | split; [constructor; [exact (range_size _ _ _ _ _ _ T Z2) | exact W1]|]]].
    + cbn [cols_fl]. unfold returns, outcome, mbind in *. unfold col_fl in *.
      destruct (map (poly_fl (firstn o beta)) _) as [|v w]; [discriminate|]. cbn [single_interval mbind mret fst] in *.
      injection Z1 as Z1. rewrite Z1. destruct (cols_fl roots (skipn o beta) cols m) as [r m']. cbn [fst] in V1. subst r. reflexivity.
    + intros xs Hx. inversion Hx as [|? x ? xs' H1 H2]; subst. cbn [fst snd] in H1. destruct (V2 xs' H2) as (ss & S1 & S2).
      destruct (range_enc _ _ _ _ _ _ x Z2 ltac:(assert (Q := rounding_pos _ _ _ _ T); lra) H1) as (s & E1 & E2). exists (s :: ss). split; [now constructor|].
      unfold model. cbn [sumR map additive over_row fst]. rewrite <- reals_firstn, <- reals_skipn. fold (polynomial (firstn o beta) x).
      replace (s + sumR ss - _) with ((s - polynomial (firstn o beta) x) + (sumR ss - model (skipn o beta) cols xs')) by (unfold polynomial, model; ring).
      eapply Rle_trans; [apply Rabs_triang|]. lra.
Qed.
Lemma keeps_cols roots cols : forall beta, keeps_mode (cols_fl roots beta cols).
Proof.
  induction cols as [|[o [l u]] cols IH]; intros beta; cbn [cols_fl]; [apply keeps_ret|]. unfold col_fl. apply keeps_bind; [|intro v; apply keeps_bind; [apply IH | intro; apply keeps_ret]].
  destruct (map _ _); [intro; reflexivity|]. intro. reflexivity.
Qed.
Lemma row_outer M delta roots beta cols m : 0 <= delta -> tame_row M delta roots beta cols -> cols <> [] -> (Z.of_nat (length cols) < 2 ^ 53)%Z ->
  exists Z, returns (value_fl roots beta cols) m (OItv Z) /\ good Z /\ forall xs, in_row cols xs ->
    exists s, member Z s /\ Rabs (s - model beta cols xs) <= over_row (fun b => delta + rounding M b) beta cols.
Proof.
  intros D T N HL. destruct (cols_run M delta roots m D cols beta T) as (vs & V1 & L & W & V2).
  destruct (py_sum_within (bpow radix2 961) m vs) as (s & S1 & S2).
  - apply bpow_ge_0.
  - intros j Hj. rewrite INR_IZR_INZ. apply fmt_int; lia.
  - exact W.
  - destruct S2 as [->|(Z & -> & WZ)].
    + exfalso. destruct vs; [destruct cols; [congruence | discriminate]|]. cbn [py_sum] in S1.
      apply keeps_returns in S1; [|apply (keeps_py_op OpAdd)]. destruct S1 as (? & _ & S1). apply keeps_returns in S1; [|apply keeps_sum_from]. destruct S1 as (? & _ & S1). apply returns_ret in S1. discriminate.
    + exists Z. split; [apply keeps_returns; [apply keeps_cols | now exists vs]|]. split; [exact (proj1 WZ)|]. intros xs Hx. destruct (V2 xs Hx) as (ss & E & H). exists (sumR ss). split; [|exact H].
      assert (EE := py_sum_enc vs ss m _ E S1). exact (within_enc_member _ _ _ WZ EE).
Qed.
