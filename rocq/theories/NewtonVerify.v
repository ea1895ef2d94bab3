(** Krawczyk and HansenSengupta as proofs of existence: what it means that the
    result of one iteration lies strictly inside the starting interval, and
    what a NaN result means. *)
From Coq Require Import ZArith Reals List Bool Arith Lia Lra Psatz Floats.SpecFloat Ranalysis5.
From Flocq Require Import Core IEEE754.BinarySingleNaN.
From Verif Require Import Base PyNum Kernel Spec Expr XReal XArith KernelProofs ExprProofs KernelAlg KernelMore Witness Arrays Construct SpecArray ArrayProofs ArrayMore ArrayMat ConstructProofs ConstructMore ConstructUtil Solvers SpecSolvers SolversProofs GSProofs NewtonProofs.
Import ListNotations.
Open Scope R_scope.

(** ** Calculus *)
Lemma zero_between f a b : (forall r, a <= r <= b -> continuity_pt f r) -> a < b -> (f a < 0 < f b \/ f b < 0 < f a) -> exists z, a <= z <= b /\ f z = 0.
Proof.
  intros C H [[A B]|[A B]].
  - destruct (IVT_interv f a b C H A B) as (z & Hz & E). eauto.
  - destruct (IVT_interv (- f)%F a b) as (z & Hz & E).
    + intros r Hr. apply continuity_pt_opp. auto.
    + exact H.
    + unfold opp_fct. lra.
    + unfold opp_fct. lra.
    + exists z. split; [exact Hz|]. unfold opp_fct in E. lra.
Qed.

Section Verify.
Variables (func J : itv -> M itv) (distance : itv -> itv -> pynum) (x0 : itv) (f f' : R -> R) (m : rmode).
Hypothesis Hx0 : modest x0.
Hypothesis Hf : encloses_on x0 func f.
Hypothesis HJ : encloses_on x0 J f'.
Hypothesis Hd : forall r, member x0 r -> derivable_pt_lim f r (f' r).
Hypothesis Hla : forall X L la, part x0 X -> returns (J X) m L -> returns (slope_recip L) m la -> finite_num la.

Lemma f_cont r : member x0 r -> continuity_pt f r.
Proof. intro H. apply derivable_continuous_pt. exists (f' r). exact (Hd r H). Qed.

(** Mean value: the slope between two members of [X] is in [J(X)]. *)
Lemma slope_in X a b L : good X -> (forall r, member X r -> member x0 r) -> member X a -> member X b -> returns (J X) m L ->
  exists l, enc L l /\ f b - f a = l * (b - a).
Proof.
  intros GX SX Ma Mb HL. destruct (proj2 HJ X m L GX SX HL) as [GL EL].
  destruct (Rtotal_order a b) as [H|[H|H]].
  - destruct (MVT_cor2 f f' a b H) as (t & E & Ht).
    { intros t Ht. apply Hd, SX. now apply (member_between X a b). }
    exists (f' t). split; [split; [exact GL|]; apply EL; apply (member_between X a b); auto; lra|]. lra.
  - subst b. exists (f' a). split; [split; [exact GL|now apply EL]|]. lra.
  - destruct (MVT_cor2 f f' b a H) as (t & E & Ht).
    { intros t Ht. apply Hd, SX. now apply (member_between X b a). }
    exists (f' t). split; [split; [exact GL|]; apply EL; apply (member_between X b a); auto; lra|]. lra.
Qed.
(** Two zeros put 0 into [J(X)]. *)
Lemma two_zeros X a b L : good X -> (forall r, member X r -> member x0 r) -> member X a -> member X b -> returns (J X) m L ->
  a <> b -> f a = 0 -> f b = 0 -> enc L 0.
Proof.
  intros GX SX Ma Mb HL N Fa Fb. destruct (slope_in X a b L GX SX Ma Mb HL) as (l & El & E).
  rewrite Fa, Fb in E. assert (l = 0) by (destruct (Rmult_integral l (b - a)); [lra|assumption|lra]). now subst l.
Qed.
Lemma enc_between L a b r : enc L a -> enc L b -> a <= r <= b -> enc L r.
Proof.
  intros [G [N|A]] [_ B] H; [split; [exact G|now left]|]. destruct B as [N|B]; [split; [exact G|now left]|].
  split; [exact G|]. right. now apply (member_between L a b).
Qed.

Lemma kraw_values X c Z cr : good X -> (forall r, member X r -> member x0 r) -> good c -> member c cr -> member X cr -> (forall r, member c r -> member x0 r) ->
  returns (kraw_op func J X c) m Z ->
  exists L la, returns (J X) m L /\ forall l r, enc L l -> member X r -> enc Z (cr - la * f cr + (1 - la * l) * (r - cr)).
Proof.
  intros GX SX Gc Mc MXc Sc H. unfold kraw_op in H.
  apply keeps_returns in H; [|apply (keeps_J J x0 f' HJ)]. destruct H as (L & HL & H).
  apply keeps_returns in H; [|apply keeps_slope]. destruct H as (la & Hlam & H).
  apply keeps_returns in H; [|apply (keeps_py_op OpMul)]. destruct H as (t & Ht & H).
  apply keeps_returns in H; [|apply (keeps_py_op OpSub)]. destruct H as (B & HB & H).
  apply keeps_returns in H; [|apply (keeps_func func x0 f Hf)]. destruct H as (fc & Hfc & H).
  apply keeps_returns in H; [|apply (keeps_py_op OpMul)]. destruct H as (p & Hp & H).
  apply keeps_returns in H; [|apply (keeps_py_op OpSub)]. destruct H as (q & Hq & H).
  apply keeps_returns in H; [|apply (keeps_py_op OpSub)]. destruct H as (d & HdX & H).
  apply keeps_returns in H; [|apply (keeps_py_op OpMul)]. destruct H as (s & Hs & H).
  exists L, (num_val la). split; [exact HL|]. intros l z El Mz.
  assert (Fla := Hla X L la (conj GX (conj (ex_intro _ cr MXc) SX)) HL Hlam). destruct (slope_float L m la (proj1 El) Hlam) as (lf & ->).
  destruct (proj2 Hf c m fc Gc Sc Hfc) as [Gfc Efc]. specialize (Efc cr Mc).
  assert (E1 := enc_num_l OpMul (PFlt lf) L m t l ltac:(discriminate) I Fla El Ht). cbn [opR] in E1.
  assert (E2 := enc_num_l OpSub (PInt 1) t m B _ ltac:(discriminate) ltac:(simpl; lia) I E1 HB). cbn [opR] in E2.
  assert (E3 := enc_num_l OpMul (PFlt lf) fc m p (f cr) ltac:(discriminate) I Fla (conj Gfc Efc) Hp). cbn [opR] in E3.
  assert (E4 := enc_itv OpSub c p m q cr _ ltac:(discriminate) (conj Gc (or_intror Mc)) E3 Hq). cbn [opR] in E4.
  assert (E5 := enc_itv OpSub X c m d z cr ltac:(discriminate) (conj GX (or_intror Mz)) (conj Gc (or_intror Mc)) HdX). cbn [opR] in E5.
  assert (E6 := enc_itv OpMul B d m s _ _ ltac:(discriminate) E2 E5 Hs). cbn [opR] in E6.
  assert (E7 := enc_itv OpAdd q s m Z _ _ ltac:(discriminate) E4 E6 H). cbn [opR] in E7.
  change (num_val (PInt 1)) with 1 in E7. exact E7.
Qed.
Lemma contains_zero_enc A a : enc A a -> py_contains A (ONum (PInt 0)) = false -> ~ nan_itv A -> a <> 0.
Proof.
  intros [G [N|Ma]] C NN; [contradiction|]. intros ->. apply member_x in Ma.
  cbv [py_contains] in C. rewrite contains_int0 in C. destruct Ma as [M1 M2].
  destruct (xval (lo A)); simpl in M1, C; try contradiction; destruct (xval (hi A)); simpl in M2, C; try contradiction; try discriminate.
  - apply Bool.not_true_iff_false in C. apply C. now apply xleb_fin.
  - rewrite Bool.andb_true_r in C. apply Bool.not_true_iff_false in C. apply C. now apply xleb_fin.
  - apply Bool.andb_false_iff in C. destruct C as [C|C]; apply Bool.not_true_iff_false in C; apply C; now apply xleb_fin.
Qed.
Lemma hs_values X c Z cr : good X -> (forall r, member X r -> member x0 r) -> good c -> member c cr -> member X cr -> (forall r, member c r -> member x0 r) ->
  returns (hs_op func J X c) m Z -> ~ nan_itv Z ->
  exists L, returns (J X) m L /\ forall l, enc L l -> l <> 0 /\ enc Z (cr - f cr / l).
Proof.
  intros GX SX Gc Mc MXc Sc H NZ. unfold hs_op in H.
  apply keeps_returns in H; [|apply (keeps_J J x0 f' HJ)]. destruct H as (L & HL & H).
  apply keeps_returns in H; [|apply keeps_slope]. destruct H as (la & Hlam & H).
  apply keeps_returns in H; [|apply (keeps_py_op OpMul)]. destruct H as (A & HA & H).
  apply keeps_returns in H; [|apply (keeps_func func x0 f Hf)]. destruct H as (fc & Hfc & H).
  apply keeps_returns in H; [|apply (keeps_py_op OpMul)]. destruct H as (b & Hb & H).
  destruct (py_contains A (ONum (PInt 0))) eqn:CA; [discriminate|].
  apply keeps_returns in H; [|apply (keeps_py_op OpDiv)]. destruct H as (g & Hg & H).
  exists L. split; [exact HL|]. intros l El.
  assert (Fla := Hla X L la (conj GX (conj (ex_intro _ cr MXc) SX)) HL Hlam). destruct (slope_float L m la (proj1 El) Hlam) as (lf & ->).
  destruct (proj2 Hf c m fc Gc Sc Hfc) as [Gfc Efc]. specialize (Efc cr Mc).
  assert (E1 := enc_num_l OpMul (PFlt lf) L m A l ltac:(discriminate) I Fla El HA). cbn [opR] in E1.
  assert (Fn : finite_num (num_neg (PFlt lf))) by (simpl in *; now rewrite is_finite_Bopp).
  assert (E3 := enc_num_l OpMul (num_neg (PFlt lf)) fc m b (f cr) ltac:(discriminate) I Fn (conj Gfc Efc) Hb). cbn [opR] in E3.
  assert (Vn : num_val (num_neg (PFlt lf)) = - num_val (PFlt lf)) by (simpl; apply B2R_Bopp).
  assert (NA : ~ nan_itv A).
  { intro N. apply NZ. destruct (py_op_itv OpDiv b A m g (proj1 E3) (proj1 E1) Hg) as (k1 & s1 & W). assert (Ng := proj1 W (or_intror N)).
    assert (Gg := good_of_wsound2 _ _ _ _ (proj1 E3) (proj1 E1) k1 s1 W).
    destruct (py_op_itv OpAdd c g m Z Gc Gg H) as (_ & _ & W'). exact (proj1 W' (or_intror Ng)). }
  assert (Nz := contains_zero_enc A _ E1 CA NA).
  assert (Nl : l <> 0) by (intros ->; apply Nz; ring). split; [exact Nl|].
  assert (E4 : enc g (- (f cr / l))).
  { refine (enc_div b A m g _ (num_val (PFlt lf) * l) _ E1 Hg).
    rewrite Vn in E3. match type of E3 with enc _ ?e => replace (- (f cr / l) * (num_val (PFlt lf) * l)) with e by (field; exact Nl) end. exact E3. }
  assert (E7 := enc_itv OpAdd c g m Z cr _ ltac:(discriminate) (conj Gc (or_intror Mc)) E4 H). cbn [opR] in E7. exact E7.
Qed.

(** An intersection strictly inside the first operand is the second one. *)
Lemma xmax2_strict a zl : xltb (XFin a) (xmax2 (XFin a) zl) = true -> xmax2 (XFin a) zl = zl /\ xltb (XFin a) zl = true.
Proof.
  unfold xmax2. destruct (xltb (XFin a) zl) eqn:E; [auto|]. rewrite xltb_irrefl. discriminate.
Qed.
Lemma intersect_strict X Z Y a b : xval (lo X) = XFin a -> xval (hi X) = XFin b -> returns (intersect X Z) m Y ->
  num_lt (lo X) (lo Y) = true -> num_lt (hi Y) (hi X) = true ->
  ~ nan_itv Z /\ forall r, member Z r -> a < r < b.
Proof.
  intros Ea Eb H L1 L2. unfold intersect in H. fold (isup X Z) in H. fold (iinf X Z) in H.
  apply keeps_returns in H; [|apply keeps_prim]. destruct H as (d & _ & H).
  rewrite num_lt_x in L1, L2.
  assert (NY : xval (lo Y) <> XNan) by (intro E; rewrite E in L1; destruct (xval (lo X)); discriminate).
  assert (NY2 : xval (hi Y) <> XNan) by (intro E; rewrite E in L2; discriminate).
  destruct (num_le d c1em15).
  2:{ exfalso. destruct (single_sorted (PFlt fnan) (PFlt fnan) m) as (Z' & HZ & _ & E & _). assert (Z' = Y) by (unfold returns in *; congruence). subst Z'.
      destruct E as [[E1 E2]|[E1 E2]]; apply NY; rewrite E1; reflexivity. }
  destruct (single_sorted (isup X Z) (iinf X Z) m) as (Z' & HZ & _ & E & O). assert (Z' = Y) by (unfold returns in *; congruence). subst Z'.
  rewrite Ea in L1. rewrite Eb in L2.
  assert (K : xltb (XFin a) (xval (lo Z)) = true /\ xltb (xval (hi Z)) (XFin b) = true).
  { assert (S1 := isup_x X Z). assert (S2 := iinf_x X Z). rewrite Ea in S1. rewrite Eb in S2.
    destruct E as [[E1 E2]|[E1 E2]].
    - rewrite E1, S1 in L1. rewrite E2, S2 in L2. split; [exact (proj2 (xmax2_strict _ _ L1))|].
      revert L2. unfold xmin2. destruct (xltb (XFin b) (xval (hi Z))); [rewrite xltb_irrefl; discriminate | auto].
    - assert (O' : num_le (lo Y) (hi Y) = true).
      { apply O; [rewrite <- E2 | rewrite <- E1]; apply Bool.not_true_iff_false; intro N.
        - apply NY2. now apply is_nan_num_x.
        - apply NY. now apply is_nan_num_x. }
      rewrite num_le_x in O'. assert (L3 : xltb (XFin a) (xval (hi Y)) = true).
      { destruct (xval (lo Y)), (xval (hi Y)); try discriminate; try reflexivity. apply xltb_fin in L1. apply xleb_fin in O'. apply xltb_fin. lra. }
      assert (L4 : xltb (xval (lo Y)) (XFin b) = true).
      { destruct (xval (lo Y)), (xval (hi Y)); try discriminate; try reflexivity. apply xltb_fin in L2. apply xleb_fin in O'. apply xltb_fin. lra. }
      rewrite E2, S1 in L3. rewrite E1, S2 in L4. split; [exact (proj2 (xmax2_strict _ _ L3))|].
      revert L4. unfold xmin2. destruct (xltb (XFin b) (xval (hi Z))); [rewrite xltb_irrefl; discriminate | auto]. }
  destruct K as [K1 K2]. split.
  - intro N. apply nan_itv_x in N. rewrite (proj2 N) in K2. discriminate.
  - intros r Mr. apply member_x in Mr. destruct Mr as [M1 M2].
    destruct (xval (lo Z)) as [| | |zl]; try discriminate; try contradiction. destruct (xval (hi Z)) as [| | |zh]; try discriminate; try contradiction.
    apply xltb_fin in K1, K2. simpl in M1, M2. lra.
Qed.

(** One application that ends strictly inside finds a zero. *)
Definition finds (op : itv -> itv -> M itv) : Prop := forall c Z cr a b,
  good c -> member c cr -> member x0 cr -> (forall r, member c r -> member x0 r) -> xval (lo x0) = XFin a -> xval (hi x0) = XFin b ->
  returns (op x0 c) m Z -> ~ nan_itv Z -> (forall r, member Z r -> a < r < b) ->
  exists z, member x0 z /\ f z = 0 /\ forall z', member x0 z' -> f z' = 0 -> z' = z.
Lemma x0_good : good x0.
Proof.
  destruct Hx0 as (kX & sX & PX & _). split; [exact kX|]. split; [exact sX|]. right.
  destruct (proper_fin_x x0 PX) as (l & h & Hl & Hh & Hlh & _). exists l. apply member_x. rewrite Hl, Hh. simpl. lra.
Qed.
Lemma x0_member a b r : xval (lo x0) = XFin a -> xval (hi x0) = XFin b -> (member x0 r <-> a <= r <= b).
Proof. intros A B. rewrite member_x, A, B. simpl. tauto. Qed.
Lemma enc_strict Z a b : ~ nan_itv Z -> (forall r, member Z r -> a < r < b) -> forall r, enc Z r -> a < r < b.
Proof. intros N H r [_ [E|E]]; [contradiction | auto]. Qed.

Lemma kraw_finds : finds (kraw_op func J).
Proof.
  intros c Z cr a b Gc Mc Mxc Sc Ea Eb H NZ S. assert (GX := x0_good).
  destruct (kraw_values x0 c Z cr GX (fun _ h => h) Gc Mc Mxc Sc H) as (L & la & HL & V).
  assert (S' := enc_strict Z a b NZ S). assert (MX := fun r => x0_member a b r Ea Eb).
  assert (P : forall r, member x0 r -> a < r - la * f r < b).
  { intros r Hr. destruct (slope_in x0 cr r L GX (fun _ h => h) Mxc Hr HL) as (l & El & E). specialize (S' _ (V l r El Hr)).
    replace (cr - la * f cr + (1 - la * l) * (r - cr)) with (r - la * f r) in S' by (replace (f r) with (f cr + l * (r - cr)) by lra; ring). exact S'. }
  assert (Hcr := proj1 (MX cr) Mxc).
  assert (Pa := P a ltac:(apply MX; lra)). assert (Pb := P b ltac:(apply MX; lra)).
  assert (AB : a < b) by lra.
  destruct (zero_between (fun r => la * f r) a b) as (z & Hz & E).
  - intros r Hr. apply (continuity_pt_scal f la r). apply f_cont. now apply MX.
  - exact AB.
  - left. lra.
  - assert (Nla : la <> 0) by (intros ->; lra). assert (Fz : f z = 0) by (destruct (Rmult_integral _ _ E); [contradiction | assumption]).
    exists z. split; [now apply MX|]. split; [exact Fz|]. intros z' Mz' Fz'. destruct (Req_dec z' z) as [|N]; [assumption|]. exfalso.
    assert (E0 := two_zeros x0 z' z L GX (fun _ h => h) Mz' ltac:(now apply MX) HL N Fz' Fz).
    assert (Va := S' _ (V 0 a E0 ltac:(apply MX; lra))). assert (Vb := S' _ (V 0 b E0 ltac:(apply MX; lra))). lra.
Qed.
Lemma hs_finds : finds (hs_op func J).
Proof.
  intros c Z cr a b Gc Mc Mxc Sc Ea Eb H NZ S. assert (GX := x0_good).
  destruct (hs_values x0 c Z cr GX (fun _ h => h) Gc Mc Mxc Sc H NZ) as (L & HL & V).
  assert (S' := enc_strict Z a b NZ S). assert (MX := fun r => x0_member a b r Ea Eb).
  assert (Hcr := proj1 (MX cr) Mxc).
  assert (U : exists z, member x0 z /\ f z = 0).
  { destruct (slope_in x0 a cr L GX (fun _ h => h) ltac:(apply MX; lra) Mxc HL) as (l1 & El1 & E1).
    destruct (slope_in x0 cr b L GX (fun _ h => h) Mxc ltac:(apply MX; lra) HL) as (l2 & El2 & E2).
    destruct (V l1 El1) as [N1 V1]. destruct (V l2 El2) as [N2 V2]. apply S' in V1, V2.
    set (q1 := f cr / l1) in *. set (q2 := f cr / l2) in *.
    assert (Q1 : f cr = q1 * l1) by (unfold q1; field; exact N1). assert (Q2 : f cr = q2 * l2) by (unfold q2; field; exact N2).
    assert (FA : f a = - l1 * (cr - q1 - a)) by lra. assert (FB : f b = l2 * (b - (cr - q2))) by lra.
    assert (SG : 0 < l1 /\ 0 < l2 \/ l1 < 0 /\ l2 < 0).
    { destruct (Rtotal_order l1 0) as [H1|[H1|H1]]; [|contradiction|]; (destruct (Rtotal_order l2 0) as [H2|[H2|H2]]; [|contradiction|]); auto; exfalso.
      - exact (proj1 (V 0 (enc_between L l1 l2 0 El1 El2 ltac:(lra))) eq_refl).
      - exact (proj1 (V 0 (enc_between L l2 l1 0 El2 El1 ltac:(lra))) eq_refl). }
    destruct (zero_between f a b) as (z & Hz & E).
    - intros r Hr. apply f_cont. now apply MX.
    - lra.
    - destruct SG as [[P1 P2]|[P1 P2]]; [left | right]; rewrite FA, FB; nra.
    - exists z. split; [now apply MX | exact E]. }
  destruct U as (z & Mz & Fz). exists z. split; [exact Mz|]. split; [exact Fz|]. intros z' Mz' Fz'.
  destruct (Req_dec z' z) as [|N]; [assumption|]. exfalso.
  exact (proj1 (V 0 (two_zeros x0 z' z L GX (fun _ h => h) Mz' Mz HL N Fz' Fz)) eq_refl).
Qed.

Lemma newton_one op tol Z : (forall X c, keeps_mode (op X c)) -> finds op ->
  returns (newton func distance op 1 tol x0) m Z -> num_lt (lo x0) (lo Z) = true -> num_lt (hi Z) (hi x0) = true ->
  exists z, member x0 z /\ f z = 0 /\ forall z', member x0 z' -> f z' = 0 -> z' = z.
Proof.
  intros K Kop H L1 L2. unfold newton in H.
  apply keeps_returns in H; [|intro; apply Hf]. destruct H as (F & HF & H).
  destruct (py_contains F (ONum (PInt 0))); [|discriminate].
  apply keeps_returns in H; [|apply keeps_mid_itv]. destruct H as (c & Hc & H).
  destruct (mid_itv_spec x0 m c Hx0 Hc) as (Gc & cr & Mc & Mxc).
  destruct (proper_fin_x x0 (proj1 (proj2 (proj2 Hx0)))) as (a & b & Ea & Eb & _).
  cbn [newton_loop] in H. destruct (num_lt tol (PFlt finf)).
  2:{ apply returns_ret in H. subst Z. rewrite num_lt_x, xltb_irrefl in L1. discriminate. }
  apply keeps_returns in H; [|apply K]. destruct H as (zz & Hzz & H).
  apply keeps_returns in H; [|apply keeps_intersect]. destruct H as (Y & HY & H).
  assert (EY : Y = Z).
  { destruct (isnan_itv Y); [now apply returns_ret in H|].
    apply keeps_returns in H; [|apply keeps_mid_itv]. destruct H as (c' & Hc' & H). now apply returns_ret in H. }
  subst Y. destruct (intersect_strict x0 zz Z a b Ea Eb HY L1 L2) as [NZ S].
  refine (Kop c zz cr a b Gc Mc Mxc _ Ea Eb Hzz NZ S).
  intros t Ht. assert (t = cr) by exact (mid_itv_point x0 m c t cr Hx0 Hc Ht Mc). now subst t.
Qed.
End Verify.

Lemma strict_not_nan X Z : num_lt (lo X) (lo Z) = true -> num_lt (hi Z) (hi X) = true -> isnan_itv Z = false.
Proof.
  rewrite !num_lt_x. intros L1 L2. unfold isnan_itv. apply Bool.orb_false_iff. split; apply Bool.not_true_iff_false; intro N; apply is_nan_num_x in N.
  - rewrite N in L1. destruct (xval (lo X)); discriminate.
  - rewrite N in L2. discriminate.
Qed.
Theorem krawczyk_proves func J distance x0 f f' tol m Z : modest x0 -> encloses_on x0 func f -> encloses_on x0 J f' ->
  (forall r, member x0 r -> derivable_pt_lim f r (f' r)) ->
  (forall X L la, part x0 X -> returns (J X) m L -> returns (slope_recip L) m la -> finite_num la) ->
  returns (krawczyk func J distance x0 0 tol) m Z -> num_lt (lo x0) (lo Z) = true -> num_lt (hi Z) (hi x0) = true ->
  exists z, member Z z /\ f z = 0 /\ forall z', member x0 z' -> f z' = 0 -> z' = z.
Proof.
  intros Mx Hf HJ Hd Hla H L1 L2. destruct (fun K F => newton_one func distance x0 f m Mx Hf (kraw_op func J) tol Z K F H L1 L2) as (z & Mz & Fz & U).
  - eapply keeps_kraw; eassumption.
  - eapply kraw_finds; eassumption.
  - exists z. split; [|auto]. exact (proj1 (krawczyk_keeps func J distance x0 f f' _ tol m Z Mx Hf HJ Hd Hla H (strict_not_nan x0 Z L1 L2) z Mz Fz)).
Qed.
Theorem hansen_sengupta_proves func J distance x0 f f' tol m Z : modest x0 -> encloses_on x0 func f -> encloses_on x0 J f' ->
  (forall r, member x0 r -> derivable_pt_lim f r (f' r)) ->
  (forall X L la, part x0 X -> returns (J X) m L -> returns (slope_recip L) m la -> finite_num la) ->
  returns (hansen_sengupta func J distance x0 1 tol) m Z -> num_lt (lo x0) (lo Z) = true -> num_lt (hi Z) (hi x0) = true ->
  exists z, member Z z /\ f z = 0 /\ forall z', member x0 z' -> f z' = 0 -> z' = z.
Proof.
  intros Mx Hf HJ Hd Hla H L1 L2. destruct (fun K F => newton_one func distance x0 f m Mx Hf (hs_op func J) tol Z K F H L1 L2) as (z & Mz & Fz & U).
  - eapply keeps_hs; eassumption.
  - eapply hs_finds; eassumption.
  - exists z. split; [|auto]. exact (proj1 (hansen_sengupta_keeps func J distance x0 f f' _ tol m Z Mx Hf HJ Hd Hla H (strict_not_nan x0 Z L1 L2) z Mz Fz)).
Qed.

(** ** A NaN result excludes zeros *)
Lemma xround_fin mo r : Rabs r <= bpow radix2 1023 -> exists v, xround mo r = XFin v /\ Rabs v <= bpow radix2 1023.
Proof.
  intro H. assert (B : Rabs (rnd mo r) <= bpow radix2 1023).
  { apply abs_round_le_generic; auto with typeclass_instances. apply generic_format_bpow. unfold SpecFloat.fexp, SpecFloat.emin. lia. }
  exists (rnd mo r). split; [|exact B]. unfold xround. rewrite Rlt_bool_true; [reflexivity|]. apply Rle_lt_trans with (1 := B). apply bpow_lt. lia.
Qed.
Lemma member_not_nan Z r : member Z r -> isnan_itv Z = false.
Proof.
  intro H. apply member_x in H. destruct H as [A B]. unfold isnan_itv. apply Bool.orb_false_iff. split; apply Bool.not_true_iff_false; intro N; apply is_nan_num_x in N.
  - rewrite N in A. destruct A.
  - rewrite N in B. destruct B.
Qed.
Lemma enc_member Z r : enc Z r -> ~ nan_itv Z -> member Z r.
Proof. intros [_ [N|M]] H; [contradiction | exact M]. Qed.
Lemma nan_lo Z : xval (lo Z) <> XNan -> ~ nan_itv Z.
Proof. intros H N. apply nan_itv_x in N. destruct N. contradiction. Qed.
Lemma finite_x x : finite_num x -> exists r, xval x = XFin r /\ num_val x = r.
Proof. destruct x as [z|g]; simpl; [eauto|]. intro H. apply is_finite_x in H. eauto. Qed.
Lemma gives_ends c m k xi xu Z : gives c m k xi xu -> returns c m Z -> xval (lo Z) = xi /\ xval (hi Z) = xu.
Proof.
  intros H HZ. destruct (gives_returns _ _ _ _ _ H) as (Z' & HZ' & _ & E1 & E2 & _).
  assert (Z' = Z) by (unfold returns in *; congruence). subst; auto.
Qed.
Lemma scaled_not_nan c X m Z : small_itv X -> small_num c -> kd X = Classical -> finite_num c -> finite_itv X ->
  returns (py_mul (ONum c) (OItv X)) m Z -> xval (lo Z) <> XNan.
Proof.
  intros sX sc kX Fc [F1 F2] H. destruct (gives_ends _ _ _ _ _ Z (rmul_gives X c m sX sc kX) H) as [E1 _].
  destruct (finite_x c Fc) as (rc & Ec & _). destruct (finite_x _ F1) as (r1 & E1' & _). destruct (finite_x _ F2) as (r2 & E2' & _).
  rewrite E1, Ec, E1', E2'. apply xmin2_nnan. apply xmul_fin_nnan.
Qed.
Lemma scaled_finite c X m Z : small_itv X -> small_num c -> kd X = Classical -> finite_num c -> finite_itv X ->
  Rabs (num_val c * num_val (lo X)) <= bpow radix2 1023 -> Rabs (num_val c * num_val (hi X)) <= bpow radix2 1023 ->
  returns (py_mul (ONum c) (OItv X)) m Z ->
  exists a b, xval (lo Z) = XFin a /\ xval (hi Z) = XFin b /\ Rabs a <= bpow radix2 1023 /\ Rabs b <= bpow radix2 1023.
Proof.
  intros sX sc kX Fc [F1 F2] B1 B2 H. destruct (gives_ends _ _ _ _ _ Z (rmul_gives X c m sX sc kX) H) as [E1 E2].
  destruct (finite_x c Fc) as (rc & Ec & Vc). destruct (finite_x _ F1) as (r1 & E1' & V1). destruct (finite_x _ F2) as (r2 & E2' & V2).
  rewrite E1, E2, Ec, E1', E2'. rewrite Vc, V1 in B1. rewrite Vc, V2 in B2. cbn [xmul].
  destruct (xround_fin mode_DN _ B1) as (a1 & -> & A1). destruct (xround_fin mode_DN _ B2) as (a2 & -> & A2).
  destruct (xround_fin mode_UP _ B1) as (b1 & -> & C1). destruct (xround_fin mode_UP _ B2) as (b2 & -> & C2).
  unfold xmin2, xmax2. destruct (xltb (XFin a2) (XFin a1)), (xltb (XFin b1) (XFin b2)); eauto 8.
Qed.
Lemma xround_le mo r k : (k <= 1023)%Z -> (-1000 <= k)%Z -> Rabs r <= bpow radix2 k -> exists v, xround mo r = XFin v /\ Rabs v <= bpow radix2 k.
Proof.
  intros K K2 H. assert (B : Rabs (rnd mo r) <= bpow radix2 k).
  { apply abs_round_le_generic; auto with typeclass_instances. apply generic_format_bpow. unfold SpecFloat.fexp, SpecFloat.emin. lia. }
  exists (rnd mo r). split; [|exact B]. unfold xround. rewrite Rlt_bool_true; [reflexivity|]. apply Rle_lt_trans with (1 := B). apply bpow_lt. lia.
Qed.

Section Tame.
Variables (func J : itv -> M itv) (distance : itv -> itv -> pynum) (x0 : itv) (f f' : R -> R) (m : rmode).
Hypothesis Hx0 : modest x0.
Hypothesis Hf : encloses_on x0 func f.
Hypothesis HJ : encloses_on x0 J f'.
Hypothesis Hd : forall r, member x0 r -> derivable_pt_lim f r (f' r).
Hypothesis Tf : forall X F, part x0 X -> returns (func X) m F -> finite_itv F.
Hypothesis TJ : forall X L, part x0 X -> returns (J X) m L -> finite_itv L.
Hypothesis Tla : forall X L la, part x0 X -> returns (J X) m L -> returns (slope_recip L) m la ->
  finite_num la /\ forall l, member L l -> Rabs (num_val la * l) <= bpow radix2 1000.
Variable z : R.
Hypothesis Hz : f z = 0.

Lemma Tla' : forall X L la, part x0 X -> returns (J X) m L -> returns (slope_recip L) m la -> finite_num la.
Proof. intros X L la G H1 H2. exact (proj1 (Tla X L la G H1 H2)). Qed.
Lemma finite_members L : good L -> finite_itv L -> member L (num_val (lo L)) /\ member L (num_val (hi L)).
Proof.
  intros (_ & _ & G) [F1 F2]. destruct (finite_x _ F1) as (r1 & E1 & V1). destruct (finite_x _ F2) as (r2 & E2 & V2).
  destruct G as [N|[r Hr]].
  - apply nan_itv_x in N. destruct N as [N _]. congruence.
  - apply member_x in Hr. rewrite E1, E2 in Hr. destruct Hr as [R1 R2]. simpl in R1, R2.
    split; apply member_x; rewrite E1, E2, ?V1, ?V2; simpl; lra.
Qed.
Lemma slope_scaled X L la t : part x0 X -> returns (J X) m L -> good L -> returns (slope_recip L) m la ->
  returns (py_mul (ONum la) (OItv L)) m t ->
  exists a b, xval (lo t) = XFin a /\ xval (hi t) = XFin b /\ Rabs a <= bpow radix2 1000 /\ Rabs b <= bpow radix2 1000.
Proof.
  intros PX HL GL Hlam Ht. destruct (Tla X L la PX HL Hlam) as [Fla Bla]. assert (FL := TJ X L PX HL).
  destruct (slope_float L m la GL Hlam) as (lf & ->). destruct (finite_members L GL FL) as [M1 M2].
  assert (GL' := GL). destruct GL' as (kL & sL & _). destruct FL as [F1 F2].
  destruct (gives_ends _ _ _ _ _ t (rmul_gives L (PFlt lf) m sL I kL) Ht) as [E1 E2].
  destruct (finite_x _ Fla) as (rc & Ec & Vc). destruct (finite_x _ F1) as (r1 & E1' & V1). destruct (finite_x _ F2) as (r2 & E2' & V2).
  apply Bla in M1, M2. rewrite Vc, V1 in M1. rewrite Vc, V2 in M2. rewrite E1, E2, Ec, E1', E2'. cbn [xmul].
  destruct (xround_le mode_DN _ 1000 ltac:(lia) ltac:(lia) M1) as (a1 & -> & A1). destruct (xround_le mode_DN _ 1000 ltac:(lia) ltac:(lia) M2) as (a2 & -> & A2).
  destruct (xround_le mode_UP _ 1000 ltac:(lia) ltac:(lia) M1) as (b1 & -> & C1). destruct (xround_le mode_UP _ 1000 ltac:(lia) ltac:(lia) M2) as (b2 & -> & C2).
  unfold xmin2, xmax2. destruct (xltb (XFin a2) (XFin a1)), (xltb (XFin b1) (XFin b2)); eauto 8.
Qed.
Lemma pow_1000 : 1 <= bpow radix2 1000. Proof. change 1 with (bpow radix2 0). apply bpow_le. lia. Qed.

Definition keeps_zero_strong (op : itv -> itv -> M itv) : Prop := (forall X c, keeps_mode (op X c)) /\
  forall X c Z cr, kept x0 z X -> good c -> finite_itv c -> member c cr -> member X cr -> (forall r, member c r -> member x0 r) -> returns (op X c) m Z -> good Z /\ member Z z.
Lemma finite_of_x X a b : xval (lo X) = XFin a -> xval (hi X) = XFin b -> finite_itv X.
Proof. intros A B. apply xval_num_val in A, B. split; tauto. Qed.
Lemma not_nan_mem X r : good X -> xval (lo X) <> XNan -> member_or_nan X r -> member X r.
Proof. intros _ H [N|M]; [|exact M]. exfalso. exact (nan_lo X H N). Qed.

Lemma kraw_strong : keeps_zero_strong (kraw_op func J).
Proof.
  split; [eapply keeps_kraw; eassumption|]. intros X c Z cr KX Gc Fc Mc MXc Sc H.
  assert (E0 := proj2 (kraw_keeps func J x0 f f' m Hf HJ Hd Tla' z Hz) X c Z cr KX Gc Mc MXc Sc H).
  split; [exact (proj1 E0)|]. apply enc_member; [exact E0|].
  assert (MoX := sub_modest x0 z X Hx0 KX). destruct KX as (GX & Mz & SX). unfold kraw_op in H.
  apply keeps_returns in H; [|apply (keeps_J J x0 f' HJ)]. destruct H as (L & HL & H).
  apply keeps_returns in H; [|apply keeps_slope]. destruct H as (la & Hlam & H).
  apply keeps_returns in H; [|apply (keeps_py_op OpMul)]. destruct H as (t & Ht & H).
  apply keeps_returns in H; [|apply (keeps_py_op OpSub)]. destruct H as (B & HB & H).
  apply keeps_returns in H; [|apply (keeps_func func x0 f Hf)]. destruct H as (fc & Hfc & H).
  apply keeps_returns in H; [|apply (keeps_py_op OpMul)]. destruct H as (p & Hp & H).
  apply keeps_returns in H; [|apply (keeps_py_op OpSub)]. destruct H as (q & Hq & H).
  apply keeps_returns in H; [|apply (keeps_py_op OpSub)]. destruct H as (d & HdX & H).
  apply keeps_returns in H; [|apply (keeps_py_op OpMul)]. destruct H as (s & Hs & H).
  destruct (mean_value J x0 f f' m HJ Hd z Hz X cr L GX SX MXc Mz HL) as (l & El & Ef).
  assert (PaX := conj GX (conj (ex_intro _ z Mz) SX) : part x0 X). assert (Fla := Tla' X L la PaX HL Hlam). destruct (slope_scaled X L la t PaX HL (proj1 El) Hlam Ht) as (ta & tb & Eta & Etb & Bta & Btb).
  destruct (slope_float L m la (proj1 El) Hlam) as (lf & ->).
  destruct (proj2 Hf c m fc Gc Sc Hfc) as [Gfc Efc]. specialize (Efc cr Mc). assert (Ffc := Tf c fc (conj Gc (conj (ex_intro _ cr Mc) Sc)) Hfc).
  assert (E1 := enc_num_l OpMul (PFlt lf) L m t l ltac:(discriminate) I Fla El Ht). cbn [opR] in E1.
  assert (E2 := enc_num_l OpSub (PInt 1) t m B _ ltac:(discriminate) ltac:(simpl; lia) I E1 HB). cbn [opR] in E2.
  assert (E3 := enc_num_l OpMul (PFlt lf) fc m p (f cr) ltac:(discriminate) I Fla (conj Gfc Efc) Hp). cbn [opR] in E3.
  assert (E5 := enc_itv OpSub X c m d z cr ltac:(discriminate) (conj GX (or_intror Mz)) (conj Gc (or_intror Mc)) HdX). cbn [opR] in E5.
  assert (E6 := enc_itv OpMul B d m s _ _ ltac:(discriminate) E2 E5 Hs). cbn [opR] in E6.
  (* 1 - t is finite *)
  assert (FB : finite_itv B).
  { destruct (gives_ends _ _ _ _ _ B (rsub_gives t (PInt 1) m (proj1 (proj2 (proj1 E1))) ltac:(simpl; lia)) HB) as [B1 B2].
    rewrite Eta in B2. rewrite Etb in B1. change (xval (PInt 1)) with (XFin 1) in B1, B2. unfold xsub in B1, B2. cbn [xopp xadd] in B1, B2.
    assert (P := pow_1000). assert (Q : 2 * bpow radix2 1000 <= bpow radix2 1023).
    { replace (2 * bpow radix2 1000) with (bpow radix2 1001) by (replace 1001%Z with (1 + 1000)%Z by lia; now rewrite bpow_plus). apply bpow_le. lia. }
    destruct (xround_fin mode_DN (1 + - tb)) as (v1 & X1 & _). { apply Rabs_le_inv in Btb. apply Rabs_le. lra. }
    destruct (xround_fin mode_UP (1 + - ta)) as (v2 & X2 & _). { apply Rabs_le_inv in Bta. apply Rabs_le. lra. }
    rewrite X1 in B1. rewrite X2 in B2. exact (finite_of_x B v1 v2 B1 B2). }
  (* X - c is finite *)
  assert (Fd : finite_itv d).
  { assert (G := sub_gives X c m (proj1 (proj2 GX)) (proj1 (proj2 Gc))). destruct (gives_ends _ _ _ _ _ d G HdX) as [D1 D2].
    destruct MoX as (_ & _ & PX & Bl & Bh). destruct (proper_fin_x X PX) as (xl & xh & Hxl & Hxh & Hlh & V1 & V2). rewrite <- V1 in Bl. rewrite <- V2 in Bh.
    destruct (finite_members c Gc Fc) as [C1 C2]. destruct Fc as [Fc1 Fc2]. destruct (finite_x _ Fc1) as (c1 & Ec1 & Vc1). destruct (finite_x _ Fc2) as (c2 & Ec2 & Vc2).
    apply Sc in C1, C2. destruct Hx0 as (_ & _ & P0 & B0l & B0h). destruct (proper_fin_x x0 P0) as (yl & yh & Hyl & Hyh & _ & W1 & W2). rewrite <- W1 in B0l. rewrite <- W2 in B0h.
    rewrite member_x, Hyl, Hyh in C1, C2. simpl in C1, C2. rewrite Vc1 in C1. rewrite Vc2 in C2.
    rewrite Hxl, Ec2 in D1. rewrite Hxh, Ec1 in D2. unfold xsub in D1, D2. cbn [xopp xadd] in D1, D2.
    assert (Q : 2 * bpow radix2 1022 = bpow radix2 1023) by (replace 1023%Z with (1 + 1022)%Z by lia; now rewrite bpow_plus).
    apply Rabs_le_inv in Bl, Bh, B0l, B0h.
    destruct (xround_fin mode_DN (xl + - c2)) as (v1 & X1 & _). { apply Rabs_le. lra. }
    destruct (xround_fin mode_UP (xh + - c1)) as (v2 & X2 & _). { apply Rabs_le. lra. }
    rewrite X1 in D1. rewrite X2 in D2. exact (finite_of_x d v1 v2 D1 D2). }
  assert (Ms : ~ nan_itv s).
  { destruct E2 as ((kB & sB & _) & _), E5 as ((kD & sD & _) & _).
    destruct (mul_finite_not_nan B d m sB sD kB kD FB Fd) as (s' & Hs' & N1 & _). assert (s' = s) by (unfold returns in *; cbv [py_mul py_op] in Hs; congruence). subst s'.
    intros [N _]. congruence. }
  assert (Mp : ~ nan_itv p).
  { destruct Gfc as (kF & sF & _). apply nan_lo. exact (scaled_not_nan (PFlt lf) fc m p sF I kF Fla Ffc Hp). }
  assert (Mq : exists r, member q r).
  { exists (cr - num_val (PFlt lf) * f cr). destruct (sub_encl c p m (proj1 (proj2 Gc)) (proj1 (proj2 (proj1 E3)))) as (q' & Hq' & S).
    assert (q' = q) by (unfold returns in *; cbv [py_sub py_op] in Hq; congruence). subst q'. apply S; [exact Mc | exact (enc_member _ _ E3 Mp)]. }
  assert (E4 := enc_itv OpSub c p m q cr _ ltac:(discriminate) (conj Gc (or_intror Mc)) E3 Hq).
  destruct Mq as (qr & Mq). destruct (add_encl q s m (proj1 (proj2 (proj1 E4))) (proj1 (proj2 (proj1 E6)))) as (Z' & HZ' & S).
  assert (Z' = Z) by (unfold returns in *; cbv [py_add py_op] in H; congruence). subst Z'.
  intro N. exact (nan_no_member Z _ N (S _ _ Mq (enc_member _ _ E6 Ms))).
Qed.

Lemma xdiv_nnan mo x r : x <> XNan -> r <> 0 -> xdiv mo x (XFin r) <> XNan.
Proof.
  intros N Nr. destruct x; cbn [xdiv]; try contradiction.
  - unfold xinf_times. destruct (Rcompare_spec r 0); simpl; congruence.
  - unfold xinf_times. destruct (Rcompare_spec r 0); simpl; congruence.
  - apply xround_not_nan.
Qed.
Lemma hs_strong : keeps_zero_strong (hs_op func J).
Proof.
  split; [eapply keeps_hs; eassumption|]. intros X c Z cr KX Gc Fc Mc MXc Sc H.
  assert (E0 := proj2 (hs_keeps func J x0 f f' m Hf HJ Hd Tla' z Hz) X c Z cr KX Gc Mc MXc Sc H).
  split; [exact (proj1 E0)|]. apply enc_member; [exact E0|].
  destruct KX as (GX & Mz & SX). unfold hs_op in H.
  apply keeps_returns in H; [|apply (keeps_J J x0 f' HJ)]. destruct H as (L & HL & H).
  apply keeps_returns in H; [|apply keeps_slope]. destruct H as (la & Hlam & H).
  apply keeps_returns in H; [|apply (keeps_py_op OpMul)]. destruct H as (A & HA & H).
  apply keeps_returns in H; [|apply (keeps_func func x0 f Hf)]. destruct H as (fc & Hfc & H).
  apply keeps_returns in H; [|apply (keeps_py_op OpMul)]. destruct H as (b & Hb & H).
  destruct (py_contains A (ONum (PInt 0))) eqn:CA; [discriminate|].
  apply keeps_returns in H; [|apply (keeps_py_op OpDiv)]. destruct H as (g & Hg & H).
  destruct (mean_value J x0 f f' m HJ Hd z Hz X cr L GX SX MXc Mz HL) as (l & El & Ef).
  assert (PaX := conj GX (conj (ex_intro _ z Mz) SX) : part x0 X). assert (Fla := Tla' X L la PaX HL Hlam). destruct (slope_scaled X L la A PaX HL (proj1 El) Hlam HA) as (ta & tb & Eta & Etb & _ & _).
  destruct (slope_float L m la (proj1 El) Hlam) as (lf & ->).
  destruct (proj2 Hf c m fc Gc Sc Hfc) as [Gfc Efc]. specialize (Efc cr Mc). assert (Ffc := Tf c fc (conj Gc (conj (ex_intro _ cr Mc) Sc)) Hfc).
  assert (E1 := enc_num_l OpMul (PFlt lf) L m A l ltac:(discriminate) I Fla El HA). cbn [opR] in E1.
  assert (Fn : finite_num (num_neg (PFlt lf))) by (simpl in *; now rewrite is_finite_Bopp).
  assert (E3 := enc_num_l OpMul (num_neg (PFlt lf)) fc m b (f cr) ltac:(discriminate) I Fn (conj Gfc Efc) Hb). cbn [opR] in E3.
  assert (Nb : xval (lo b) <> XNan) by (destruct Gfc as (kF & sF & _); exact (scaled_not_nan (num_neg (PFlt lf)) fc m b sF I kF Fn Ffc Hb)).
  assert (Ng : ~ nan_itv g).
  { apply nan_lo. destruct E1 as (GA & _). assert (OA := good_ordered A GA). destruct E3 as ((kb & sb & _) & _). destruct GA as (kA & sA & _).
    assert (C0 : contains_num A pn0 = false) by (rewrite contains0_x; cbv [py_contains] in CA; rewrite contains_int0 in CA; exact CA).
    destruct (zero_ends A C0 OA) as [N1 _]. rewrite Eta in N1.
    destruct (gives_ends _ _ _ _ _ g (div_gives b A m sb sA kb kA C0 OA) Hg) as [G1 _]. rewrite G1. unfold xdiv_lo. apply xmin4_nnan.
    rewrite Eta. apply xdiv_nnan; [exact Nb | congruence]. }
  destruct (py_op_itv OpDiv b A m g (proj1 E3) (proj1 E1) Hg) as (kg & sg & W).
  assert (Gg := good_of_wsound2 _ _ _ _ (proj1 E3) (proj1 E1) kg sg W).
  assert (Mg : exists r, member g r) by (destruct Gg as (_ & _ & [N|M]); [contradiction | exact M]). destruct Mg as (gr & Mg).
  destruct (add_encl c g m (proj1 (proj2 Gc)) sg) as (Z' & HZ' & S).
  assert (Z' = Z) by (unfold returns in *; cbv [py_add py_op] in H; congruence). subst Z'.
  intro N. exact (nan_no_member Z _ N (S _ _ Mc Mg)).
Qed.
Lemma mid_itv_finite X c : modest X -> returns (mid_itv X) m c -> finite_itv c.
Proof.
  intros MX H. unfold mid_itv in H. apply keeps_returns in H; [|apply keeps_mid]. destruct H as (v & Hv & H).
  destruct (modest_mid X m v MX Hv) as (g & -> & F & Mf).
  destruct (single_unsorted (PFlt g) (PFlt g) m) as (Z & HZ & Zl & Zh & kZ). assert (Z = c) by (unfold returns in *; congruence). subst Z.
  unfold finite_itv. rewrite Zl, Zh. split; exact F.
Qed.
Lemma loop_strong op tol : keeps_zero_strong op -> forall fuel e X c Z cr, kept x0 z X -> good c -> finite_itv c -> member c cr -> member X cr -> (forall r, member c r -> member x0 r) ->
  returns (newton_loop distance op fuel tol e X c) m Z -> kept x0 z Z.
Proof.
  intros [K KZ]. induction fuel as [|n IH]; intros e X c Z cr HX Gc Fc Mc MXc Sc H; cbn [newton_loop] in H.
  - apply returns_ret in H. now subst Z.
  - destruct (num_lt tol e); [|apply returns_ret in H; now subst Z].
    apply keeps_returns in H; [|apply K]. destruct H as (zz & Hzz & H).
    apply keeps_returns in H; [|apply keeps_intersect]. destruct H as (Y & HY & H).
    destruct (KZ X c zz cr HX Gc Fc Mc MXc Sc Hzz) as [Gzz Mzz]. destruct HX as (GX & Mz & SX).
    destruct (intersect_spec X zz m GX Gzz) as (Y' & HY' & _ & C & _). assert (Y' = Y) by (unfold returns in *; congruence). subst Y'.
    assert (NY := member_not_nan Y z (C z Mz Mzz)). rewrite NY in H.
    apply keeps_returns in H; [|apply keeps_mid_itv]. destruct H as (c' & Hc' & H).
    destruct (intersect_keep X zz m Y z GX Mz (conj Gzz (or_intror Mzz)) HY NY) as (GY & MY & SY).
    assert (KY : kept x0 z Y) by (split; [exact GY|split; [exact MY|auto]]).
    assert (MoY := sub_modest x0 z Y Hx0 KY).
    destruct (mid_itv_spec Y m c' MoY Hc') as (Gc' & r & Mr & MYr).
    refine (IH _ Y c' Z r KY Gc' (mid_itv_finite Y c' MoY Hc') Mr MYr _ H). intros t Ht.
    assert (t = r) by exact (mid_itv_point Y m c' t r MoY Hc' Ht Mr). subst t. auto.
Qed.
Lemma newton_strong op fuel tol Z : keeps_zero_strong op -> returns (newton func distance op fuel tol x0) m Z -> member x0 z -> kept x0 z Z.
Proof.
  intros Kop H Mz. unfold newton in H.
  apply keeps_returns in H; [|intro; apply Hf]. destruct H as (F & HF & H).
  destruct (py_contains F (ONum (PInt 0))); [|discriminate].
  apply keeps_returns in H; [|apply keeps_mid_itv]. destruct H as (c & Hc & H).
  destruct (mid_itv_spec x0 m c Hx0 Hc) as (Gc & cr & Mc & Mxc).
  refine (loop_strong op tol Kop fuel _ x0 c Z cr (modest_kept x0 z Hx0 Mz) Gc (mid_itv_finite x0 c Hx0 Hc) Mc Mxc _ H).
  intros t Ht. assert (t = cr) by exact (mid_itv_point x0 m c t cr Hx0 Hc Ht Mc). now subst t.
Qed.
End Tame.

Theorem krawczyk_excludes func J distance x0 f f' maxiter tol m Z : modest x0 -> encloses_on x0 func f -> encloses_on x0 J f' ->
  (forall r, member x0 r -> derivable_pt_lim f r (f' r)) ->
  (forall X F, part x0 X -> returns (func X) m F -> finite_itv F) ->
  (forall X L, part x0 X -> returns (J X) m L -> finite_itv L) ->
  (forall X L la, part x0 X -> returns (J X) m L -> returns (slope_recip L) m la ->
    finite_num la /\ forall l, member L l -> Rabs (num_val la * l) <= bpow radix2 1000) ->
  returns (krawczyk func J distance x0 maxiter tol) m Z -> isnan_itv Z = true ->
  forall z, member x0 z -> f z <> 0.
Proof.
  intros Mx Hf HJ Hd Tf TJ Tla H N z Mz Fz.
  assert (K : kept x0 z Z) by (refine (newton_strong func distance x0 f m Mx Hf z (kraw_op func J) _ tol Z _ H Mz); eapply kraw_strong; eassumption).
  rewrite (member_not_nan Z z (proj1 (proj2 K))) in N. discriminate.
Qed.
Theorem hansen_sengupta_excludes func J distance x0 f f' maxiter tol m Z : modest x0 -> encloses_on x0 func f -> encloses_on x0 J f' ->
  (forall r, member x0 r -> derivable_pt_lim f r (f' r)) ->
  (forall X F, part x0 X -> returns (func X) m F -> finite_itv F) ->
  (forall X L, part x0 X -> returns (J X) m L -> finite_itv L) ->
  (forall X L la, part x0 X -> returns (J X) m L -> returns (slope_recip L) m la ->
    finite_num la /\ forall l, member L l -> Rabs (num_val la * l) <= bpow radix2 1000) ->
  returns (hansen_sengupta func J distance x0 maxiter tol) m Z -> isnan_itv Z = true ->
  forall z, member x0 z -> f z <> 0.
Proof.
  intros Mx Hf HJ Hd Tf TJ Tla H N z Mz Fz.
  assert (K : kept x0 z Z) by (refine (newton_strong func distance x0 f m Mx Hf z (hs_op func J) _ tol Z _ H Mz); eapply hs_strong; eassumption).
  rewrite (member_not_nan Z z (proj1 (proj2 K))) in N. discriminate.
Qed.

(** ** Cases *)
Lemma sq2_one : (exists Z, returns (krawczyk sq2 j24 sdist x12 0 (PFlt f0)) mode_NE Z /\ num_lt (lo x12) (lo Z) = true /\ num_lt (hi Z) (hi x12) = true) /\
  exists Z, returns (hansen_sengupta sq2 j24 sdist x12 1 (PFlt f0)) mode_NE Z /\ num_lt (lo x12) (lo Z) = true /\ num_lt (hi Z) (hi x12) = true.
Proof.
  split.
  - assert (T : match outcome (krawczyk sq2 j24 sdist x12 0 (PFlt f0)) mode_NE with Ok Z => num_lt (lo x12) (lo Z) = true /\ num_lt (hi Z) (hi x12) = true | _ => False end) by (vm_compute; split; reflexivity).
    unfold returns. destruct (outcome _ _) as [Z|]; [exists Z; auto | contradiction].
  - assert (T : match outcome (hansen_sengupta sq2 j24 sdist x12 1 (PFlt f0)) mode_NE with Ok Z => num_lt (lo x12) (lo Z) = true /\ num_lt (hi Z) (hi x12) = true | _ => False end) by (vm_compute; split; reflexivity).
    unfold returns. destruct (outcome _ _) as [Z|]; [exists Z; auto | contradiction].
Qed.

(** The constant 120 on [-16, 16], with loose bounds: [0, 120] for the values on
    an interval with more than one point, [-8, 7] for the derivative on the
    whole interval and [-8, 16] on its parts.  The first iteration cuts off the
    left half, the second the right part. *)
Definition ii (a b : Z) : itv := mkitv Classical (PInt a) (PInt b).
Definition xm16 : itv := ii (-16) 16.
Definition loose (X : itv) : M itv := mret (if num_lt (lo X) (hi X) then ii 0 120 else ii 120 120).
Definition looseJ (X : itv) : M itv := mret (if num_le (lo X) (PInt (-16)) then ii (-8) 7 else ii (-8) 16).
Definition d16 (X Y : itv) : pynum := PInt 16.
Lemma two_le_bpow k : (5 <= k)%Z -> 32 <= bpow radix2 k.
Proof. intro H. change 32 with (bpow radix2 5). apply bpow_le. exact H. Qed.
Lemma xm16_modest : modest xm16.
Proof.
  assert (B := two_le_bpow 1022 ltac:(lia)).
  split; [reflexivity|]. split; [split; simpl; lia|]. split; [split; [split; exact I|simpl; lra]|]. cbn [lo hi xm16 ii num_val].
  split; apply Rabs_le; lra.
Qed.
Lemma ii_good a b : (Z.abs a <= 2 ^ 26)%Z -> (Z.abs b <= 2 ^ 26)%Z -> (a <= b)%Z -> good (ii a b).
Proof.
  intros A B H. split; [reflexivity|]. split; [split; assumption|]. right. exists (IZR a). split; simpl; [lra | now apply IZR_le].
Qed.
Lemma loose_encloses : encloses_on xm16 loose (fun _ => 120).
Proof.
  split; [reflexivity|]. intros X m Z _ _ H. unfold loose in H. apply returns_ret in H. subst Z.
  destruct (num_lt (lo X) (hi X)); (split; [apply ii_good; lia|]); intros r _; right; split; simpl; lra.
Qed.
Lemma looseJ_encloses : encloses_on xm16 looseJ (fun _ => 0).
Proof.
  split; [reflexivity|]. intros X m Z _ _ H. unfold looseJ in H. apply returns_ret in H. subst Z.
  destruct (num_le (lo X) (PInt (-16))); (split; [apply ii_good; lia|]); intros r _; right; split; simpl; lra.
Qed.
Lemma slope_ii a b la : returns (slope_recip (ii a b)) mode_NE la ->
  match outcome (slope_recip (ii a b)) mode_NE with Ok (PFlt g) => is_finite g = true | _ => False end -> finite_num la.
Proof. unfold returns. intros -> H. destruct la; [contradiction | exact H]. Qed.
Lemma looseJ_slope : forall X L la, part xm16 X -> returns (looseJ X) mode_NE L -> returns (slope_recip L) mode_NE la -> finite_num la.
Proof.
  intros X L la _ H H2. unfold looseJ in H. apply returns_ret in H. subst L.
  destruct (num_le (lo X) (PInt (-16))); (eapply slope_ii; [exact H2|]); vm_compute; reflexivity.
Qed.
Theorem two_steps_x : exists func J distance x0 f f' tol m Z, modest x0 /\ encloses_on x0 func f /\ encloses_on x0 J f' /\
  (forall r, member x0 r -> derivable_pt_lim f r (f' r)) /\
  (forall X L la, part x0 X -> returns (J X) m L -> returns (slope_recip L) m la -> finite_num la) /\
  returns (krawczyk func J distance x0 1 tol) m Z /\ num_lt (lo x0) (lo Z) = true /\ num_lt (hi Z) (hi x0) = true /\
  forall z, f z <> 0.
Proof.
  exists loose, looseJ, d16, xm16, (fun _ => 120), (fun _ => 0), (PInt 0), mode_NE.
  assert (T : match outcome (krawczyk loose looseJ d16 xm16 1 (PInt 0)) mode_NE with Ok Z => num_lt (lo xm16) (lo Z) = true /\ num_lt (hi Z) (hi xm16) = true | _ => False end) by (vm_compute; split; reflexivity).
  destruct (outcome (krawczyk loose looseJ d16 xm16 1 (PInt 0)) mode_NE) as [Z|] eqn:E; [|contradiction]. exists Z.
  split; [exact xm16_modest|]. split; [exact loose_encloses|]. split; [exact looseJ_encloses|].
  split; [intros r _; apply derivable_pt_lim_const|]. split; [exact looseJ_slope|]. split; [exact E|]. split; [apply T|]. split; [apply T|]. intro. lra.
Qed.

(** x + 20 on [-16, 16], with [0, 36] for the values on an interval with more than one point. *)
Definition shifted (X : itv) : M itv := if num_lt (lo X) (hi X) then mret (ii 0 36) else py_add (OItv X) (ONum (PInt 20)).
Definition unit_slope (X : itv) : M itv := mret (ii 1 1).
Lemma shifted_encloses : encloses_on xm16 shifted (fun x => x + 20).
Proof.
  split.
  - intros X m. unfold shifted. destruct (num_lt (lo X) (hi X)); [reflexivity|]. apply (keeps_py_op OpAdd).
  - intros X m Z GX S H. unfold shifted in H. destruct (num_lt (lo X) (hi X)).
    + apply returns_ret in H; subst Z. split; [apply ii_good; lia|]. intros r Hr; right; apply S in Hr; destruct Hr as [R1 R2]; simpl in R1, R2; split; simpl; lra.
    + destruct (py_op_num_r OpAdd X (PInt 20) m Z ltac:(discriminate) GX ltac:(simpl; lia) I H) as (k2 & s2 & W2). split; [exact (good_of_wsound1 _ _ _ GX k2 s2 W2)|].
      intros r Hr. destruct (proj2 W2 r Hr) as (t & Et & Ht). simpl in Et. inversion Et; subst t. exact Ht.
Qed.
Lemma unit_encloses : encloses_on xm16 unit_slope (fun _ => 1).
Proof.
  split; [reflexivity|]. intros X m Z _ _ H. unfold unit_slope in H. apply returns_ret in H. subst Z.
  split; [apply ii_good; lia|]. intros r _; right; split; simpl; lra.
Qed.
Lemma shifted_derivable r : member xm16 r -> derivable_pt_lim (fun x => x + 20) r 1.
Proof.
  intros _. replace 1 with (1 + 0) by ring. apply (derivable_pt_lim_plus id (fct_cte 20)); [apply derivable_pt_lim_id | apply derivable_pt_lim_const].
Qed.
Lemma shifted_finite X F m : part xm16 X -> returns (shifted X) m F -> finite_itv F.
Proof.
  unfold shifted. intros ((kX & sX & _) & (r & Mr) & S) H. destruct (num_lt (lo X) (hi X)) eqn:O; [apply returns_ret in H; subst F; split; exact I|].
  destruct (gives_ends _ _ _ _ _ F (radd_gives X (PInt 20) m sX ltac:(simpl; lia)) H) as [E1 E2]. change (xval (PInt 20)) with (XFin 20) in E1, E2.
  assert (Br := S r Mr). apply member_x in Br, Mr. destruct Mr as [M1 M2]. simpl in Br. rewrite num_lt_x in O.
  assert (Bd : Rabs (r + 20) <= bpow radix2 1023) by (assert (P := two_le_bpow 1023 ltac:(lia)); assert (Q : 36 <= bpow radix2 1023) by (apply Rle_trans with (bpow radix2 6); [simpl; lra | apply bpow_le; lia]); apply Rabs_le; lra).
  destruct (xval (lo X)) as [| | |a], (xval (hi X)) as [| | |b]; simpl in M1, M2; try contradiction; try discriminate.
  assert (a = b) by (destruct (Rle_lt_or_eq_dec a b ltac:(lra)) as [L|]; [apply xltb_fin in L; congruence | assumption]). subst b.
  assert (a = r) by lra. subst a. cbn [xadd] in E1, E2.
  destruct (xround_fin mode_DN _ Bd) as (v1 & X1 & _). destruct (xround_fin mode_UP _ Bd) as (v2 & X2 & _).
  rewrite X1 in E1. rewrite X2 in E2. apply xval_num_val in E1, E2; split; tauto.
Qed.
Lemma unit_finite X L m : returns (unit_slope X) m L -> finite_itv L.
Proof. intro H; apply returns_ret in H; subst L; split; exact I. Qed.
Lemma unit_scaled X L la : returns (unit_slope X) mode_NE L -> returns (slope_recip L) mode_NE la ->
  finite_num la /\ forall l, member L l -> Rabs (num_val la * l) <= bpow radix2 1000.
Proof.
  intros H H2. apply returns_ret in H. subst L.
  assert (T : match outcome (slope_recip (ii 1 1)) mode_NE with Ok (PFlt g) => is_finite g = true /\ B2SF g = S754_finite false 4503599627370496 (-52) | _ => False end) by (vm_compute; split; reflexivity).
  unfold returns in H2. rewrite H2 in T. destruct la as [|g]; [contradiction|]. destruct T as [Fg Sg].
  split; [exact Fg|]. intros l [L1 L2]. simpl in L1, L2. assert (l = 1) by lra. subst l. cbn [num_val].
  assert (V : B2R g = 1) by (rewrite (B2R_sf g false 4503599627370496%positive (-52)%Z Sg); unfold F2R; simpl; lra).
  rewrite V, Rmult_1_r, Rabs_R1. exact pow_1000.
Qed.
Lemma shifted_runs : (exists Z, returns (krawczyk shifted unit_slope d16 xm16 5 (PInt 0)) mode_NE Z /\ isnan_itv Z = true) /\
  exists Z, returns (hansen_sengupta shifted unit_slope d16 xm16 5 (PInt 0)) mode_NE Z /\ isnan_itv Z = true.
Proof.
  split.
  - assert (T : match outcome (krawczyk shifted unit_slope d16 xm16 5 (PInt 0)) mode_NE with Ok Z => isnan_itv Z = true | _ => False end) by (vm_compute; reflexivity).
    unfold returns. destruct (outcome _ _) as [Z|]; [exists Z; auto | contradiction].
  - assert (T : match outcome (hansen_sengupta shifted unit_slope d16 xm16 5 (PInt 0)) mode_NE with Ok Z => isnan_itv Z = true | _ => False end) by (vm_compute; reflexivity).
    unfold returns. destruct (outcome _ _) as [Z|]; [exists Z; auto | contradiction].
Qed.
