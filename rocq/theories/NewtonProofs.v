(** Proofs about the one-dimensional Krawczyk and Hansen-Sengupta methods. *)
From Coq Require Import ZArith Reals List Bool Arith Lia Lra Psatz Floats.SpecFloat.
From Flocq Require Import Core IEEE754.BinarySingleNaN.
From Verif Require Import Base PyNum Kernel Spec Expr XReal XArith KernelProofs ExprProofs KernelAlg KernelMore Arrays Construct SpecArray ArrayProofs ArrayMore ArrayMat ConstructProofs ConstructMore ConstructUtil Solvers SpecSolvers SolversProofs GSProofs.
Import ListNotations.
Open Scope R_scope.

(** ** Midpoints of modest intervals *)
Lemma sub_modest B x Y : modest B -> kept B x Y -> modest Y.
Proof.
  intros (kB & sB & PB & Bl & Bh) ((kY & sY & _) & My & S).
  destruct (proper_fin_x B PB) as (l & h & Hl & Hh & Hlh & El & Eh). rewrite <- El in Bl. rewrite <- Eh in Bh.
  assert (MB : forall r, member B r <-> l <= r <= h) by (intro r; rewrite member_x, Hl, Hh; reflexivity).
  assert (My' := My). apply member_x in My'. destruct My' as [Ma Mb].
  assert (A : exists a, xval (lo Y) = XFin a /\ a <= x).
  { destruct (xval (lo Y)) as [| | |a] eqn:E; simpl in Ma; try contradiction; [|eauto].
    exfalso. assert (M1 : member Y (Rmin x (l - 1))).
    { apply member_x. rewrite E. split; [exact I|]. destruct (xval (hi Y)); simpl in *; auto. apply Rle_trans with x; [apply Rmin_l | assumption]. }
    apply S, MB in M1. assert (T := Rmin_r x (l - 1)). lra. }
  assert (C : exists b, xval (hi Y) = XFin b /\ x <= b).
  { destruct (xval (hi Y)) as [| | |b] eqn:E; simpl in Mb; try contradiction; [|eauto].
    exfalso. assert (M1 : member Y (Rmax x (h + 1))).
    { apply member_x. rewrite E. split; [|exact I]. destruct (xval (lo Y)); simpl in *; auto. apply Rle_trans with x; [assumption | apply Rmax_l]. }
    apply S, MB in M1. assert (T := Rmax_r x (h + 1)). lra. }
  destruct A as (a & Ha & Ax), C as (b & Hb & Bx).
  assert (Ia : member B a) by (apply S; apply member_x; rewrite Ha, Hb; simpl; lra).
  assert (Ib : member B b) by (apply S; apply member_x; rewrite Ha, Hb; simpl; lra).
  apply MB in Ia, Ib. apply xval_num_val in Ha, Hb. destruct Ha as [Fa Va], Hb as [Fb Vb].
  split; [exact kY|]. split; [exact sY|]. apply Rabs_le_inv in Bl, Bh. split; [split; [split; assumption | rewrite Va, Vb; lra]|].
  rewrite Va, Vb. split; apply Rabs_le; lra.
Qed.
Lemma modest_no_overflow m a b : Rabs a <= bpow radix2 1022 -> Rabs b <= bpow radix2 1022 -> no_overflow m (a + b).
Proof.
  intros Ha Hb. unfold no_overflow. apply Rle_lt_trans with (bpow radix2 1023); [|apply bpow_lt; lia].
  apply abs_round_le_generic; auto with typeclass_instances.
  - apply generic_format_bpow. unfold SpecFloat.fexp, SpecFloat.emin. lia.
  - apply Rle_trans with (1 := Rabs_triang _ _). replace (bpow radix2 1023) with (bpow radix2 1022 + bpow radix2 1022); [lra|].
    replace 1023%Z with (1022 + 1)%Z by lia. rewrite bpow_plus. simpl (bpow radix2 1). lra.
Qed.
Lemma mid_float X m v : small_itv X -> returns (mid X) m v -> exists f, v = PFlt f.
Proof.
  intros _ H. unfold mid in H. apply keeps_returns in H; [|apply keeps_prim]. destruct H as (w & _ & H).
  unfold returns, outcome, mul_, mprim in H. cbn in H. unfold num_mul, arith2 in H. destruct w; cbn in H.
  - destruct (int_to_double z); cbn in H; [|discriminate]. apply Ok_inj in H. eauto.
  - apply Ok_inj in H. eauto.
Qed.
Lemma modest_mid X m v : modest X -> returns (mid X) m v -> exists f, v = PFlt f /\ is_finite f = true /\ member X (B2R f).
Proof.
  intros (kX & sX & PX & Bl & Bh) H. destruct (mid_float X m v sX H) as (f & ->). exists f. split; [reflexivity|].
  destruct (mid_in X m sX PX (modest_no_overflow m _ _ Bl Bh)) as (v' & H' & L1 & L2).
  assert (v' = PFlt f) by (unfold returns in *; congruence). subst v'.
  destruct (proper_fin_x X PX) as (l & h & Hl & Hh & _ & El & Eh).
  rewrite num_le_x, Hl in L1. rewrite num_le_x, Hh in L2. rewrite member_x, Hl, Hh.
  change (xval (PFlt f)) with (xflt f) in *. destruct (is_finite f) eqn:F.
  - split; [reflexivity|]. apply is_finite_x in F. rewrite F in L1, L2. apply xleb_fin in L1, L2. simpl. lra.
  - exfalso. destruct f as [s|[|]| |]; try discriminate.
Qed.
Lemma mid_itv_spec X m c : modest X -> returns (mid_itv X) m c -> good c /\ exists r, member c r /\ member X r.
Proof.
  intros MX H. unfold mid_itv in H. apply keeps_returns in H; [|apply keeps_mid]. destruct H as (v & Hv & H).
  destruct (modest_mid X m v MX Hv) as (f & -> & F & Mf).
  destruct (single_unsorted (PFlt f) (PFlt f) m) as (Z & HZ & Zl & Zh & kZ). assert (Z = c) by (unfold returns in *; congruence). subst Z.
  assert (Mc : member c (B2R f)).
  { apply member_x. rewrite Zl, Zh. change (xval (PFlt f)) with (xflt f). rewrite (proj1 (is_finite_x f) F). simpl. lra. }
  split; [|eauto]. split; [|split; [|right; eauto]].
  - apply kZ. rewrite num_le_x. change (xval (PFlt f)) with (xflt f). rewrite (proj1 (is_finite_x f) F). apply xleb_fin. lra.
  - unfold small_itv. rewrite Zl, Zh. split; exact I.
Qed.
Lemma mid_itv_point X m c r t : modest X -> returns (mid_itv X) m c -> member c r -> member c t -> r = t.
Proof.
  intros MX H. unfold mid_itv in H. apply keeps_returns in H; [|apply keeps_mid]. destruct H as (v & Hv & H).
  destruct (modest_mid X m v MX Hv) as (f & -> & F & Mf).
  destruct (single_unsorted (PFlt f) (PFlt f) m) as (Z & HZ & Zl & Zh & kZ). assert (Z = c) by (unfold returns in *; congruence). subst Z.
  rewrite !member_x, Zl, Zh. change (xval (PFlt f)) with (xflt f). rewrite (proj1 (is_finite_x f) F). simpl. lra.
Qed.
Lemma keeps_mid_itv X : keeps_mode (mid_itv X).
Proof. unfold mid_itv. apply keeps_bind; [apply keeps_mid|]. intro. apply keeps_single. Qed.
Lemma keeps_slope L : keeps_mode (slope_recip L).
Proof. unfold slope_recip, div_. keeps. Qed.
Lemma slope_float L m la : good L -> returns (slope_recip L) m la -> exists f, la = PFlt f.
Proof.
  intros (_ & sL & _) H. unfold slope_recip in H. apply keeps_returns in H; [|apply keeps_mid]. destruct H as (v & Hv & H).
  destruct (mid_float L m v sL Hv) as (f & ->). unfold returns, outcome, div_, mprim in H. cbn in H.
  match type of H with match ?t with _ => _ end = _ => idtac | _ => idtac end.
  revert H. unfold num_div. cbn. intro H.
  repeat match type of H with context [match ?t with _ => _ end] => destruct t eqn:?; cbn in H; try discriminate end; try (apply Ok_inj in H; eauto); eauto.
Qed.

(** ** The two operators *)
Section Operators.
Variables (func J : itv -> M itv) (distance : itv -> itv -> pynum) (x0 : itv) (f f' : R -> R) (m : rmode).
Hypothesis Hx0 : modest x0.
Hypothesis Hf : encloses_on x0 func f.
Hypothesis HJ : encloses_on x0 J f'.
Hypothesis Hd : forall r, member x0 r -> derivable_pt_lim f r (f' r).
Hypothesis Hla : forall X L la, part x0 X -> returns (J X) m L -> returns (slope_recip L) m la -> finite_num la.
Variable z : R.
Hypothesis Hz : f z = 0.

Lemma member_between X a b r : member X a -> member X b -> a <= r <= b -> member X r.
Proof.
  rewrite !member_x. intros [A1 A2] [B1 B2] H. split.
  - destruct (xval (lo X)); simpl in *; auto; try lra.
  - destruct (xval (hi X)); simpl in *; auto; try lra.
Qed.
Lemma mean_value X c L : good X -> (forall r, member X r -> member x0 r) -> member X c -> member X z -> returns (J X) m L ->
  exists l, enc L l /\ f c = l * (c - z).
Proof.
  intros GX SX Mc Mz HL. destruct (proj2 HJ X m L GX SX HL) as [GL EL].
  destruct (Rtotal_order c z) as [H|[H|H]].
  - destruct (MVT_cor2 f f' c z H) as (t & E & Ht).
    { intros t Ht. apply Hd, SX. now apply member_between with c z. }
    exists (f' t). split; [split; [exact GL|]; apply EL; apply member_between with c z; auto; lra|]. rewrite Hz in E. lra.
  - subst c. exists (f' z). split; [split; [exact GL|now apply EL]|]. rewrite Hz. lra.
  - destruct (MVT_cor2 f f' z c H) as (t & E & Ht).
    { intros t Ht. apply Hd, SX. now apply member_between with z c. }
    exists (f' t). split; [split; [exact GL|]; apply EL; apply member_between with z c; auto; lra|]. rewrite Hz in E. lra.
Qed.
Lemma keeps_func X : keeps_mode (func X). Proof. intro mm. apply Hf. Qed.
Lemma keeps_J X : keeps_mode (J X). Proof. intro mm. apply HJ. Qed.
Lemma keeps_kraw X c : keeps_mode (kraw_op func J X c).
Proof.
  unfold kraw_op. repeat (apply keeps_bind; [first [apply keeps_J | apply keeps_slope | apply keeps_func | apply (keeps_py_op OpMul) | apply (keeps_py_op OpSub)]|intro]).
  apply (keeps_py_op OpAdd).
Qed.
Lemma keeps_hs X c : keeps_mode (hs_op func J X c).
Proof.
  unfold hs_op. repeat (apply keeps_bind; [first [apply keeps_J | apply keeps_slope | apply keeps_func | apply (keeps_py_op OpMul) | apply (keeps_py_op OpSub)]|intro]).
  destruct (py_contains _ _); [apply keeps_raise|]. apply keeps_bind; [apply (keeps_py_op OpDiv)|]. intro. apply (keeps_py_op OpAdd).
Qed.
(** One application to an interval holding the zero keeps the zero. *)
Definition keeps_zero (op : itv -> itv -> M itv) : Prop := (forall X c, keeps_mode (op X c)) /\
  forall X c Z cr, kept x0 z X -> good c -> member c cr -> member X cr -> (forall r, member c r -> member x0 r) -> returns (op X c) m Z -> enc Z z.
Lemma kraw_keeps : keeps_zero (kraw_op func J).
Proof.
  split; [apply keeps_kraw|]. intros X c Z cr (GX & Mz & SX) Gc Mc MXc Sc H. unfold kraw_op in H.
  apply keeps_returns in H; [|apply keeps_J]. destruct H as (L & HL & H).
  apply keeps_returns in H; [|apply keeps_slope]. destruct H as (la & Hlam & H).
  apply keeps_returns in H; [|apply (keeps_py_op OpMul)]. destruct H as (t & Ht & H).
  apply keeps_returns in H; [|apply (keeps_py_op OpSub)]. destruct H as (B & HB & H).
  apply keeps_returns in H; [|apply keeps_func]. destruct H as (fc & Hfc & H).
  apply keeps_returns in H; [|apply (keeps_py_op OpMul)]. destruct H as (p & Hp & H).
  apply keeps_returns in H; [|apply (keeps_py_op OpSub)]. destruct H as (q & Hq & H).
  apply keeps_returns in H; [|apply (keeps_py_op OpSub)]. destruct H as (d & HdX & H).
  apply keeps_returns in H; [|apply (keeps_py_op OpMul)]. destruct H as (s & Hs & H).
  destruct (mean_value X cr L GX SX MXc Mz HL) as (l & El & Ef).
  assert (Fla := Hla X L la (conj GX (conj (ex_intro _ z Mz) SX)) HL Hlam). destruct (slope_float L m la (proj1 El) Hlam) as (lf & ->).
  destruct (proj2 Hf c m fc Gc Sc Hfc) as [Gfc Efc]. specialize (Efc cr Mc).
  assert (E1 := enc_num_l OpMul (PFlt lf) L m t l ltac:(discriminate) I Fla El Ht). cbn [opR] in E1.
  assert (E2 := enc_num_l OpSub (PInt 1) t m B _ ltac:(discriminate) ltac:(simpl; lia) I E1 HB). cbn [opR] in E2.
  assert (E3 := enc_num_l OpMul (PFlt lf) fc m p (f cr) ltac:(discriminate) I Fla (conj Gfc Efc) Hp). cbn [opR] in E3.
  assert (E4 := enc_itv OpSub c p m q cr _ ltac:(discriminate) (conj Gc (or_intror Mc)) E3 Hq). cbn [opR] in E4.
  assert (E5 := enc_itv OpSub X c m d z cr ltac:(discriminate) (conj GX (or_intror Mz)) (conj Gc (or_intror Mc)) HdX). cbn [opR] in E5.
  assert (E6 := enc_itv OpMul B d m s _ _ ltac:(discriminate) E2 E5 Hs). cbn [opR] in E6.
  assert (E7 := enc_itv OpAdd q s m Z _ _ ltac:(discriminate) E4 E6 H). cbn [opR] in E7.
  rewrite Ef in E7. change (num_val (PInt 1)) with 1 in E7.
  match type of E7 with enc _ ?e => replace z with e by ring end. exact E7.
Qed.
Lemma hs_keeps : keeps_zero (hs_op func J).
Proof.
  split; [apply keeps_hs|]. intros X c Z cr (GX & Mz & SX) Gc Mc MXc Sc H. unfold hs_op in H.
  apply keeps_returns in H; [|apply keeps_J]. destruct H as (L & HL & H).
  apply keeps_returns in H; [|apply keeps_slope]. destruct H as (la & Hlam & H).
  apply keeps_returns in H; [|apply (keeps_py_op OpMul)]. destruct H as (A & HA & H).
  apply keeps_returns in H; [|apply keeps_func]. destruct H as (fc & Hfc & H).
  apply keeps_returns in H; [|apply (keeps_py_op OpMul)]. destruct H as (b & Hb & H).
  destruct (py_contains A (ONum (PInt 0))); [discriminate|].
  apply keeps_returns in H; [|apply (keeps_py_op OpDiv)]. destruct H as (g & Hg & H).
  destruct (mean_value X cr L GX SX MXc Mz HL) as (l & El & Ef).
  assert (Fla := Hla X L la (conj GX (conj (ex_intro _ z Mz) SX)) HL Hlam). destruct (slope_float L m la (proj1 El) Hlam) as (lf & ->).
  destruct (proj2 Hf c m fc Gc Sc Hfc) as [Gfc Efc]. specialize (Efc cr Mc).
  assert (E1 := enc_num_l OpMul (PFlt lf) L m A l ltac:(discriminate) I Fla El HA). cbn [opR] in E1.
  assert (Fn : finite_num (num_neg (PFlt lf))) by (simpl in *; now rewrite is_finite_Bopp).
  assert (E3 := enc_num_l OpMul (num_neg (PFlt lf)) fc m b (f cr) ltac:(discriminate) I Fn (conj Gfc Efc) Hb). cbn [opR] in E3.
  assert (Vn : num_val (num_neg (PFlt lf)) = - num_val (PFlt lf)) by (simpl; apply B2R_Bopp).
  assert (E4 : enc g (z - cr)).
  { refine (enc_div b A m g (z - cr) (num_val (PFlt lf) * l) _ E1 Hg).
    rewrite Vn, Ef in E3. match type of E3 with enc _ ?e => replace ((z - cr) * (num_val (PFlt lf) * l)) with e by ring end. exact E3. }
  assert (E7 := enc_itv OpAdd c g m Z cr _ ltac:(discriminate) (conj Gc (or_intror Mc)) E4 H). cbn [opR] in E7.
  match type of E7 with enc _ ?e => replace z with e by ring end. exact E7.
Qed.

(** ** The iteration *)
Lemma keeps_newton_loop op tol : (forall X c, keeps_mode (op X c)) -> forall fuel e X c, keeps_mode (newton_loop distance op fuel tol e X c).
Proof.
  intro K. induction fuel as [|n IH]; intros e X c; cbn [newton_loop]; [apply keeps_ret|]. destruct (num_lt tol e); [|apply keeps_ret].
  apply keeps_bind; [apply K|]. intro. apply keeps_bind; [apply keeps_intersect|]. intro Y. destruct (isnan_itv Y); [apply keeps_ret|].
  apply keeps_bind; [apply keeps_mid_itv|]. intro. apply IH.
Qed.
Lemma newton_loop_keeps op tol : keeps_zero op -> forall fuel e X c Z cr, kept x0 z X -> good c -> member c cr -> member X cr -> (forall r, member c r -> member x0 r) ->
  returns (newton_loop distance op fuel tol e X c) m Z -> isnan_itv Z = false -> kept x0 z Z.
Proof.
  intros [K KZ]. induction fuel as [|n IH]; intros e X c Z cr HX Gc Mc MXc Sc H N; cbn [newton_loop] in H.
  - apply returns_ret in H. now subst Z.
  - destruct (num_lt tol e); [|apply returns_ret in H; now subst Z].
    apply keeps_returns in H; [|apply K]. destruct H as (zz & Hzz & H).
    apply keeps_returns in H; [|apply keeps_intersect]. destruct H as (Y & HY & H).
    destruct (isnan_itv Y) eqn:NY; [apply returns_ret in H; subst Z; congruence|].
    apply keeps_returns in H; [|apply keeps_mid_itv]. destruct H as (c' & Hc' & H).
    assert (E := KZ X c zz cr HX Gc Mc MXc Sc Hzz). destruct HX as (GX & Mz & SX).
    destruct (intersect_keep X zz m Y z GX Mz E HY NY) as (GY & MY & SY).
    assert (KY : kept x0 z Y) by (split; [exact GY|split; [exact MY|auto]]).
    assert (MoY := sub_modest x0 z Y Hx0 KY).
    destruct (mid_itv_spec Y m c' MoY Hc') as (Gc' & r & Mr & MYr).
    refine (IH _ Y c' Z r KY Gc' Mr MYr _ H N). intros t Ht.
    assert (t = r) by exact (mid_itv_point Y m c' t r MoY Hc' Ht Mr). subst t. auto.
Qed.
End Operators.

Lemma modest_kept X r : modest X -> member X r -> kept X r X.
Proof. intros (kX & sX & _) H. split; [split; [exact kX|split; [exact sX|right; eauto]]|]. split; auto. Qed.
Lemma newton_keeps func J distance x0 f f' op fuel tol m Z : modest x0 -> encloses_on x0 func f -> encloses_on x0 J f' ->
  (forall r, member x0 r -> derivable_pt_lim f r (f' r)) ->
  (forall X L la, part x0 X -> returns (J X) m L -> returns (slope_recip L) m la -> finite_num la) ->
  (forall z, f z = 0 -> keeps_zero x0 m z op) ->
  returns (newton func distance op fuel tol x0) m Z -> isnan_itv Z = false ->
  forall z, member x0 z -> f z = 0 -> member Z z /\ forall r, member Z r -> member x0 r.
Proof.
  intros Mx Hf HJ Hd Hla Kop H N z Mz Fz. unfold newton in H.
  apply keeps_returns in H; [|intro; apply Hf]. destruct H as (F & HF & H).
  destruct (py_contains F (ONum (PInt 0))); [|discriminate].
  apply keeps_returns in H; [|apply keeps_mid_itv]. destruct H as (c & Hc & H).
  destruct (mid_itv_spec x0 m c Mx Hc) as (Gc & cr & Mc & Mxc).
  refine (proj2 (newton_loop_keeps distance x0 m Mx z op tol (Kop z Fz) fuel _ x0 c Z cr (modest_kept x0 z Mx Mz) Gc Mc Mxc _ H N)).
  intros t Ht. assert (t = cr) by exact (mid_itv_point x0 m c t cr Mx Hc Ht Mc). now subst t.
Qed.
Theorem krawczyk_keeps func J distance x0 f f' maxiter tol m Z : modest x0 -> encloses_on x0 func f -> encloses_on x0 J f' ->
  (forall r, member x0 r -> derivable_pt_lim f r (f' r)) ->
  (forall X L la, part x0 X -> returns (J X) m L -> returns (slope_recip L) m la -> finite_num la) ->
  returns (krawczyk func J distance x0 maxiter tol) m Z -> isnan_itv Z = false ->
  forall z, member x0 z -> f z = 0 -> member Z z /\ forall r, member Z r -> member x0 r.
Proof.
  intros Mx Hf HJ Hd Hla H N. refine (newton_keeps func J distance x0 f f' _ _ tol m Z Mx Hf HJ Hd Hla _ H N).
  intros z Fz. exact (kraw_keeps func J x0 f f' m Hf HJ Hd Hla z Fz).
Qed.
Theorem hansen_sengupta_keeps func J distance x0 f f' maxiter tol m Z : modest x0 -> encloses_on x0 func f -> encloses_on x0 J f' ->
  (forall r, member x0 r -> derivable_pt_lim f r (f' r)) ->
  (forall X L la, part x0 X -> returns (J X) m L -> returns (slope_recip L) m la -> finite_num la) ->
  returns (hansen_sengupta func J distance x0 maxiter tol) m Z -> isnan_itv Z = false ->
  forall z, member x0 z -> f z = 0 -> member Z z /\ forall r, member Z r -> member x0 r.
Proof.
  intros Mx Hf HJ Hd Hla H N. refine (newton_keeps func J distance x0 f f' _ _ tol m Z Mx Hf HJ Hd Hla _ H N).
  intros z Fz. exact (hs_keeps func J x0 f f' m Hf HJ Hd Hla z Fz).
Qed.

(** ** A case: x^2 - 2 on [1,2] with the derivative bound [2,4] *)
Definition sq2 (X : itv) : M itv := p <- py_mul (OItv X) (OItv X) ;; py_sub (OItv p) (ONum (PInt 2)).
Definition j24 (X : itv) : M itv := mret (mkitv Classical (PInt 2) (PInt 4)).
Definition x12 : itv := mkitv Classical (PInt 1) (PInt 2).
Lemma x12_modest : modest x12.
Proof.
  assert (B : 2 <= bpow radix2 1022) by (change 2 with (bpow radix2 1); apply bpow_le; lia).
  split; [reflexivity|]. split; [split; simpl; lia|]. split; [split; [split; exact I|simpl; lra]|]. cbn [lo hi x12 num_val].
  split; apply Rabs_le; lra.
Qed.
Lemma sq2_encloses : encloses_on x12 sq2 (fun x => x * x - 2).
Proof.
  split.
  - intros X m. assert (K : keeps_mode (sq2 X)) by (unfold sq2; apply keeps_bind; [apply (keeps_py_op OpMul)|intro; apply (keeps_py_op OpSub)]). apply K.
  - intros X m Z GX _ H. unfold sq2 in H. apply keeps_returns in H; [|apply (keeps_py_op OpMul)]. destruct H as (p & Hp & H).
    assert (E : forall r, member X r -> enc Z (r * r - 2)).
    { intros r Hr. assert (E1 := enc_itv OpMul X X m p r r ltac:(discriminate) (conj GX (or_intror Hr)) (conj GX (or_intror Hr)) Hp). cbn [opR] in E1.
      refine (enc_sub_op p (ONum (PInt 2)) m Z _ 2 E1 _ H). repeat split; simpl; lia. }
    split; [|intros r Hr; exact (proj2 (E r Hr))].
    destruct (py_op_itv OpMul X X m p GX GX Hp) as (k1 & s1 & W1). assert (Gp := good_of_wsound2 _ _ _ _ GX GX k1 s1 W1).
    destruct (py_op_num_r OpSub p (PInt 2) m Z ltac:(discriminate) Gp ltac:(simpl; lia) I H) as (k2 & s2 & W2).
    exact (good_of_wsound1 _ _ _ Gp k2 s2 W2).
Qed.
Lemma j24_encloses : encloses_on x12 j24 (fun x => 2 * x).
Proof.
  split; [reflexivity|]. intros X m Z GX SX H. unfold j24 in H. apply returns_ret in H. subst Z.
  split; [split; [reflexivity|split; [split; simpl; lia|right; exists 3; split; simpl; lra]]|].
  intros r Hr. right. apply SX in Hr. rewrite member_x in Hr |- *. simpl in *. lra.
Qed.
Lemma sq2_derivable r : derivable_pt_lim (fun x => x * x - 2) r (2 * r).
Proof.
  replace (2 * r) with ((1 * r + r * 1) - 0) by ring.
  apply (derivable_pt_lim_minus (fun x => x * x) (fun _ => 2)); [|apply derivable_pt_lim_const].
  apply (derivable_pt_lim_mult (fun x => x) (fun x => x)); apply derivable_pt_lim_id.
Qed.
Lemma j24_slope : forall X L la, part x12 X -> returns (j24 X) mode_NE L -> returns (slope_recip L) mode_NE la -> finite_num la.
Proof.
  intros X L la _ H H2. unfold j24 in H. apply returns_ret in H. subst L.
  assert (T : match outcome (slope_recip (mkitv Classical (PInt 2) (PInt 4))) mode_NE with Ok (PFlt f) => is_finite f = true | _ => False end) by (vm_compute; reflexivity).
  unfold returns in H2. rewrite H2 in T. destruct la; [contradiction | exact T].
Qed.
Definition sdist (X Y : itv) : pynum := PInt 1.
Lemma sq2_runs : (exists Z, returns (krawczyk sq2 j24 sdist x12 3 (PFlt f0)) mode_NE Z /\ isnan_itv Z = false) /\
  exists Z, returns (hansen_sengupta sq2 j24 sdist x12 3 (PFlt f0)) mode_NE Z /\ isnan_itv Z = false.
Proof.
  split.
  - assert (T : match outcome (krawczyk sq2 j24 sdist x12 3 (PFlt f0)) mode_NE with Ok Z => isnan_itv Z = false | _ => False end) by (vm_compute; reflexivity).
    unfold returns. destruct (outcome _ _) as [Z|]; [exists Z; auto | contradiction].
  - assert (T : match outcome (hansen_sengupta sq2 j24 sdist x12 3 (PFlt f0)) mode_NE with Ok Z => isnan_itv Z = false | _ => False end) by (vm_compute; reflexivity).
    unfold returns. destruct (outcome _ _) as [Z|]; [exists Z; auto | contradiction].
Qed.
