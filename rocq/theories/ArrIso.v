(** Inclusion isotonicity of array operations and matrix products. *)
From Coq Require Import ZArith Reals List Bool Arith Lia Lra.
From Flocq Require Import Core IEEE754.BinarySingleNaN.
From Verif Require Import Base PyNum Kernel Spec Expr XReal XArith KernelProofs ExprProofs KernelAlg KernelMore Witness Arrays Construct SpecArray ArrayProofs ArrayMore ArrayMat SpecIso IsoProofs SpecArrIso.
Import ListNotations.
Open Scope R_scope.

Lemma nested_good o o2 : nested_operand o o2 -> good_operand o /\ good_operand o2.
Proof.
  assert (G : forall X, plain X -> good X).
  { intros X (K & S & P). split; [exact K|]. split; [exact S|]. right. destruct (proper_fin_x X P) as (a & b & Ea & Eb & H & _).
    exists a. exact (proj1 (proper_members X a b Ea Eb H)). }
  destruct o as [c|X], o2 as [c2|X2]; simpl; try tauto.
  - intros (-> & ? & ?). auto.
  - intros (? & ? & ?). auto.
Qed.

Lemma nested_is_itv o o2 : nested_operand o o2 -> is_itv o -> is_itv o2.
Proof. destruct o, o2; simpl; tauto. Qed.
Lemma returns_op o x y m W : returns (v <- py_op o x y ;; mret (OItv v)) m (OItv W) <-> returns (py_op o x y) m W.
Proof.
  rewrite keeps_returns by apply keeps_py_op. split.
  - intros (v & Hv & H). apply returns_ret in H. now inversion H; subst.
  - intro H. exists W. split; [exact H|]. now apply returns_ret.
Qed.
Lemma py_op_nested o x x2 y y2 m Z2 : nested_operand x x2 -> nested_operand y y2 -> is_itv x \/ (is_itv y /\ o <> OpDiv) ->
  returns (py_op o x2 y2) m Z2 -> finite_itv Z2 -> exists Z, returns (py_op o x y) m Z /\ nested Z Z2.
Proof.
  intros Nx Ny I H F. destruct x as [c|X], x2 as [c2|X2]; simpl in Nx; try tauto; destruct y as [d|Y], y2 as [d2|Y2]; simpl in Ny; try tauto; simpl in I; try tauto.
  - destruct I as [[]|[_ No]]. destruct Nx as (<- & Sc & Fc). destruct o; [ | | |congruence].
    + exact (radd_nested Y Y2 c m Z2 Ny Sc Fc H F).
    + exact (rsub_nested Y Y2 c m Z2 Ny Sc Fc H F).
    + exact (rmul_nested Y Y2 c m Z2 Ny Sc H F).
  - destruct Ny as (<- & Sd & Fd). destruct o.
    + exact (radd_nested X X2 d m Z2 Nx Sd Fd H F).
    + exact (radd_nested X X2 (num_neg d) m Z2 Nx (small_neg d Sd) (finite_neg d Fd) H F).
    + exact (rmul_nested X X2 d m Z2 Nx Sd H F).
    + exact (div_num_nested X X2 d m Z2 Nx H F).
  - exact (op_nested o X X2 Y Y2 m Z2 Nx Ny H F).
Qed.
Lemma omul_returns x y m W : is_itv x \/ is_itv y -> returns (omul x y) m (OItv W) <-> returns (py_op OpMul x y) m W.
Proof. intro I. rewrite <- returns_op. destruct x, y; simpl in I; try tauto; reflexivity. Qed.
Lemma oadd_returns A B m W : returns (oadd (OItv A) (OItv B)) m (OItv W) <-> returns (py_op OpAdd (OItv A) (OItv B)) m W.
Proof. rewrite <- returns_op. reflexivity. Qed.
Lemma same_result {A} (c : M A) m x y : returns c m x -> returns c m y -> x = y.
Proof. unfold returns. congruence. Qed.
Lemma add_finite A B m W : good A -> good B -> returns (py_op OpAdd (OItv A) (OItv B)) m W -> finite_itv W -> finite_itv A /\ finite_itv B.
Proof.
  intros (KA & SA & _) (KB & SB & _) H [F1 F2]. destruct (gives_returns _ _ _ _ _ (add_gives A B m SA SB)) as (W' & HW & _ & El & Eu & _).
  assert (W' = W) by exact (same_result _ _ _ _ HW H). subst W'. apply finite_num_x in F1, F2. rewrite F1 in El. rewrite F2 in Eu.
  assert (T : forall r u v z, XFin z = xadd r u v -> (exists p, u = XFin p) /\ exists q, v = XFin q).
  { intros r u v z E. destruct u, v; cbn [xadd] in E; try discriminate; eauto. }
  destruct (T _ _ _ _ El) as [(p & P) (q & Q)]. destruct (T _ _ _ _ Eu) as [(p2 & P2) (q2 & Q2)].
  apply xval_num_val in P, Q, P2, Q2. unfold finite_itv. tauto.
Qed.
Definition dot_nest (p q : operand * operand) : Prop := nested_operand (fst p) (fst q) /\ nested_operand (snd p) (snd q) /\ (is_itv (fst p) \/ is_itv (snd p)).
Lemma dot_nest_ok l l2 : Forall2 dot_nest l l2 -> Forall dot_ok l2.
Proof.
  induction 1 as [|p q l l2 (N1 & N2 & I) H IH]; constructor; [|exact IH]. unfold dot_ok.
  split; [|split; [exact (proj2 (nested_good _ _ N1)) | exact (proj2 (nested_good _ _ N2))]].
  destruct I as [I|I]; [left; exact (nested_is_itv _ _ N1 I) | right; exact (nested_is_itv _ _ N2 I)].
Qed.
Lemma dot_from_finite l : forall A m W, good A -> Forall dot_ok l -> returns (dot_from (OItv A) l) m (OItv W) -> finite_itv W -> finite_itv A.
Proof.
  induction l as [|[x y] l IH]; intros A m W GA Gl H F.
  - apply returns_ret in H. inversion H; now subst.
  - inversion Gl as [|? ? (I & Gx & Gy) Gl']; subst. cbn [fst snd] in *.
    destruct (omul_sound x y m I Gx Gy) as (P & HP & GP & _). destruct (oadd_sound A P m GA GP) as (T & HT & GT & _).
    cbn [dot_from] in H. rewrite keeps_returns in H by apply keeps_omul. destruct H as (P' & HP' & H). rewrite (same_result _ _ _ _ HP' HP) in H.
    rewrite keeps_returns in H by apply keeps_oadd. destruct H as (T' & HT' & H). rewrite (same_result _ _ _ _ HT' HT) in H.
    assert (FT := IH T m W GT Gl' H F). apply oadd_returns in HT. exact (proj1 (add_finite A P m T GA GP HT FT)).
Qed.
Lemma dot_from_nested l l2 : Forall2 dot_nest l l2 -> forall A A2 m W2, nested A A2 -> returns (dot_from (OItv A2) l2) m (OItv W2) -> finite_itv W2 ->
  exists W, returns (dot_from (OItv A) l) m (OItv W) /\ nested W W2.
Proof.
  induction 1 as [|[x y] [x2 y2] l l2 (N1 & N2 & I) Hl IH]; intros A A2 m W2 NA H F.
  - apply returns_ret in H. inversion H; subst. exists A. split; [reflexivity|exact NA].
  - cbn [fst snd] in *. assert (I2 : is_itv x2 \/ is_itv y2) by (destruct I as [I|I]; [left; exact (nested_is_itv _ _ N1 I) | right; exact (nested_is_itv _ _ N2 I)]).
    assert (GA2 : good A2) by exact (proj2 (nested_good (OItv A) (OItv A2) NA)).
    destruct (omul_sound x2 y2 m I2 (proj2 (nested_good _ _ N1)) (proj2 (nested_good _ _ N2))) as (P2 & HP2 & GP2 & _).
    destruct (oadd_sound A2 P2 m GA2 GP2) as (T2 & HT2 & GT2 & _).
    cbn [dot_from] in H. rewrite keeps_returns in H by apply keeps_omul. destruct H as (P' & HP' & H). rewrite (same_result _ _ _ _ HP' HP2) in H.
    rewrite keeps_returns in H by apply keeps_oadd. destruct H as (T' & HT' & H). rewrite (same_result _ _ _ _ HT' HT2) in H.
    assert (FT := dot_from_finite l2 T2 m W2 GT2 (dot_nest_ok _ _ Hl) H F). apply oadd_returns in HT2.
    destruct (add_finite A2 P2 m T2 GA2 GP2 HT2 FT) as [_ FP2]. apply omul_returns in HP2; [|exact I2].
    destruct (py_op_nested OpMul x x2 y y2 m P2 N1 N2 ltac:(destruct I; [now left | right; split; [assumption|discriminate]]) HP2 FP2) as (P & HP & NP).
    destruct (op_nested OpAdd A A2 P P2 m T2 NA NP HT2 FT) as (T & HT & NT).
    destruct (IH T T2 m W2 NT H F) as (W & HW & NW). exists W. split; [|exact NW].
    cbn [dot_from]. rewrite keeps_returns by apply keeps_omul. exists (OItv P). split; [now apply omul_returns|].
    rewrite keeps_returns by apply keeps_oadd. exists (OItv T). split; [now apply oadd_returns | exact HW].
Qed.
Lemma dot_nested l l2 m z2 : Forall2 dot_nest l l2 -> returns (dot l2) m z2 -> finite_operand z2 -> exists z, returns (dot l) m z /\ nested_operand z z2.
Proof.
  intros Hl H F. assert (OK := dot_nest_ok _ _ Hl). destruct Hl as [|[x y] [x2 y2] l l2 (N1 & N2 & I) Hl].
  - apply returns_ret in H. subst z2. exists (ONum (PInt 0)). split; [reflexivity|]. simpl. split; [reflexivity|]. split; [lia|exact Logic.I].
  - cbn [fst snd] in *. inversion OK as [|? ? (I2 & G1 & G2) OK']; subst. cbn [fst snd] in *.
    destruct (omul_sound x2 y2 m I2 G1 G2) as (P2 & HP2 & GP2 & _). destruct (dot_from_sound l2 P2 m GP2 OK') as (W2 & HW2 & _).
    cbn [dot] in H. rewrite keeps_returns in H by apply keeps_omul. destruct H as (P' & HP' & H). rewrite (same_result _ _ _ _ HP' HP2) in H.
    assert (z2 = OItv W2) by exact (same_result _ _ _ _ H HW2). subst z2. cbn [finite_operand] in F.
    assert (FP2 := dot_from_finite l2 P2 m W2 GP2 OK' H F). apply omul_returns in HP2; [|exact I2].
    destruct (py_op_nested OpMul x x2 y y2 m P2 N1 N2 ltac:(destruct I; [now left | right; split; [assumption|discriminate]]) HP2 FP2) as (P & HP & NP).
    destruct (dot_from_nested l l2 Hl P P2 m W2 NP H F) as (W & HW & NW). exists (OItv W). split; [|exact NW].
    cbn [dot]. rewrite keeps_returns by apply keeps_omul. exists (OItv P). split; [now apply omul_returns | exact HW].
Qed.
Lemma mapM_nested {A B} (f f2 : A -> M B) (P : B -> Prop) (Q : B -> B -> Prop) l m zs2 : (forall i, keeps_mode (f i)) -> (forall i, keeps_mode (f2 i)) ->
  (forall i z2, In i l -> returns (f2 i) m z2 -> P z2 -> exists z, returns (f i) m z /\ Q z z2) ->
  returns (mapM f2 l) m zs2 -> Forall P zs2 -> exists zs, returns (mapM f l) m zs /\ Forall2 Q zs zs2.
Proof.
  intros K K2 H H2 HP. apply mapM_returns in H2; [|exact K2].
  assert (T : exists zs, Forall2 (fun i z => returns (f i) m z) l zs /\ Forall2 Q zs zs2).
  { clear K K2. induction H2 as [|i z2 l zs2 Hz H2 IH]; [exists []; split; constructor|]. inversion HP; subst.
    destruct (H i z2 (or_introl eq_refl) Hz) as (z & Hz1 & HQ); [assumption|]. destruct IH as (zs & A1 & A2); [intros; apply H; auto; now right | assumption|].
    exists (z :: zs). split; constructor; assumption. }
  destruct T as (zs & A1 & A2). exists zs. split; [now apply mapM_returns | exact A2].
Qed.
Lemma Forall2_nth_both {A} (Q : A -> A -> Prop) l l2 k : Forall2 Q l l2 ->
  match nth_error l k, nth_error l2 k with Some a, Some b => Q a b | None, None => True | _, _ => False end.
Proof. intro H. revert k. induction H; intros [|k]; simpl; auto. apply IHForall2. Qed.
Lemma aget_nested x x2 idx : nested_arr x x2 ->
  match aget x idx, aget x2 idx with Some a, Some b => nested_operand a b | None, None => True | _, _ => False end.
Proof.
  intros [E H]. unfold aget. rewrite E. destruct (flat (ashape x2) idx) as [k|]; [|exact I]. exact (Forall2_nth_both _ _ _ k H).
Qed.
Lemma oget_nested x x2 idx : nested_arr x x2 -> nested_operand (oget x idx) (oget x2 idx).
Proof.
  intro N. assert (H := aget_nested x x2 idx N). unfold oget. destruct (aget x idx), (aget x2 idx); try tauto. simpl. split; [reflexivity|]. split; [lia|exact I].
Qed.

Section Product.
Variables x x2 y y2 : arr operand.
Variable m : rmode.
Hypothesis Nx : nested_arr x x2.
Hypothesis Ny : nested_arr y y2.
Hypothesis Wx : awf x.
Hypothesis Wy : awf y.
Hypothesis It : Forall is_itv (adata x) \/ Forall is_itv (adata y).
Lemma entry_nested n (fi gi : nat -> list nat) z2 :
  (forall k, (k < n)%nat -> in_bounds (ashape x) (fi k)) -> (forall k, (k < n)%nat -> in_bounds (ashape y) (gi k)) ->
  returns (dot (map (fun k => (oget x2 (fi k), oget y2 (gi k))) (seq 0 n))) m z2 -> finite_operand z2 ->
  exists z, returns (dot (map (fun k => (oget x (fi k), oget y (gi k))) (seq 0 n))) m z /\ nested_operand z z2.
Proof.
  intros Hf Hg. apply dot_nested. assert (T : forall j p, (j + p <= n)%nat ->
    Forall2 dot_nest (map (fun k => (oget x (fi k), oget y (gi k))) (seq j p)) (map (fun k => (oget x2 (fi k), oget y2 (gi k))) (seq j p))); [|apply T; lia].
  intros j p. revert j. induction p as [|p IH]; intros j Hj; [constructor|]. cbn [seq map]. constructor; [|apply IH; lia].
  split; [now apply oget_nested|]. split; [now apply oget_nested|]. cbn [fst snd].
  destruct It as [I|I]; rewrite Forall_forall in I; [left; apply I; refine (proj2 (oget_in x _ Wx _)); apply Hf; lia | right; apply I; refine (proj2 (oget_in y _ Wy _)); apply Hg; lia].
Qed.
Lemma matmul_nested Z2 : returns (matmul x2 y2) m Z2 -> finite_entries Z2 -> exists Z, returns (matmul x y) m Z /\ nested_arr Z Z2.
Proof.
  unfold matmul. destruct Nx as [Ex _], Ny as [Ey _]. rewrite <- Ex, <- Ey. intros H F.
  destruct (ashape x) as [|a [|b [|? ?]]] eqn:Sx; try discriminate; destruct (ashape y) as [|c [|d [|? ?]]] eqn:Sy; try discriminate.
  - destruct (Nat.eqb_spec a c) as [<-|]; [|discriminate]. rewrite keeps_returns in H by apply keeps_dot. destruct H as (z2 & Hz & H). apply returns_ret in H. subst Z2.
    inversion F as [|? ? F1 _]; subst. destruct (entry_nested a (fun k => [k]) (fun k => [k]) z2) as (z & Hz1 & Nz); [intros; rewrite Sx; now apply ib1 | intros; rewrite Sy; now apply ib1 | exact Hz | exact F1|].
    exists (scalar z). split; [rewrite keeps_returns by apply keeps_dot; exists z; split; [exact Hz1 | now apply returns_ret]|]. split; [reflexivity|]. constructor; [exact Nz|constructor].
  - destruct (Nat.eqb_spec a c) as [<-|]; [|discriminate]. rewrite keeps_returns in H by (apply keeps_mapM; intro; apply keeps_dot). destruct H as (l2 & Hl & H). apply returns_ret in H. subst Z2.
    refine ((fun T => _) (mapM_nested (fun j => dot (map (fun k => (oget x [k], oget y [k; j])) (seq 0 a))) _ finite_operand nested_operand _ m l2 _ _ _ Hl F)).
    + destruct T as (l & Hl1 & N). exists (mkarr [d] l). split; [rewrite keeps_returns by (apply keeps_mapM; intro; apply keeps_dot); exists l; split; [exact Hl1 | now apply returns_ret]|]. split; [reflexivity|exact N].
    + intro. apply keeps_dot.
    + intro. apply keeps_dot.
    + intros j z2 Hj. apply in_seq in Hj. apply (entry_nested a (fun k => [k]) (fun k => [k; j])); intros k Hk; [rewrite Sx; now apply ib1 | rewrite Sy; apply ib2; lia].
  - destruct (Nat.eqb_spec b c) as [<-|]; [|discriminate]. rewrite keeps_returns in H by (apply keeps_mapM; intro; apply keeps_dot). destruct H as (l2 & Hl & H). apply returns_ret in H. subst Z2.
    refine ((fun T => _) (mapM_nested (fun i => dot (map (fun k => (oget x [i; k], oget y [k])) (seq 0 b))) _ finite_operand nested_operand _ m l2 _ _ _ Hl F)).
    + destruct T as (l & Hl1 & N). exists (mkarr [a] l). split; [rewrite keeps_returns by (apply keeps_mapM; intro; apply keeps_dot); exists l; split; [exact Hl1 | now apply returns_ret]|]. split; [reflexivity|exact N].
    + intro. apply keeps_dot.
    + intro. apply keeps_dot.
    + intros j z2 Hj. apply in_seq in Hj. apply (entry_nested b (fun k => [j; k]) (fun k => [k])); intros k Hk; [rewrite Sx; apply ib2; lia | rewrite Sy; now apply ib1].
  - destruct (Nat.eqb_spec b c) as [<-|]; [|discriminate]. rewrite keeps_returns in H by (apply keeps_mapM; intro; apply keeps_dot). destruct H as (l2 & Hl & H). apply returns_ret in H. subst Z2.
    refine ((fun T => _) (mapM_nested (fun ij => dot (map (fun k => (oget x [nth 0 ij 0%nat; k], oget y [k; nth 1 ij 0%nat])) (seq 0 b))) _ finite_operand nested_operand _ m l2 _ _ _ Hl F)).
    + destruct T as (l & Hl1 & N). exists (mkarr [a; d] l). split; [rewrite keeps_returns by (apply keeps_mapM; intro; apply keeps_dot); exists l; split; [exact Hl1 | now apply returns_ret]|]. split; [reflexivity|exact N].
    + intro. apply keeps_dot.
    + intro. apply keeps_dot.
    + intros ij z2 Hi. apply in_indices in Hi. assert (B : in_bounds [a; d] ij) by now apply in_bounds_flat.
      inversion B as [|i ? ij' ? Hir B']; subst. inversion B' as [|j ? ? ? Hjc B'']; subst. inversion B''; subst. cbn [nth].
      apply (entry_nested b (fun k => [i; k]) (fun k => [k; j])); intros k Hk; [rewrite Sx; apply ib2; lia | rewrite Sy; apply ib2; lia].
Qed.
End Product.

Lemma bget_nested x x2 idx : nested_arr x x2 ->
  match bget x idx, bget x2 idx with Some a, Some b => nested_operand a b | None, None => True | _, _ => False end.
Proof. intro N. unfold bget. rewrite (proj1 N). now apply aget_nested. Qed.
Lemma binop_nested o x x2 y y2 m Z2 : nested_arr x x2 -> nested_arr y y2 ->
  Forall is_itv (adata x) \/ (Forall is_itv (adata y) /\ o <> OpDiv) ->
  returns (binop_arr (py_op o) x2 y2) m Z2 -> Forall finite_itv (adata Z2) ->
  exists Z, returns (binop_arr (py_op o) x y) m Z /\ ashape Z = ashape Z2 /\ Forall2 nested (adata Z) (adata Z2).
Proof.
  intros Nx Ny It. unfold binop_arr. rewrite <- (proj1 Nx), <- (proj1 Ny). destruct (bcast (ashape x) (ashape y)) as [s|]; [|discriminate].
  assert (Kb : forall (u v : arr operand) idx, keeps_mode (match bget u idx, bget v idx with Some a, Some b => py_op o a b | _, _ => mraise IndexError end)).
  { intros u v idx. destruct (bget u idx); [|apply keeps_raise]. destruct (bget v idx); [apply keeps_py_op | apply keeps_raise]. }
  intros H F. rewrite keeps_returns in H by (apply keeps_mapM; intro; apply Kb). destruct H as (l2 & Hl & H). apply returns_ret in H. subst Z2. cbn [adata ashape] in *.
  refine ((fun T => _) (mapM_nested (fun idx => match bget x idx, bget y idx with Some a, Some b => py_op o a b | _, _ => mraise IndexError end) _ finite_itv nested _ m l2 _ _ _ Hl F)).
  - destruct T as (l & Hl1 & N). exists (mkarr s l). split; [rewrite keeps_returns by (apply keeps_mapM; intro; apply Kb); exists l; split; [exact Hl1 | now apply returns_ret]|]. split; [reflexivity|exact N].
  - intro. apply Kb.
  - intro. apply Kb.
  - intros idx z2 _ Hz Fz. assert (Bx := bget_nested x x2 idx Nx). assert (By := bget_nested y y2 idx Ny).
    destruct (bget x idx) as [a|] eqn:Ea, (bget x2 idx) as [a2|]; try tauto; try discriminate.
    destruct (bget y idx) as [b|] eqn:Eb, (bget y2 idx) as [b2|]; try tauto; try discriminate.
    apply (py_op_nested o a a2 b b2 m z2 Bx By); [|exact Hz|exact Fz].
    assert (T : forall (u : arr operand) c, bget u idx = Some c -> Forall is_itv (adata u) -> is_itv c).
    { intros u c E Hu. rewrite Forall_forall in Hu. apply Hu. unfold bget, aget in E. destruct (flat _ _); [|discriminate]. eapply nth_error_In; eauto. }
    destruct It as [I|[I No]]; [left; exact (T x a Ea I) | right; split; [exact (T y b Eb I) | exact No]].
Qed.

(** ** The library's array operators *)
Lemma op_arr_nested Z Z2 : ashape (adat Z) = ashape (adat Z2) -> Forall2 nested (adata (adat Z)) (adata (adat Z2)) -> nested_arr (op_arr Z) (op_arr Z2).
Proof.
  intros E H. split; [exact E|]. unfold op_arr, amap. cbn [adata]. clear E. induction H; constructor; assumption.
Qed.
Lemma op_arr_itv x : Forall is_itv (adata (op_arr x)).
Proof. apply Forall_forall. intros o Ho. unfold op_arr, amap in Ho. cbn [adata] in Ho. apply in_map_iff in Ho. destruct Ho as (e & <- & _). exact I. Qed.
Lemma arr_op_nested o x x2 y y2 m Z2 : nested_arr (op_arr x) (op_arr x2) -> nested_arr y y2 -> returns (arr_op o x2 y2) m Z2 -> Forall finite_itv (adata (adat Z2)) ->
  exists Z, returns (arr_op o x y) m Z /\ nested_arr (op_arr Z) (op_arr Z2).
Proof.
  intros Nx Ny H F. apply lift_returns in H; [|apply keeps_binop_arr; intros; apply keeps_py_op]. destruct H as (d2 & Hd & ->).
  destruct (binop_nested o (op_arr x) (op_arr x2) y y2 m d2 Nx Ny (or_introl (op_arr_itv x)) Hd F) as (d & Hd1 & E & N).
  exists (array_interval d). split; [|now apply op_arr_nested]. apply lift_returns; [apply keeps_binop_arr; intros; apply keeps_py_op|]. eauto.
Qed.
Lemma arr_rop_nested o x x2 y y2 m Z2 : o <> OpDiv -> nested_arr (op_arr x) (op_arr x2) -> nested_arr y y2 -> returns (arr_rop o y2 x2) m Z2 -> Forall finite_itv (adata (adat Z2)) ->
  exists Z, returns (arr_rop o y x) m Z /\ nested_arr (op_arr Z) (op_arr Z2).
Proof.
  intros No Nx Ny H F. destruct o; [exact (arr_op_nested OpAdd x x2 y y2 m Z2 Nx Ny H F) | | exact (arr_op_nested OpMul x x2 y y2 m Z2 Nx Ny H F) | congruence].
  cbn [arr_rop] in *. apply lift_returns in H; [|apply keeps_binop_arr; intros; apply keeps_py_op]. destruct H as (d2 & Hd & ->).
  destruct (binop_nested OpSub y y2 (op_arr x) (op_arr x2) m d2 Ny Nx (or_intror (conj (op_arr_itv x) No)) Hd F) as (d & Hd1 & E & N).
  exists (array_interval d). split; [|now apply op_arr_nested]. apply lift_returns; [apply keeps_binop_arr; intros; apply keeps_py_op|]. eauto.
Qed.

(** A 2x2 matrix times a vector, and the same with wider entries. *)
Definition iso_A (w : Z) : aitv := array_interval (mkarr [2; 2]%nat [mkitv Classical (PInt (1 - w)) (PInt 2); mkitv Classical (PInt (-1)) (PInt w); mkitv Classical (PInt 3) (PInt (3 + w)); mkitv Classical (PInt (- w)) (PInt w)]).
Definition iso_v (w : Z) : aitv := array_interval (mkarr [2]%nat [mkitv Classical (PInt (- w)) (PInt 5); mkitv Classical (PInt 2) (PInt (2 + w))]).
Definition fin_numb (x : pynum) : bool := match x with PInt _ => true | PFlt f => is_finite f end.
Definition fin_itvb (X : itv) : bool := fin_numb (lo X) && fin_numb (hi X).
Definition fin_op (o : operand) : bool := match o with OItv X => fin_itvb X | ONum _ => true end.
Lemma fin_itvb_ok X : fin_itvb X = true -> finite_itv X.
Proof. unfold fin_itvb, finite_itv. rewrite andb_true_iff. intros [A B]. split; [destruct (lo X) | destruct (hi X)]; simpl in *; auto. Qed.
Lemma iso_arr_case : nested_arr (op_arr (iso_A 1)) (op_arr (iso_A 4)) /\ nested_arr (op_arr (iso_v 1)) (op_arr (iso_v 2)) /\ awf (op_arr (iso_A 1)) /\ awf (op_arr (iso_v 1)) /\
  (exists Z2, returns (matmul (op_arr (iso_A 4)) (op_arr (iso_v 2))) mode_NE Z2 /\ finite_entries Z2) /\
  exists Z2, returns (arr_op OpMul (iso_A 4) (op_arr (iso_v 2))) mode_NE Z2 /\ Forall finite_itv (adata (adat Z2)).
Proof.
  assert (P : forall a b, (Z.abs a <= 2 ^ 26)%Z -> (Z.abs b <= 2 ^ 26)%Z -> (a <= b)%Z -> plain (mkitv Classical (PInt a) (PInt b))).
  { intros a b Ha Hb Hab. split; [reflexivity|]. split; [split; simpl; lia|]. split; [split; exact I|]. simpl. now apply IZR_le. }
  split; [|split; [|split; [reflexivity|split; [reflexivity|split]]]].
  - split; [reflexivity|]. repeat (apply Forall2_cons; [split; [apply P; lia | split; [apply P; lia | split; reflexivity]]|]). apply Forall2_nil.
  - split; [reflexivity|]. repeat (apply Forall2_cons; [split; [apply P; lia | split; [apply P; lia | split; reflexivity]]|]). apply Forall2_nil.
  - assert (T : match outcome (matmul (op_arr (iso_A 4)) (op_arr (iso_v 2))) mode_NE with Ok Z => forallb fin_op (adata Z) | _ => false end = true) by (vm_compute; reflexivity).
    unfold returns. destruct (outcome (matmul (op_arr (iso_A 4)) (op_arr (iso_v 2))) mode_NE) as [Z|]; [|discriminate]. exists Z. split; [reflexivity|].
    apply Forall_forall. intros o Ho. rewrite forallb_forall in T. specialize (T o Ho). destruct o as [c|X]; [exact I|]. now apply fin_itvb_ok.
  - assert (T : match outcome (arr_op OpMul (iso_A 4) (op_arr (iso_v 2))) mode_NE with Ok Z => forallb fin_itvb (adata (adat Z)) | _ => false end = true) by (vm_compute; reflexivity).
    unfold returns. destruct (outcome (arr_op OpMul (iso_A 4) (op_arr (iso_v 2))) mode_NE) as [Z|]; [|discriminate]. exists Z. split; [reflexivity|].
    apply Forall_forall. intros o Ho. rewrite forallb_forall in T. specialize (T o Ho). now apply fin_itvb_ok.
Qed.
