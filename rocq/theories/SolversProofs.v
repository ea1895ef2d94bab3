(** Proofs about Gauss and Gauss_Seidel. *)
From Coq Require Import ZArith Reals List Bool Arith Lia Lra Psatz Floats.SpecFloat.
From Flocq Require Import Core IEEE754.BinarySingleNaN.
From Verif Require Import Base PyNum Kernel Spec Expr XReal XArith KernelProofs ExprProofs KernelAlg KernelMore Arrays Construct SpecArray ArrayProofs ArrayMore ArrayMat ConstructProofs ConstructMore ConstructUtil Solvers.
Import ListNotations.
Open Scope R_scope.

(** ** Weak enclosure *)
Definition enc (X : itv) (x : R) : Prop := good X /\ member_or_nan X x.
Definition enc_op (o : operand) (x : R) : Prop :=
  match o with ONum c => small_num c /\ finite_num c /\ x = num_val c | OItv X => enc X x end.

Lemma enc_itv o X Y m Z x y : o <> OpDiv -> enc X x -> enc Y y -> returns (py_op o (OItv X) (OItv Y)) m Z -> enc Z (opR o x y).
Proof.
  intros No [GX HX] [GY HY] HZ. destruct (py_op_itv o X Y m Z GX GY HZ) as (kZ & sZ & W).
  split; [now apply good_of_wsound2 with (real_op o) X Y|]. destruct W as [W1 W2].
  destruct HX as [NX|HX]; [left; auto|]. destruct HY as [NY|HY]; [left; auto|].
  destruct (W2 x y HX HY) as (r & Er & Hr). apply real_op_some in Er. destruct Er as [-> _]. exact Hr.
Qed.
(** Whatever is divided, the quotient interval encloses the solution. *)
Lemma enc_div X Y m Z q y : enc X (q * y) -> enc Y y -> returns (py_div (OItv X) (OItv Y)) m Z -> enc Z q.
Proof.
  intros [GX HX] [GY HY] HZ. destruct (py_op_itv OpDiv X Y m Z GX GY HZ) as (kZ & sZ & W).
  split; [now apply good_of_wsound2 with (real_op OpDiv) X Y|]. destruct W as [W1 W2].
  destruct HX as [NX|HX]; [left; auto|]. destruct HY as [NY|HY]; [left; auto|].
  destruct (W2 _ y HX HY) as (r & Er & Hr). apply real_op_some in Er. destruct Er as [-> Ny].
  replace q with (opR OpDiv (q * y) y); [exact Hr|]. simpl. field. now apply Ny.
Qed.
Lemma enc_sub_op X o m Z x y : enc X x -> enc_op o y -> returns (py_sub (OItv X) o) m Z -> enc Z (x - y).
Proof.
  intros [GX HX] Ho HZ. destruct o as [c|Y].
  - destruct Ho as (Sc & Fc & ->). destruct (py_op_num_r OpSub X c m Z ltac:(discriminate) GX Sc Fc HZ) as (kZ & sZ & W).
    split; [now apply good_of_wsound1 with (fun x => real_op OpSub x (num_val c)) X|]. destruct W as [W1 W2].
    destruct HX as [NX|HX]; [left; auto|]. destruct (W2 x HX) as (r & Er & Hr). simpl in Er. inversion Er; subst. exact Hr.
  - exact (enc_itv OpSub X Y m Z x y ltac:(discriminate) (conj GX HX) Ho HZ).
Qed.
Lemma enc_num_l o c X m Z x : o <> OpDiv -> small_num c -> finite_num c -> enc X x -> returns (py_op o (ONum c) (OItv X)) m Z -> enc Z (opR o (num_val c) x).
Proof.
  intros No Sc Fc [GX HX] HZ. destruct (py_op_num_l o X c m Z GX Sc Fc HZ) as (kZ & sZ & W).
  split; [now apply good_of_wsound1 with (fun x => real_op o (num_val c) x) X|]. destruct W as [W1 W2].
  destruct HX as [NX|HX]; [left; auto|]. destruct (W2 x HX) as (r & Er & Hr). apply real_op_some in Er. destruct Er as [-> _]. exact Hr.
Qed.

(** ** Sums *)
Definition sumR (l : list R) : R := fold_right Rplus 0 l.
Lemma keeps_sum_from l : forall a, keeps_mode (sum_from a l).
Proof. induction l as [|e l IH]; intro a; [apply keeps_ret|]. cbn [sum_from]. apply keeps_bind; [apply (keeps_py_op OpAdd)|]. intro. apply IH. Qed.
Lemma keeps_py_sum l : keeps_mode (py_sum l).
Proof.
  destruct l; [apply keeps_ret|]. cbn [py_sum]. apply keeps_bind; [apply (keeps_py_op OpAdd)|]. intro.
  apply keeps_bind; [apply keeps_sum_from|]. intro. apply keeps_ret.
Qed.
Lemma sum_from_enc l : forall rs a ra m s, enc a ra -> Forall2 enc l rs -> returns (sum_from a l) m s -> enc s (ra + sumR rs).
Proof.
  induction l as [|e l IH]; intros rs a ra m s Ha H HS; inversion H as [|? r ? rs' He Hl]; subst.
  - cbn [sum_from] in HS. apply returns_ret in HS. subst. simpl. now rewrite Rplus_0_r.
  - cbn [sum_from] in HS. apply keeps_returns in HS; [|apply (keeps_py_op OpAdd)]. destruct HS as (a' & H1 & H2).
    simpl. rewrite <- Rplus_assoc. refine (IH _ _ _ _ _ _ _ H2); [|assumption].
    exact (enc_itv OpAdd _ _ _ _ _ _ ltac:(discriminate) Ha He H1).
Qed.
Lemma py_sum_enc l rs m s : Forall2 enc l rs -> returns (py_sum l) m s -> enc_op s (sumR rs).
Proof.
  intros H HS. inversion H as [|e r l' rs' He Hl]; subst.
  - cbn [py_sum] in HS. apply returns_ret in HS. subst. simpl. repeat split; try lia. 
  - cbn [py_sum] in HS. apply keeps_returns in HS; [|apply (keeps_py_op OpAdd)]. destruct HS as (a' & H1 & H2).
    apply keeps_returns in H2; [|apply keeps_sum_from]. destruct H2 as (s' & H2 & H3). apply returns_ret in H3. subst s.
    simpl. refine (sum_from_enc _ _ _ _ _ _ _ Hl H2).
    assert (T := enc_num_l OpAdd (PInt 0) e m a' r ltac:(discriminate) ltac:(simpl; lia) I He H1).
    simpl in T. now rewrite Rplus_0_l in T.
Qed.

(** ** Tables *)
Lemma Forall2_len {A B} (P : A -> B -> Prop) l1 l2 : Forall2 P l1 l2 -> length l2 = length l1.
Proof. induction 1; simpl; congruence. Qed.
Lemma mapM_list {A} (f : A -> M itv) l m ys : (forall x, keeps_mode (f x)) -> returns (mapM f l) m ys -> length ys = length l /\
  forall i x d, nth_error l i = Some x -> returns (f x) m (nth i ys d).
Proof.
  intros K H. apply mapM_returns in H; [|assumption]. induction H as [|x y l ys Hx H [L IH]]; [split; [reflexivity|]; intros [|i]; discriminate|].
  split; [simpl; congruence|]. intros [|i] z d E; [simpl in *; congruence | now apply IH].
Qed.
Lemma seq_nth_error k c i : (i < c)%nat -> nth_error (seq k c) i = Some (k + i)%nat.
Proof. intro H. rewrite (nth_error_nth' _ 0%nat) by now rewrite seq_length. now rewrite seq_nth. Qed.
Lemma keeps_tab k n f old : (forall i, keeps_mode (f i)) -> keeps_mode (tab k n f old).
Proof. intro K. unfold tab. apply keeps_bind; [now apply keeps_mapM|]. intro. apply keeps_ret. Qed.
Lemma tab_spec k n f old m v : (forall i, keeps_mode (f i)) -> returns (tab k n f old) m v ->
  (forall i, (i < k)%nat -> v i = old i) /\ forall i, (k <= i < n)%nat -> returns (f i) m (v i).
Proof.
  intros K H. unfold tab in H. apply keeps_returns in H; [|now apply keeps_mapM]. destruct H as (l & Hl & H).
  apply returns_ret in H. subst v. destruct (mapM_list f _ m l K Hl) as [L E]. split.
  - intros i Hi. apply Nat.ltb_lt in Hi. now rewrite Hi.
  - intros i Hi. replace (i <? k)%nat with false by (symmetry; apply Nat.ltb_ge; lia). apply E.
    rewrite seq_nth_error by lia. f_equal. lia.
Qed.
Lemma keeps_tab2 k n f old : (forall i l, keeps_mode (f i l)) -> keeps_mode (tab2 k n f old).
Proof. intro K. unfold tab2. apply keeps_bind; [apply keeps_mapM; intro; now apply keeps_mapM|]. intro. apply keeps_ret. Qed.
Lemma mapM_list2 {A B} (f : A -> M B) l m ys : (forall x, keeps_mode (f x)) -> returns (mapM f l) m ys ->
  forall i x d, nth_error l i = Some x -> returns (f x) m (nth i ys d).
Proof.
  intros K H. apply mapM_returns in H; [|assumption]. induction H as [|x y l ys Hx H IH]; [intros [|i]; discriminate|].
  intros [|i] z d E; [simpl in *; congruence | now apply IH].
Qed.
Lemma tab2_spec k n f old m v : (forall i l, keeps_mode (f i l)) -> returns (tab2 k n f old) m v ->
  (forall i l, (i < k \/ l < k)%nat -> v i l = old i l) /\ forall i l, (k <= i < n)%nat -> (k <= l < n)%nat -> returns (f i l) m (v i l).
Proof.
  intros K H. unfold tab2 in H. apply keeps_returns in H; [|apply keeps_mapM; intro; now apply keeps_mapM]. destruct H as (rows & Hl & H).
  apply returns_ret in H. subst v. assert (E := mapM_list2 _ _ m rows (fun i => keeps_mapM (f i) _ (K i)) Hl). split.
  - intros i l [Hi|Hi]; apply Nat.ltb_lt in Hi; rewrite Hi; [reflexivity|]. now rewrite orb_true_r.
  - intros i l Hi Hj. replace (i <? k)%nat with false by (symmetry; apply Nat.ltb_ge; lia).
    replace (l <? k)%nat with false by (symmetry; apply Nat.ltb_ge; lia). cbn [orb].
    refine (mapM_list2 (f i) _ m _ (K i) (E (i - k)%nat i [] _) (l - k)%nat l (old i l) _); rewrite seq_nth_error by lia; f_equal; lia.
Qed.

(** ** argmax *)
Lemma argmax_from_nth l : forall best i pre, (fst best < length pre)%nat -> i = length pre ->
  nth_error (pre ++ l) (fst best) = Some (snd best) ->
  let r := argmax_from best i l in (fst r < length (pre ++ l))%nat /\ nth_error (pre ++ l) (fst r) = Some (snd r).
Proof.
  induction l as [|v l IH]; intros best i pre Hb Hi E; cbn [argmax_from].
  - split; [rewrite app_nil_r; exact Hb | exact E].
  - specialize (IH (if negb (is_nan_num (snd best)) && (is_nan_num v || num_lt (snd best) v) then (i, v) else best) (S i) (pre ++ [v])).
    rewrite <- app_assoc in IH. apply IH.
    + rewrite app_length. simpl. destruct (_ && _); simpl; lia.
    + rewrite app_length. simpl. lia.
    + destruct (_ && _); [|exact E]. simpl. subst i. rewrite nth_error_app2 by lia. now rewrite Nat.sub_diag.
Qed.
Lemma argmax_nth l d v : argmax l = Some (d, v) -> nth_error l d = Some v.
Proof.
  destruct l as [|a l]; [discriminate|]. unfold argmax. intro H.
  destruct (argmax_from_nth l (0%nat, a) 1 [a]) as [_ E]; [simpl; lia | reflexivity | reflexivity |].
  assert (R : argmax_from (0%nat, a) 1 l = (d, v)) by congruence. rewrite R in E. exact E.
Qed.

(** ** Positive mignitude *)
Lemma mig_pos X m f : good X -> returns (mig X) m f -> num_lt (PInt 0) (PFlt f) = true -> ~ nan_itv X /\ ~ member X 0.
Proof.
  intros (_ & sX & _) H P. destruct (mig_run X m sX) as (g & Hg & Eg). unfold returns, outcome in H. rewrite Hg in H. apply Ok_inj in H. subst g.
  rewrite num_lt_x in P. change (xval (PFlt f)) with (xflt f) in P. rewrite Eg in P. unfold xmig in P.
  destruct (contains_num X (PInt 0)) eqn:E.
  - exfalso. change (xval (PInt 0)) with (XFin 0) in P. apply xltb_fin in P. lra.
  - split.
    + intros [N1 N2]. apply is_nan_num_x in N1, N2. rewrite N1, N2 in P. discriminate.
    + intro Z. apply (proj2 (contains_num_spec X (PInt 0) I)) in Z. simpl in Z. congruence.
Qed.

(** ** Gauss: one forward step *)
Definition swap_rows {T} (j k : nat) (f : nat -> T) : nat -> T := fun i => if (i =? j)%nat then f k else if (i =? k)%nat then f j else f i.
Lemma div_all_enc es Y m rs : good Y -> ~ nan_itv Y -> ~ member Y 0 -> returns (div_all es Y) m rs ->
  forall i e d x y, nth_error es i = Some e -> enc e x -> member Y y -> enc (nth i rs d) (x / y).
Proof.
  intros GY NY Z H i e d x y Ei He My. destruct (recip_good Y m GY Z) as (iv & uv & Hi & Hu & GR & ER).
  unfold returns, outcome, div_all in H. rewrite (bind_ok _ _ _ _ _ Hi), (bind_ok _ _ _ _ _ Hu) in H.
  assert (K : forall e0, keeps_mode (rmul_any (mkitv (kd Y) (PFlt iv) (PFlt uv)) (OItv e0))) by (intro e0; apply keeps_mul).
  assert (R := mapM_list2 _ es m rs K H i e d Ei). destruct (ER y My) as [Ny Mi].
  assert (T := enc_itv OpMul e _ m _ x (1 / y) ltac:(discriminate) He (conj GR (or_intror Mi)) R).
  simpl in T. replace (x / y) with (x * (1 / y)) by (field; exact Ny). exact T.
Qed.
Lemma keeps_div_all es Y : keeps_mode (div_all es Y).
Proof. unfold div_all, div_. keeps. apply keeps_mapM. intro. apply keeps_mul. Qed.
Lemma gauss_step_spec n j (A : imat) (b : ivec) m A2 b2 : (S j < n)%nat ->
  (forall i, (j <= i < n)%nat -> good (A i j)) -> returns (gauss_step n j A b) m (A2, b2) ->
  exists k r, (j <= k < n)%nat /\ ~ nan_itv (A k j) /\ ~ member (A k j) 0 /\
    let A1 := fun i l => if (l <? j)%nat then A i l else swap_rows j k (fun i' => A i' l) i in
    let b1 := swap_rows j k b in
    (forall i x y, (j < i < n)%nat -> enc (A1 i j) x -> member (A1 j j) y -> enc (r i) (x / y)) /\
    (forall i l, (i <= j \/ l <= j)%nat -> A2 i l = A1 i l) /\ (forall i, (i <= j)%nat -> b2 i = b1 i) /\
    (forall i l a q p, (j < i < n)%nat -> (j < l < n)%nat -> enc (A1 i l) a -> enc (r l) q -> enc (A1 j l) p -> enc (A2 i l) (a - q * p)) /\
    (forall i a q p, (j < i < n)%nat -> enc (b1 i) a -> enc (r i) q -> enc (b1 j) p -> enc (b2 i) (a - q * p)).
Proof.
  intros Hj GA H. unfold gauss_step in H. apply keeps_returns in H; [|apply keeps_mapM; intro; apply keeps_mig].
  destruct H as (migs & Hm & H). destruct (argmax (map PFlt migs)) as [[d mx]|] eqn:Ea; [|discriminate].
  destruct (num_lt (PInt 0) mx) eqn:Pm; [|discriminate].
  apply argmax_nth in Ea. 
  assert (Ld : (d < length migs)%nat) by (rewrite <- (map_length PFlt); apply nth_error_Some; congruence).
  assert (Lm : length migs = (n - j)%nat).
  { apply mapM_returns in Hm; [|intro; apply keeps_mig]. apply Forall2_len in Hm. now rewrite seq_length in Hm. }
  set (k := (d + j)%nat) in *.
  assert (Hk : returns (mig (A k j)) m (nth d migs f0)).
  { refine (mapM_list2 _ _ m migs (fun i => keeps_mig _) Hm d k f0 _). rewrite seq_nth_error by lia. f_equal. unfold k. lia. }
  assert (Ev : mx = PFlt (nth d migs f0)).
  { rewrite nth_error_map in Ea. rewrite (nth_error_nth' migs f0 Ld) in Ea. simpl in Ea. congruence. }
  rewrite Ev in Pm. assert (Rk : (j <= k < n)%nat) by (unfold k; lia). destruct (mig_pos _ m _ (GA k Rk) Hk Pm) as [Nk Zk]. clearbody k.
  set (A1' := if (k =? j)%nat then A else fun i l => if (l <? j)%nat then A i l else if (i =? j)%nat then A k l else if (i =? k)%nat then A j l else A i l) in *.
  set (b1' := if (k =? j)%nat then b else fun i => if (i =? j)%nat then b k else if (i =? k)%nat then b j else b i) in *.
  assert (EA : forall i l, A1' i l = (if (l <? j)%nat then A i l else swap_rows j k (fun i' => A i' l) i)).
  { intros i l. unfold A1', swap_rows. destruct (Nat.eqb_spec k j) as [Ekj|_]; [rewrite Ekj|reflexivity]. destruct (l <? j)%nat; [reflexivity|].
    destruct (Nat.eqb_spec i j); now subst. }
  assert (Eb : forall i, b1' i = swap_rows j k b i).
  { intros i. unfold b1', swap_rows. destruct (Nat.eqb_spec k j) as [Ekj|_]; [rewrite Ekj|reflexivity]. destruct (Nat.eqb_spec i j); now subst. }
  clearbody A1' b1'.
  apply keeps_returns in H; [|apply keeps_div_all]. destruct H as (rs & Hrs & H).
  set (r := fun i => nth (i - S j) rs zero_itv) in *.
  assert (KA : forall i l, keeps_mode (p <- py_mul (OItv (r l)) (OItv (A1' j l));; py_sub (OItv (A1' i l)) (OItv p))) by
    (intros i l; apply keeps_bind; [apply (keeps_py_op OpMul)|]; intro; apply (keeps_py_op OpSub)).
  assert (Kb : forall i, keeps_mode (p <- rmul_any (b1' j) (OItv (r i));; py_sub (OItv (b1' i)) (OItv p))) by
    (intros i; apply keeps_bind; [apply keeps_mul|]; intro; apply (keeps_py_op OpSub)).
  apply keeps_returns in H; [|now apply keeps_tab2]. destruct H as (A2' & HA2 & H).
  apply keeps_returns in H; [|now apply keeps_tab]. destruct H as (b2' & Hb2 & H).
  apply returns_ret in H. assert (E1 : A2 = A2') by congruence. assert (E2 : b2 = b2') by congruence. clear H. subst A2' b2'.
  destruct (tab2_spec _ _ _ _ _ _ KA HA2) as [OA NA]. destruct (tab_spec _ _ _ _ _ _ Kb Hb2) as [Ob Nb].
  exists k, r. split; [exact Rk|]. split; [exact Nk|]. split; [exact Zk|].
  assert (Gp : A1' j j = A k j).
  { rewrite EA. rewrite Nat.ltb_irrefl. unfold swap_rows. now rewrite Nat.eqb_refl. }
  cbv zeta. split; [|split; [|split; [|split]]].
  - intros i x y Hi Hx Hy. rewrite <- EA in Hx, Hy.
    rewrite Gp in Hrs. rewrite Gp in Hy.
    refine (div_all_enc _ (A k j) m rs (GA k Rk) Nk Zk Hrs (i - S j)%nat (A1' i j) zero_itv x y _ Hx Hy).
    rewrite nth_error_map, seq_nth_error by lia. cbn [option_map]. do 2 f_equal. lia.
  - intros i l Hil. rewrite OA by lia. apply EA.
  - intros i Hi. rewrite Ob by lia. apply Eb.
  - intros i l a q p Hi Hl Ha Hq Hp. rewrite <- EA in Ha, Hp. assert (T := NA i l ltac:(lia) ltac:(lia)).
    apply keeps_returns in T; [|apply (keeps_py_op OpMul)]. destruct T as (pr & Hpr & T).
    refine (enc_itv OpSub _ _ m _ a (q * p) ltac:(discriminate) Ha _ T).
    exact (enc_itv OpMul _ _ m _ q p ltac:(discriminate) Hq Hp Hpr).
  - intros i a q p Hi Ha Hq Hp. rewrite <- Eb in Ha, Hp. assert (T := Nb i ltac:(lia)).
    apply keeps_returns in T; [|apply keeps_mul]. destruct T as (pr & Hpr & T).
    refine (enc_itv OpSub _ _ m _ a (q * p) ltac:(discriminate) Ha _ T).
    exact (enc_itv OpMul _ _ m _ q p ltac:(discriminate) Hq Hp Hpr).
Qed.

(** ** Gauss: the real system behind the intervals *)
Definition rowsum (Mr : nat -> nat -> R) (x : nat -> R) (i k n : nat) : R := sumR (map (fun l => Mr i l * x l) (seq k (n - k))).
Lemma sumR_app l1 l2 : sumR (l1 ++ l2) = sumR l1 + sumR l2.
Proof. induction l1; simpl; [lra|]. unfold sumR in *. simpl. rewrite IHl1. lra. Qed.
Lemma rowsum_step Mr x i k n : (k < n)%nat -> rowsum Mr x i k n = Mr i k * x k + rowsum Mr x i (S k) n.
Proof. intro H. unfold rowsum. replace (n - k)%nat with (S (n - S k)) by lia. reflexivity. Qed.
Lemma rowsum_end Mr x i n : rowsum Mr x i n n = 0.
Proof. unfold rowsum. now rewrite Nat.sub_diag. Qed.
Lemma rowsum_ext Mr Mr' x i i' k n : (forall l, (k <= l < n)%nat -> Mr i l = Mr' i' l) -> rowsum Mr x i k n = rowsum Mr' x i' k n.
Proof. intro H. unfold rowsum. f_equal. apply map_ext_in. intros l Hl. apply in_seq in Hl. rewrite H by lia. reflexivity. Qed.
Lemma rowsum_zero Mr x i n : forall k, (k <= n)%nat -> (forall l, (l < k)%nat -> Mr i l = 0) -> rowsum Mr x i 0 n = rowsum Mr x i k n.
Proof.
  induction k as [|k IH]; intros Hk Z; [reflexivity|]. rewrite IH by (try lia; intros; apply Z; lia).
  rewrite rowsum_step by lia. rewrite Z by lia. lra.
Qed.
Lemma Rsum_rowsum n Mr x i : Rsum n (fun l => Mr i l * x l) = rowsum Mr x i 0 n.
Proof.
  unfold rowsum. rewrite Nat.sub_0_r. induction n as [|n IH]; [reflexivity|]. rewrite seq_S, map_app, sumR_app. cbn [Rsum]. rewrite IH. simpl. lra.
Qed.
Lemma Rsum_from n Mr x i k : (k <= n)%nat -> (forall l, (l < k)%nat -> Mr i l = 0) -> Rsum n (fun l => Mr i l * x l) = rowsum Mr x i k n.
Proof. intros Hk Z. rewrite Rsum_rowsum. now apply rowsum_zero. Qed.

(** Rows from [j] on use the columns from [j] on, rows [i] before [j] the
    columns from [i] on. *)
Definition ginv (n j : nat) (A : imat) (b : ivec) (Mr : nat -> nat -> R) (v x : nat -> R) : Prop :=
  (forall i l, (i < n)%nat -> (l < n)%nat -> (Nat.min i j <= l)%nat -> enc (A i l) (Mr i l)) /\
  (forall i, (i < n)%nat -> enc (b i) (v i)) /\
  (forall i, (i < n)%nat -> rowsum Mr x i (Nat.min i j) n = v i).

Lemma member_of_enc X x : enc X x -> ~ nan_itv X -> member X x.
Proof. intros [_ [N|H]] NN; tauto. Qed.
Lemma gauss_step_inv n j A b m A2 b2 Mr v x : (S j < n)%nat -> ginv n j A b Mr v x ->
  ((S (S j) < n)%nat -> forall i, (j < i < n)%nat -> Mr i j = 0) ->
  returns (gauss_step n j A b) m (A2, b2) ->
  exists Mr' v', ginv n (S j) A2 b2 Mr' v' x /\ ((S (S j) < n)%nat -> Mr' = Mr).
Proof.
  intros Hj (IA & Ib & Ie) Hz H.
  destruct (gauss_step_spec n j A b m A2 b2 Hj) as (k & r & Rk & Nk & Zk & Sr & OA & Ob & NA & Nb); [|exact H|].
  { intros i Hi. apply (IA i j); lia. }
  cbv zeta in *.
  assert (Pk : Mr k j <> 0).
  { intro E. apply Zk. rewrite <- E. apply member_of_enc; [apply IA; lia | exact Nk]. }
  destruct (Nat.lt_ge_cases (S (S j)) n) as [Hlt|Hge].
  - (* only zeros below the pivot *)
    assert (Ek : k = j) by (destruct (Nat.eq_dec k j); [assumption|]; exfalso; apply Pk, Hz; lia). subst k.
    assert (SW : forall {T} (f : nat -> T) i, swap_rows j j f i = f i) by (intros T f i; unfold swap_rows; destruct (Nat.eqb_spec i j); now subst).
    assert (EA : forall i l, (if (l <? j)%nat then A i l else swap_rows j j (fun i' => A i' l) i) = A i l) by (intros i l; rewrite (SW _ (fun i' => A i' l)); now destruct (l <? j)%nat).
    assert (Er : forall i, (j < i < n)%nat -> enc (r i) 0).
    { intros i Hi. replace 0 with (Mr i j / Mr j j) by (rewrite (Hz Hlt i Hi); field; exact Pk).
      apply Sr; [exact Hi | rewrite EA; apply IA; lia | rewrite EA; apply member_of_enc; [apply IA; lia|exact Nk]]. }
    exists Mr, v. split; [|reflexivity]. split; [|split].
    + intros i l Hi Hl Hm. destruct (Nat.lt_ge_cases j i) as [Ci|Ci]; [destruct (Nat.lt_ge_cases j l) as [Cl|Cl]|].
      * replace (Mr i l) with (Mr i l - 0 * Mr j l) by ring. apply NA; try lia; [rewrite EA; apply IA; lia | apply Er; lia | rewrite EA; apply IA; lia].
      * exfalso. lia.
      * rewrite OA by lia. rewrite EA. apply IA; lia.
    + intros i Hi. destruct (Nat.lt_ge_cases j i) as [Ci|Ci].
      * replace (v i) with (v i - 0 * v j) by ring. apply Nb; try lia; [rewrite SW; apply Ib; lia | apply Er; lia | rewrite SW; apply Ib; lia].
      * rewrite Ob by lia. rewrite SW. apply Ib; lia.
    + intros i Hi. rewrite <- (Ie i Hi). destruct (Nat.lt_ge_cases j i) as [Ci|Ci].
      * rewrite !Nat.min_r by lia. rewrite (rowsum_step _ _ _ j) by lia. rewrite (Hz Hlt) by lia. lra.
      * rewrite !Nat.min_l by lia. reflexivity.
  - (* the last step: one row and one column are left *)
    assert (En : n = S (S j)) by lia. clear Hz Hge. subst n.
    set (p := S j) in *.
    assert (Cj : (p =? j)%nat = false) by (apply Nat.eqb_neq; lia).
    assert (Lj : forall l, (l < S p)%nat -> (j <= l)%nat -> l = j \/ l = p) by (intros; lia).
    (* the two rows after the swap *)
    set (o := if (k =? j)%nat then p else j).
    assert (Rj : forall {T} (f : nat -> T), swap_rows j k f j = f k) by (intros; unfold swap_rows; now rewrite Nat.eqb_refl).
    assert (Rp : forall {T} (f : nat -> T), swap_rows j k f p = f o).
    { intros. unfold swap_rows, o. rewrite Cj. destruct (Nat.eqb_spec k j) as [->|N].
      - now rewrite Cj.
      - replace k with p by lia. now rewrite Nat.eqb_refl. }
    assert (Ro : forall {T} (f : nat -> T) i, (i < j)%nat -> swap_rows j k f i = f i).
    { intros. unfold swap_rows. replace (i =? j)%nat with false by (symmetry; apply Nat.eqb_neq; lia).
      replace (i =? k)%nat with false by (symmetry; apply Nat.eqb_neq; lia). reflexivity. }
    assert (Bo : (j <= o < S p)%nat) by (unfold o; destruct (k =? j)%nat; lia).
    assert (NL : forall l, (j <= l)%nat -> (l <? j)%nat = false) by (intros; now apply Nat.ltb_ge).
    set (q := Mr o j / Mr k j).
    assert (Er : enc (r p) q).
    { apply Sr; [lia| |]; rewrite (NL j) by lia.
      - rewrite (Rp _ (fun i' => A i' j)). apply IA; lia.
      - rewrite (Rj _ (fun i' => A i' j)). apply member_of_enc; [apply IA; lia | exact Nk]. }
    exists (fun i l => if (i <? j)%nat then Mr i l else if (i =? j)%nat then Mr k l else Mr o l - q * Mr k l).
    exists (fun i => if (i <? j)%nat then v i else if (i =? j)%nat then v k else v o - q * v k).
    split; [|intro; exfalso; lia]. split; [|split].
    + intros i l Hi Hl Hm. destruct (Nat.ltb_spec i j) as [Ci|Ci].
      * rewrite OA by lia. rewrite (Ro _ (fun i' => A i' l)) by exact Ci. replace (if (l <? j)%nat then A i l else A i l) with (A i l) by now destruct (l <? j)%nat.
        apply IA; lia.
      * destruct (Nat.eqb_spec i j) as [->|Ni].
        { rewrite OA by lia. rewrite NL by lia. rewrite (Rj _ (fun i' => A i' l)). apply IA; lia. }
        assert (Ei : i = p) by lia. assert (El : l = p) by lia. subst i l.
        apply NA; try lia; rewrite ?(NL p) by lia; [| exact Er |].
        { rewrite (Rp _ (fun i' => A i' p)). apply IA; lia. }
        { rewrite (Rj _ (fun i' => A i' p)). apply IA; lia. }
    + intros i Hi. destruct (Nat.ltb_spec i j) as [Ci|Ci].
      * rewrite Ob by lia. rewrite Ro by exact Ci. apply Ib; lia.
      * destruct (Nat.eqb_spec i j) as [->|Ni].
        { rewrite Ob by lia. rewrite Rj. apply Ib; lia. }
        assert (Ei : i = p) by lia. subst i. apply Nb; try lia; [rewrite Rp; apply Ib; lia | exact Er | rewrite Rj; apply Ib; lia].
    + intros i Hi.
      destruct (Nat.ltb_spec i j) as [Ci|Ci].
      * rewrite <- (Ie i Hi). rewrite !Nat.min_l by lia. apply rowsum_ext. intros l _. now replace (i <? j)%nat with true by (symmetry; now apply Nat.ltb_lt).
      * destruct (Nat.eqb_spec i j) as [->|Ni].
        { rewrite <- (Ie k) by lia. rewrite (Nat.min_l j) by lia. rewrite (Nat.min_r k) by lia. apply rowsum_ext. intros l _. now rewrite Nat.ltb_irrefl, Nat.eqb_refl. }
        assert (Ei : i = p) by lia. subst i. rewrite Nat.min_l by lia.
        rewrite rowsum_step, rowsum_end by lia. rewrite (proj2 (Nat.ltb_ge p j)) by lia. rewrite Cj.
        assert (Eo := Ie o ltac:(lia)). assert (Ekk := Ie k ltac:(lia)). rewrite Nat.min_r in Eo, Ekk by lia.
        assert (E2 : forall i0, rowsum Mr x i0 j (S p) = Mr i0 j * x j + Mr i0 p * x p).
        { intro i0. rewrite (rowsum_step _ _ _ j) by lia. fold p. rewrite (rowsum_step _ _ _ p), rowsum_end by lia. ring. }
        rewrite E2 in Eo. rewrite E2 in Ekk.
        rewrite <- Eo, <- Ekk. unfold q. field. exact Pk.
Qed.

(** ** Gauss: the whole method *)
Ltac keeps_ivt := repeat first
  [ apply keeps_ret | apply keeps_raise | apply keeps_mapM; intro | apply keeps_py_sum | apply keeps_div_all | apply keeps_mig
  | apply (keeps_py_op OpMul) | apply (keeps_py_op OpSub) | apply (keeps_py_op OpAdd) | apply (keeps_py_op OpDiv) | apply keeps_mul
  | apply keeps_tab; intro | apply keeps_tab2; intros ? ? | apply keeps_bind; [|intro] ].
Lemma keeps_gauss_step n j A b : keeps_mode (gauss_step n j A b).
Proof.
  unfold gauss_step. apply keeps_bind; [keeps_ivt|]. intro migs. destruct (argmax _) as [[d mx]|]; [|apply keeps_raise].
  destruct (num_lt _ _); [|apply keeps_raise]. cbv zeta. keeps_ivt.
Qed.
Lemma keeps_gauss_forward n c : forall j A b, keeps_mode (gauss_forward n c j A b).
Proof. induction c as [|c IH]; intros j A b; cbn [gauss_forward]; [apply keeps_ret|]. apply keeps_bind; [apply keeps_gauss_step|]. intro. apply IH. Qed.
Lemma gauss_forward_inv n x m : forall c j A b A2 b2 Mr v, (c + j = n - 1)%nat -> (j < n)%nat -> ginv n j A b Mr v x ->
  (forall i l, (i < n)%nat -> (l < i)%nat -> (S (S l) < n)%nat -> Mr i l = 0) ->
  returns (gauss_forward n c j A b) m (A2, b2) -> exists Mr' v', ginv n (n - 1) A2 b2 Mr' v' x.
Proof.
  induction c as [|c IH]; intros j A b A2 b2 Mr v Hc Hj I Z H; cbn [gauss_forward] in H.
  - apply returns_ret in H. assert (E1 : A = A2) by congruence. assert (E2 : b = b2) by congruence. subst A2 b2.
    replace (n - 1)%nat with j by lia. eauto.
  - apply keeps_returns in H; [|apply keeps_gauss_step]. destruct H as ([A1 b1] & H1 & H2). cbn [fst snd] in H2.
    destruct (gauss_step_inv n j A b m A1 b1 Mr v x ltac:(lia) I) as (Mr1 & v1 & I1 & E1); [|exact H1|].
    { intros Hl i Hi. apply Z; lia. }
    destruct (Nat.lt_ge_cases (S (S j)) n) as [L|G].
    + rewrite E1 in I1 by exact L. refine (IH (S j) A1 b1 A2 b2 Mr v1 _ _ I1 Z H2); lia.
    + assert (c = 0)%nat by lia. subst c. cbn [gauss_forward] in H2. apply returns_ret in H2.
      assert (E3 : A1 = A2) by congruence. assert (E2 : b1 = b2) by congruence. subst A2 b2. replace (n - 1)%nat with (S j) by lia. eauto.
Qed.

Lemma keeps_back_row n i A b x : keeps_mode (gauss_back_row n i A b x).
Proof. unfold gauss_back_row. keeps_ivt. Qed.
Lemma prods_enc (A X : nat -> itv) (a x : nat -> R) m l ps : (forall k, In k l -> enc (A k) (a k)) -> (forall k, In k l -> enc (X k) (x k)) ->
  returns (mapM (fun k => py_mul (OItv (A k)) (OItv (X k))) l) m ps -> Forall2 enc ps (map (fun k => a k * x k) l).
Proof.
  intros HA HX H. apply mapM_returns in H; [|intro; apply (keeps_py_op OpMul)]. induction H as [|k p l ps Hp H IH]; [constructor|].
  simpl. constructor.
  - exact (enc_itv OpMul _ _ m _ _ _ ltac:(discriminate) (HA k (or_introl eq_refl)) (HX k (or_introl eq_refl)) Hp).
  - apply IH; intros; [apply HA | apply HX]; now right.
Qed.
Lemma zero_enc : enc zero_itv 0.
Proof.
  assert (Hm : member zero_itv 0) by (apply (proj1 (contains_num_spec zero_itv (PInt 0) I)); reflexivity).
  split; [|now right]. split; [reflexivity|]. split; [split; exact I|]. right. now exists 0.
Qed.
Lemma back_row_enc n i A b X m Z Mr v x : (i < n)%nat -> (forall l, (i <= l < n)%nat -> enc (A i l) (Mr i l)) -> enc (b i) v ->
  rowsum Mr x i i n = v -> enc (X i) 0 -> (forall l, (i < l < n)%nat -> enc (X l) (x l)) ->
  returns (gauss_back_row n i A b X) m Z -> enc Z (x i).
Proof.
  intros Hi HA Hb He H0 HX H. unfold gauss_back_row in H.
  apply keeps_returns in H; [|keeps_ivt]. destruct H as (ps & Hps & H).
  apply keeps_returns in H; [|keeps_ivt]. destruct H as (s & Hs & H).
  apply keeps_returns in H; [|apply (keeps_py_op OpSub)]. destruct H as (d & Hd & H).
  assert (P := prods_enc (A i) X (Mr i) (fun l => if (l =? i)%nat then 0 else x l) m (seq i (n - i)) ps).
  specialize (P ltac:(intros k Hk; apply in_seq in Hk; apply HA; lia)).
  specialize (P ltac:(intros k Hk; apply in_seq in Hk; cbv beta; destruct (Nat.eqb_spec k i) as [Eki|Nki]; [rewrite Eki; exact H0 | apply HX; lia]) Hps).
  assert (S1 := py_sum_enc _ _ m s P Hs). assert (D := enc_sub_op _ _ m d _ _ Hb S1 Hd).
  refine (enc_div d (A i i) m Z (x i) (Mr i i) _ (HA i ltac:(lia)) H).
  replace (x i * Mr i i) with (v - sumR (map (fun k : nat => Mr i k * (if (k =? i)%nat then 0 else x k)) (seq i (n - i)))); [exact D|].
  rewrite <- He, rowsum_step by exact Hi. replace (n - i)%nat with (S (n - S i)) by lia. cbn [seq map sumR fold_right].
  rewrite Nat.eqb_refl. unfold rowsum, sumR.
  rewrite (map_ext_in (fun k : nat => Mr i k * (if (k =? i)%nat then 0 else x k)) (fun l => Mr i l * x l)); [ring|].
  intros k Hk. apply in_seq in Hk. replace (k =? i)%nat with false by (symmetry; apply Nat.eqb_neq; lia). reflexivity.
Qed.
Lemma gauss_back_enc n A b Mr v x m : (forall i l, (i <= l < n)%nat -> enc (A i l) (Mr i l)) -> (forall i, (i < n)%nat -> enc (b i) (v i)) ->
  (forall i, (i < n)%nat -> rowsum Mr x i i n = v i) ->
  forall c X Z, (c <= n)%nat -> (forall i, (i < c)%nat -> enc (X i) 0) -> (forall i, (c <= i < n)%nat -> enc (X i) (x i)) ->
  returns (gauss_back n c A b X) m Z -> forall i, (i < n)%nat -> enc (Z i) (x i).
Proof.
  intros HA Hb He. induction c as [|c IH]; intros X Z Hc H0 HX H; cbn [gauss_back] in H.
  - apply returns_ret in H. subst Z. intros i Hi. apply HX. lia.
  - apply keeps_returns in H; [|apply keeps_back_row]. destruct H as (w & Hw & H).
    apply IH with (X := upd X c w); [lia | | | exact H].
    + intros i Hi. unfold upd. replace (i =? c)%nat with false by (symmetry; apply Nat.eqb_neq; lia). apply H0. lia.
    + intros i Hi. unfold upd. destruct (Nat.eqb_spec i c) as [->|N]; [|apply HX; lia].
      refine (back_row_enc n c A b X m w Mr (v c) x _ _ (Hb c ltac:(lia)) (He c ltac:(lia)) _ _ Hw); [lia| | apply H0; lia |].
      * intros l Hl. apply HA. lia.
      * intros l Hl. apply HX. lia.
Qed.

(** Main statement: [v = Mr x] for a real matrix in [A] that vanishes below the
    diagonal, except possibly for the entry to the left of the last diagonal
    entry. *)
Theorem gauss_sound n A b m Z : (0 < n)%nat ->
  (forall i l, (i < n)%nat -> (l < n)%nat -> good (A i l)) -> (forall i, (i < n)%nat -> good (b i)) -> returns (gauss n A b) m Z ->
  forall Mr v x, (forall i l, (i < n)%nat -> (l < n)%nat -> member (A i l) (Mr i l)) -> (forall i, (i < n)%nat -> member (b i) (v i)) ->
    (forall i l, (i < n)%nat -> (l < i)%nat -> (S (S l) < n)%nat -> Mr i l = 0) ->
    (forall i, (i < n)%nat -> Rsum n (fun l => Mr i l * x l) = v i) ->
    forall i, (i < n)%nat -> member_or_nan (Z i) (x i).
Proof.
  intros Hn GA Gb H Mr v x MA Mb Z0 He i Hi. unfold gauss in H.
  apply keeps_returns in H; [|apply keeps_gauss_forward]. destruct H as ([A2 b2] & H1 & H2). cbn [fst snd] in H2.
  assert (I0 : ginv n 0 A b Mr v x).
  { split; [|split].
    - intros; split; [now apply GA | right; now apply MA].
    - intros; split; [now apply Gb | right; now apply Mb].
    - intros k Hk. rewrite Nat.min_0_r, <- Rsum_rowsum. now apply He. }
  destruct (gauss_forward_inv n x m (n - 1) 0 A b A2 b2 Mr v ltac:(lia) ltac:(lia) I0 Z0 H1) as (Mr' & v' & IA & Ib & Ie).
  refine (proj2 (gauss_back_enc n A2 b2 Mr' v' x m _ Ib _ n _ Z ltac:(lia) _ _ H2 i Hi)).
  - intros k l Hl. apply IA; lia.
  - intros k Hk. rewrite <- (Ie k Hk). now rewrite Nat.min_l by lia.
  - intros; apply zero_enc.
  - intros; lia.
Qed.
(** Systems of one or two equations: every solution of every system. *)
Theorem gauss_sound_small n A b m Z : (0 < n <= 2)%nat ->
  (forall i l, (i < n)%nat -> (l < n)%nat -> good (A i l)) -> (forall i, (i < n)%nat -> good (b i)) -> returns (gauss n A b) m Z ->
  forall Mr v x, (forall i l, (i < n)%nat -> (l < n)%nat -> member (A i l) (Mr i l)) -> (forall i, (i < n)%nat -> member (b i) (v i)) ->
    (forall i, (i < n)%nat -> Rsum n (fun l => Mr i l * x l) = v i) ->
    forall i, (i < n)%nat -> member_or_nan (Z i) (x i).
Proof. intros Hn GA Gb H Mr v x MA Mb He. apply (gauss_sound n A b m Z ltac:(lia) GA Gb H Mr v x MA Mb); [|exact He]. intros; lia. Qed.
