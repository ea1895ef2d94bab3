(** Proofs about vertex, matrix products, items and shapes. *)
From Coq Require Import ZArith Reals List Bool Arith Lia Lra Psatz.
From Flocq Require Import Core IEEE754.BinarySingleNaN.
From Verif Require Import Base PyNum Kernel Spec Expr XReal XArith KernelProofs ExprProofs KernelAlg KernelMore Witness Arrays SpecArray ArrayProofs ArrayMore.
Import ListNotations.
Open Scope nat_scope.

(** ** vertex *)
Lemma testbit_small k n : k < 2 ^ n -> Nat.testbit k n = false.
Proof. intro H. rewrite Nat.testbit_eqb, Nat.div_small by assumption. reflexivity. Qed.
Lemma testbit_top k n : k < 2 ^ n -> Nat.testbit (2 ^ n + k) n = true.
Proof.
  intro H. rewrite Nat.testbit_eqb. assert (2 ^ n <> 0) by (apply Nat.pow_nonzero; lia).
  replace (2 ^ n + k) with (k + 1 * 2 ^ n) by lia. rewrite Nat.div_add by assumption. rewrite Nat.div_small by assumption. reflexivity.
Qed.
Lemma testbit_low k n i : i < n -> Nat.testbit (2 ^ n + k) i = Nat.testbit k i.
Proof.
  intro H. rewrite !Nat.testbit_eqb. assert (2 ^ i <> 0) by (apply Nat.pow_nonzero; lia).
  replace (2 ^ n + k) with (k + 2 ^ (n - i) * 2 ^ i) by (rewrite <- Nat.pow_add_r; replace (n - i + i) with n by lia; lia).
  rewrite Nat.div_add by assumption. replace (2 ^ (n - i)) with (2 ^ (n - i - 1) * 2) by (rewrite Nat.mul_comm, <- Nat.pow_succ_r'; f_equal; lia).
  rewrite Nat.mod_add by lia. reflexivity.
Qed.
Lemma ends_length n : length (ends_product n) = 2 ^ n.
Proof. induction n as [|n IH]; [reflexivity|]. simpl. rewrite app_length, !map_length, IH. lia. Qed.
Lemma ends_nth n : forall k, k < 2 ^ n -> nth_error (ends_product n) k = Some (map (fun j => Nat.testbit k (n - 1 - j)) (seq 0 n)).
Proof.
  induction n as [|n IH]; intros k Hk.
  - simpl in Hk. assert (k = 0) by lia. subst. reflexivity.
  - cbn [ends_product]. assert (E : 2 ^ S n = 2 ^ n + 2 ^ n) by (simpl; lia).
    assert (SH : forall g : nat -> bool, map g (seq 0 (S n)) = g 0 :: map (fun j => g (S j)) (seq 0 n)).
    { intro g. cbn [seq map]. f_equal. rewrite <- seq_shift, map_map. reflexivity. }
    rewrite SH. destruct (Nat.lt_ge_cases k (2 ^ n)) as [Hl|Hl].
    + rewrite nth_error_app1 by (rewrite map_length, ends_length; assumption). rewrite nth_error_map, IH by assumption. cbn [option_map].
      f_equal. f_equal.
      * replace (S n - 1 - 0) with n by lia. now rewrite testbit_small.
      * apply map_ext. intro j. f_equal. lia.
    + rewrite nth_error_app2 by (rewrite map_length, ends_length; assumption). rewrite map_length, ends_length.
      rewrite nth_error_map, IH by lia. cbn [option_map]. f_equal.
      assert (Ek : k = 2 ^ n + (k - 2 ^ n)) by lia. f_equal.
      * replace (S n - 1 - 0) with n by lia. rewrite Ek. symmetry. apply testbit_top. lia.
      * apply map_ext_in. intros j Hj. apply in_seq in Hj. replace (S n - 1 - S j) with (n - 1 - j) by lia.
        rewrite Ek at 2. rewrite testbit_low by lia. reflexivity.
Qed.
Lemma nth_concat {A} (l : list (list A)) L : (forall r, In r l -> length r = L) ->
  forall k r p, nth_error l k = Some r -> p < L -> nth_error (concat l) (k * L + p) = nth_error r p.
Proof.
  induction l as [|r0 l IH]; intros HL k r p Hk Hp; [destruct k; discriminate|]. simpl.
  destruct k as [|k]; simpl in Hk.
  - inversion Hk; subst. rewrite nth_error_app1 by (rewrite HL; [lia|now left]). reflexivity.
  - rewrite nth_error_app2 by (rewrite (HL r0) by (now left); nia). rewrite (HL r0) by now left.
    replace (S k * L + p - L) with (k * L + p) by nia. apply IH; auto. intros; apply HL; now right.
Qed.
Lemma concat_length {A} (l : list (list A)) L : (forall r, In r l -> length r = L) -> length (concat l) = length l * L.
Proof.
  induction l as [|r0 l IH]; intro HL; [reflexivity|]. simpl. rewrite app_length, IH by (intros; apply HL; now right).
  rewrite (HL r0) by now left. lia.
Qed.
Lemma choose_length e l1 l2 n : length e = n -> length l1 = n -> length l2 = n -> length (choose_row e l1 l2) = n.
Proof. intros. unfold choose_row. rewrite map_length, !combine_length. lia. Qed.
Lemma choose_nth : forall e l1 l2 p b u v, nth_error e p = Some b -> nth_error l1 p = Some u -> nth_error l2 p = Some v ->
  nth_error (choose_row e l1 l2) p = Some (if b then v else u).
Proof.
  unfold choose_row. induction e as [|b0 e IH]; intros l1 l2 p b u v Hb Hu Hv; [destruct p; discriminate|].
  destruct l1 as [|u0 l1]; [destruct p; discriminate|]. destruct l2 as [|v0 l2]; [destruct p; discriminate|].
  destruct p as [|p]; simpl in *; [inversion Hb; inversion Hu; inversion Hv; subst; reflexivity|]. eapply IH; eauto.
Qed.
Lemma cast_row l m : Forall is_double l -> mapM (fun v => mlift (cast DFloat64 v)) l m = (Ok l, m).
Proof.
  intro H. apply mapM_ret. intros v Hv. rewrite Forall_forall in H. destruct (H v Hv) as [f ->]. reflexivity.
Qed.
Lemma choose_double e l1 l2 : Forall is_double l1 -> Forall is_double l2 -> Forall is_double (choose_row e l1 l2).
Proof.
  unfold choose_row. revert l1 l2. induction e as [|b e IH]; intros l1 l2 H1 H2; [constructor|].
  destruct l1; [constructor|]. destruct l2; [constructor|]. inversion H1; inversion H2; subst. simpl. constructor; [destruct b; assumption|]. now apply IH.
Qed.
Lemma mapM_map {A B} (f : A -> M B) (g : A -> B) l m : (forall v, In v l -> f v m = (Ok (g v), m)) -> mapM f l m = (Ok (map g l), m).
Proof.
  induction l as [|x l IH]; intro H; [reflexivity|]. simpl. unfold mbind. rewrite H by (now left). rewrite IH by (intros; apply H; now right).
  reflexivity.
Qed.
Lemma vertex_spec x m : consistent x -> (length (shp x) = 1 \/ length (shp x) = 2) -> adata (adat x) <> [] ->
  Forall is_double (map lo (adata (adat x))) -> Forall is_double (map hi (adata (adat x))) ->
  exists V, returns (vertex x) m V /\ ashape V = 2 ^ size (shp x) :: shp x /\ awf V /\
    forall k idx p e, k < 2 ^ size (shp x) -> flat (shp x) idx = Some p -> aget (adat x) idx = Some e ->
      aget V (k :: idx) = Some (if Nat.testbit k (size (shp x) - 1 - p) then hi e else lo e).
Proof.
  intros [Cs Cw] Hd N Dl Dh.
  destruct (arr_ends_exact x m N) as [Ha Hb]. specialize (Ha (or_introl Dl)). specialize (Hb (or_introl Dh)).
  assert (Ka : keeps_mode (arr_a x)) by (apply keeps_vectorize_num; intro; apply keeps_ret).
  assert (Kb : keeps_mode (arr_b x)) by (apply keeps_vectorize_num; intro; apply keeps_ret).
  set (g := fun ends => choose_row ends (map lo (adata (adat x))) (map hi (adata (adat x)))).
  set (V := mkarr (2 ^ size (shp x) :: shp x) (concat (map g (ends_product (size (shp x)))))).
  exists V. unfold awf in Cw. rewrite <- Cs in Cw.
  assert (Hrow : forall r, In r (map g (ends_product (size (shp x)))) -> length r = size (shp x)).
  { intros r Hr. apply in_map_iff in Hr. destruct Hr as (e & <- & He). unfold g. apply choose_length; rewrite ?map_length; auto.
    apply In_nth_error in He. destruct He as [k Hk].
    assert (kl : k < 2 ^ size (shp x)) by (rewrite <- ends_length; apply nth_error_Some; congruence).
    rewrite ends_nth in Hk by assumption. inversion Hk. now rewrite map_length, seq_length. }
  split; [|split; [reflexivity|split]].
  - unfold returns, outcome, vertex, mbind. rewrite (run_returns _ _ _ Ka Ha), (run_returns _ _ _ Kb Hb). cbn [adata amap].
    assert (ML : mapM (fun ends => mapM (fun v => mlift (cast DFloat64 v)) (choose_row ends (map lo (adata (adat x))) (map hi (adata (adat x)))))
                  (ends_product (size (shp x))) m = (Ok (map g (ends_product (size (shp x)))), m)).
    { apply mapM_map. intros v _. apply cast_row. now apply choose_double. }
    destruct (shp x) as [|n [|n' [|]]] eqn:Es; simpl in Hd; try lia; cbv iota; rewrite ML; reflexivity.
  - unfold awf, V. cbn [ashape adata]. rewrite (concat_length _ (size (shp x)) Hrow). rewrite map_length, ends_length. reflexivity.
  - intros k idx p e Hk F G. assert (Hp := flat_lt _ _ _ F). unfold aget, V. cbn [ashape adata]. cbn [flat].
    destruct (Nat.ltb_spec k (2 ^ size (shp x))); [|lia]. rewrite F.
    erewrite (nth_concat _ (size (shp x)) Hrow); [| rewrite nth_error_map, ends_nth by assumption; reflexivity | assumption].
    unfold g. assert (Ge : nth_error (adata (adat x)) p = Some e) by (unfold aget in G; rewrite <- Cs, F in G; exact G).
    apply choose_nth.
    + rewrite nth_error_map. rewrite (nth_error_nth' (seq 0 (size (shp x))) 0) by now rewrite seq_length.
      rewrite seq_nth by assumption. reflexivity.
    + now rewrite nth_error_map, Ge.
    + now rewrite nth_error_map, Ge.
Qed.
Lemma bits_exist n (c : nat -> bool) : exists k, k < 2 ^ n /\ forall j, j < n -> Nat.testbit k j = c j.
Proof.
  induction n as [|n (k & Hk & IH)].
  - exists 0. split; [simpl; lia|]. intros; lia.
  - destruct (c n) eqn:E.
    + exists (2 ^ n + k). split; [simpl; lia|]. intros j Hj. destruct (Nat.eq_dec j n) as [->|]; [rewrite testbit_top by assumption; auto|].
      rewrite testbit_low by lia. apply IH. lia.
    + exists k. split; [simpl; lia|]. intros j Hj. destruct (Nat.eq_dec j n) as [->|]; [rewrite testbit_small by assumption; auto|]. apply IH. lia.
Qed.
Lemma bits_unique n k k' : k < 2 ^ n -> k' < 2 ^ n -> (forall j, j < n -> Nat.testbit k j = Nat.testbit k' j) -> k = k'.
Proof.
  intros Hk Hk' H. apply Nat.bits_inj. intro j. destruct (Nat.lt_ge_cases j n) as [L|L]; [now apply H|].
  assert (2 ^ n <= 2 ^ j) by (apply Nat.pow_le_mono_r; lia).
  rewrite !testbit_small by lia. reflexivity.
Qed.
Lemma vertex_all x m V : consistent x -> (length (shp x) = 1 \/ length (shp x) = 2) -> adata (adat x) <> [] ->
  Forall is_double (map lo (adata (adat x))) -> Forall is_double (map hi (adata (adat x))) -> returns (vertex x) m V ->
  forall choice : list nat -> bool, exists k, k < 2 ^ size (shp x) /\
    forall idx e, in_bounds (shp x) idx -> aget (adat x) idx = Some e ->
      aget V (k :: idx) = Some (if choice idx then hi e else lo e).
Proof.
  intros C Hd N Dl Dh HV choice. destruct (vertex_spec x m C Hd N Dl Dh) as (V' & HV' & _ & _ & P).
  assert (V' = V) by (unfold returns in *; congruence). subst V'. set (n := size (shp x)) in *.
  destruct (bits_exist n (fun j => match nth_error (indices (shp x)) (n - 1 - j) with Some idx => choice idx | None => false end)) as (k & Hk & Hb).
  exists k. split; [assumption|]. intros idx e Hi He. apply in_bounds_flat in Hi. destruct Hi as [p F].
  rewrite (P k idx p e Hk F He). assert (Hp := flat_lt _ _ _ F). fold n in Hp. rewrite Hb by lia.
  replace (n - 1 - (n - 1 - p)) with p by lia. rewrite (flat_nth _ _ _ F). reflexivity.
Qed.

(** ** Matrix products *)
Open Scope R_scope.
Lemma keeps_omul x y : keeps_mode (omul x y).
Proof.
  destruct x as [a|a], y as [b|b]; unfold omul; (apply keeps_bind; [|intro; apply keeps_ret]); try apply keeps_prim.
  - exact (keeps_py_op OpMul (ONum a) (OItv b)).
  - exact (keeps_py_op OpMul (OItv a) (ONum b)).
  - exact (keeps_py_op OpMul (OItv a) (OItv b)).
Qed.
Lemma keeps_oadd x y : keeps_mode (oadd x y).
Proof.
  destruct x as [a|a], y as [b|b]; unfold oadd; (apply keeps_bind; [|intro; apply keeps_ret]); try apply keeps_prim.
  - exact (keeps_py_op OpAdd (ONum a) (OItv b)).
  - exact (keeps_py_op OpAdd (OItv a) (ONum b)).
  - exact (keeps_py_op OpAdd (OItv a) (OItv b)).
Qed.
Lemma omul_sound x y m : is_itv x \/ is_itv y -> good_operand x -> good_operand y ->
  exists W, returns (omul x y) m (OItv W) /\ good W /\ forall a b, in_operand x a -> in_operand y b -> member_or_nan W (a * b).
Proof.
  intros I Gx Gy.
  assert (T : exists W, returns (py_op OpMul x y) m W).
  { destruct x as [c|X], y as [d|Y]; simpl in I; try tauto; cbn [good_operand] in *.
    - destruct Gx, Gy as (kY & sY & _). destruct (rmul_encl Y c m sY) as (W & HW & _); auto. exists W. exact HW.
    - destruct Gy, Gx as (kX & sX & _). destruct (rmul_encl X d m sX) as (W & HW & _); auto. exists W. exact HW.
    - destruct Gx as (kX & sX & _), Gy as (kY & sY & _). destruct (mul_encl X Y m sX sY kX kY) as (W & HW & _). exists W. exact HW. }
  destruct T as [W HW]. exists W.
  assert (HO : returns (omul x y) m (OItv W)).
  { assert (R := run_returns _ _ _ (keeps_py_op OpMul x y) HW). cbn [py_op] in R. unfold returns, outcome.
    destruct x as [c|X], y as [d|Y]; simpl in I; try tauto; unfold omul, mbind; rewrite R; reflexivity. }
  split; [assumption|]. destruct x as [c|X]; cbn [good_operand] in *.
  - destruct y as [d|Y]; [simpl in I; tauto|]. destruct Gx as [Sc Fc]. destruct (py_op_num_left OpMul c Y m W Gy Sc Fc HW) as [GW E].
    split; [assumption|]. intros a b -> Hb. exact (proj1 (E b Hb)).
  - destruct (py_op_operand OpMul X y m W Gx Gy ltac:(discriminate) HW) as (GW & _ & E). split; [assumption|].
    intros a b Ha Hb. exact (proj1 (E a b Ha Hb)).
Qed.
Lemma oadd_sound A P m : good A -> good P ->
  exists W, returns (oadd (OItv A) (OItv P)) m (OItv W) /\ good W /\ forall a b, member_or_nan A a -> member_or_nan P b -> member_or_nan W (a + b).
Proof.
  intros GA GP. assert (T := add_encl A P m (proj1 (proj2 GA)) (proj1 (proj2 GP))). destruct T as (W & HW & _). exists W.
  split. { assert (R := run_returns _ _ _ (keeps_py_op OpAdd (OItv A) (OItv P)) HW). cbn [py_op] in R. unfold returns, outcome, oadd, mbind. now rewrite R. }
  destruct (py_op_itv OpAdd A P m W GA GP HW) as (kW & sW & WS). split; [now apply good_of_wsound2 with (real_op OpAdd) A P|].
  destruct WS as [W1 W2]. intros a b [Na|Ma] Hb; [left; auto|]. destruct Hb as [Nb|Mb]; [left; auto|].
  destruct (W2 a b Ma Mb) as (r & Er & Hr). simpl in Er. now inversion Er; subst.
Qed.
Definition dot_ok (p : operand * operand) : Prop := (is_itv (fst p) \/ is_itv (snd p)) /\ good_operand (fst p) /\ good_operand (snd p).
Definition dot_in (p : operand * operand) (ab : R * R) : Prop := in_operand (fst p) (fst ab) /\ in_operand (snd p) (snd ab).
Fixpoint dotR (l : list (R * R)) : R := match l with [] => 0 | (a, b) :: l' => a * b + dotR l' end.
Lemma dot_from_sound l : forall A m, good A -> Forall dot_ok l ->
  exists W, returns (dot_from (OItv A) l) m (OItv W) /\ good W /\
    forall acc rl, member_or_nan A acc -> Forall2 dot_in l rl -> member_or_nan W (acc + dotR rl).
Proof.
  induction l as [|[x y] l IH]; intros A m GA Gl.
  - exists A. split; [reflexivity|]. split; [assumption|]. intros acc rl Ha H. inversion H; subst. simpl. now rewrite Rplus_0_r.
  - inversion Gl as [|? ? (I & Gx & Gy) Gl']; subst. cbn [fst snd] in *.
    destruct (omul_sound x y m I Gx Gy) as (P & HP & GP & EP).
    destruct (oadd_sound A P m GA GP) as (S & HS & GS & ES).
    destruct (IH S m GS Gl') as (W & HW & GW & EW). exists W. split; [|split; [assumption|]].
    + cbn [dot_from]. rewrite keeps_returns by apply keeps_omul. exists (OItv P). split; [assumption|].
      rewrite keeps_returns by apply keeps_oadd. exists (OItv S). split; assumption.
    + intros acc rl Ha H. inversion H as [|? [a b] ? rl' [Hx Hy] Hr]; subst. cbn [fst snd] in *. cbn [dotR]. rewrite <- Rplus_assoc.
      apply EW; [|assumption]. apply ES; [assumption|]. now apply EP.
Qed.
Lemma dot_sound l m : Forall dot_ok l ->
  exists z, returns (dot l) m z /\ (l <> [] -> exists W, z = OItv W /\ good W) /\ forall rl, Forall2 dot_in l rl -> in_operand_or_nan z (dotR rl).
Proof.
  destruct l as [|[x y] l]; intro Gl.
  - exists (ONum (PInt 0)). split; [reflexivity|]. split; [congruence|]. intros rl H. inversion H. reflexivity.
  - inversion Gl as [|? ? (I & Gx & Gy) Gl']; subst. cbn [fst snd] in *.
    destruct (omul_sound x y m I Gx Gy) as (P & HP & GP & EP).
    destruct (dot_from_sound l P m GP Gl') as (W & HW & GW & EW). exists (OItv W). split; [|split; [eauto|]].
    + cbn [dot]. rewrite keeps_returns by apply keeps_omul. exists (OItv P). split; assumption.
    + intros rl H. inversion H as [|? [a b] ? rl' [Hx Hy] Hr]; subst. cbn [fst snd dotR in_operand_or_nan] in *. apply EW; auto.
Qed.
Lemma dotR_app l1 l2 : dotR (l1 ++ l2) = dotR l1 + dotR l2.
Proof. induction l1 as [|[a b] l1 IH]; simpl; [lra|]. rewrite IH. lra. Qed.
Lemma dotR_Rsum n (f g : nat -> R) : dotR (map (fun k => (f k, g k)) (seq 0 n)) = Rsum n (fun k => f k * g k).
Proof.
  induction n as [|n IH]; [reflexivity|]. rewrite seq_S, map_app, dotR_app, IH. simpl. lra.
Qed.
Lemma keeps_dot_from l : forall a, keeps_mode (dot_from a l).
Proof.
  induction l as [|[x y] l IH]; intro a; [apply keeps_ret|]. cbn [dot_from]. apply keeps_bind; [apply keeps_omul|]. intro.
  apply keeps_bind; [apply keeps_oadd|]. intro. apply IH.
Qed.
Lemma keeps_dot l : keeps_mode (dot l).
Proof.
  destruct l as [|[x y] l]; [apply keeps_ret|]. cbn [dot]. apply keeps_bind; [apply keeps_omul|]. intro. apply keeps_dot_from.
Qed.
Lemma entry_sound n (f g : nat -> operand) m :
  (forall k, (k < n)%nat -> is_itv (f k) \/ is_itv (g k)) -> (forall k, (k < n)%nat -> good_operand (f k)) -> (forall k, (k < n)%nat -> good_operand (g k)) ->
  exists z, returns (dot (map (fun k => (f k, g k)) (seq 0 n))) m z /\ ((0 < n)%nat -> exists W, z = OItv W /\ good W) /\
    forall a b, (forall k, (k < n)%nat -> in_operand (f k) (a k)) -> (forall k, (k < n)%nat -> in_operand (g k) (b k)) ->
      in_operand_or_nan z (Rsum n (fun k => a k * b k)).
Proof.
  intros I Gf Gg. destruct (dot_sound (map (fun k => (f k, g k)) (seq 0 n)) m) as (z & Hz & NN & E).
  - rewrite Forall_forall. intros p Hp. apply in_map_iff in Hp. destruct Hp as (k & <- & Hk). apply in_seq in Hk.
    split; [apply I; lia|]. split; [apply Gf; lia | apply Gg; lia].
  - exists z. split; [assumption|]. split; [intro Hn; apply NN; destruct n; [lia|discriminate]|].
    intros a b Ha Hb. rewrite <- dotR_Rsum. apply E.
    assert (H : forall j0 n0, (j0 + n0 <= n)%nat -> Forall2 dot_in (map (fun k => (f k, g k)) (seq j0 n0)) (map (fun k => (a k, b k)) (seq j0 n0))).
    { intros j0 n0. revert j0. induction n0 as [|n0 IH]; intros j0 Hj; [constructor|]. simpl. constructor.
      - split; [apply Ha; lia | apply Hb; lia].
      - apply IH. lia. }
    apply H. lia.
Qed.

(** The hypotheses on the operands of a product. *)
Lemma oget_in (x : arr operand) idx : awf x -> in_bounds (ashape x) idx -> aget x idx = Some (oget x idx) /\ In (oget x idx) (adata x).
Proof.
  intros W Hi. apply in_bounds_flat in Hi. destruct Hi as [k F]. destruct (aget_some x idx k W F) as (v & G & N).
  unfold oget. rewrite G. split; [reflexivity|]. eapply nth_error_In; eauto.
Qed.
Lemma ib1 i n : (i < n)%nat -> in_bounds [n] [i]. Proof. intro. constructor; [assumption|constructor]. Qed.
Lemma ib2 i j n k : (i < n)%nat -> (j < k)%nat -> in_bounds [n; k] [i; j].
Proof. intros. constructor; [assumption|now apply ib1]. Qed.
Lemma entry_arr x y m n (fi gi : nat -> list nat) : product_ok x y ->
  (forall k, (k < n)%nat -> in_bounds (ashape x) (fi k)) -> (forall k, (k < n)%nat -> in_bounds (ashape y) (gi k)) ->
  exists z, returns (dot (map (fun k => (oget x (fi k), oget y (gi k))) (seq 0 n))) m z /\ ((0 < n)%nat -> exists W, z = OItv W /\ good W) /\
    forall a b, (forall k o, (k < n)%nat -> aget x (fi k) = Some o -> in_operand o (a k)) ->
      (forall k o, (k < n)%nat -> aget y (gi k) = Some o -> in_operand o (b k)) ->
      in_operand_or_nan z (Rsum n (fun k => a k * b k)).
Proof.
  intros (Wx & Wy & Gx & Gy & I) Hf Hg. rewrite Forall_forall in Gx, Gy.
  destruct (entry_sound n (fun k => oget x (fi k)) (fun k => oget y (gi k)) m) as (z & Hz & NN & E).
  - intros k Hk. destruct I as [I|I]; rewrite Forall_forall in I; [left|right]; apply I; apply oget_in; auto.
  - intros k Hk. apply Gx, oget_in; auto.
  - intros k Hk. apply Gy, oget_in; auto.
  - exists z. split; [assumption|]. split; [assumption|]. intros a b Ha Hb. apply E.
    + intros k Hk. apply (Ha k); auto. apply oget_in; auto.
    + intros k Hk. apply (Hb k); auto. apply oget_in; auto.
Qed.
Lemma Forall2_exists {A B} (R : A -> B -> Prop) l : (forall x, In x l -> exists y, R x y) -> exists ys, Forall2 R l ys.
Proof.
  induction l as [|x l IH]; intro H; [exists []; constructor|]. destruct (H x (or_introl eq_refl)) as [y Hy].
  destruct IH as [ys Hys]; [intros; apply H; now right|]. exists (y :: ys). now constructor.
Qed.
(** One result row or matrix, from the entry lemma. *)
Lemma mapM_entries {A} (f : A -> M operand) (Q : A -> operand -> Prop) l m : (forall i, keeps_mode (f i)) ->
  (forall i, In i l -> exists z, returns (f i) m z /\ Q i z) ->
  exists zs, returns (mapM f l) m zs /\ Forall2 Q l zs.
Proof.
  intros K H. destruct (Forall2_exists (fun i z => returns (f i) m z /\ Q i z) l H) as [zs Hzs]. exists zs. split.
  - apply mapM_returns; [assumption|]. clear -Hzs. induction Hzs; constructor; tauto.
  - clear -Hzs. induction Hzs; constructor; tauto.
Qed.
Lemma nth_seq n i : (i < n)%nat -> nth_error (seq 0 n) i = Some i.
Proof. intro H. rewrite (nth_error_nth' _ 0%nat) by now rewrite seq_length. now rewrite seq_nth. Qed.
Lemma matvec x y r n m : ashape x = [r; n] -> ashape y = [n] -> product_ok x y ->
  exists Z, returns (matmul x y) m Z /\ ashape Z = [r] /\ awf Z /\
    forall (A : nat -> nat -> R) (v : nat -> R),
      (forall i k o, aget x [i; k] = Some o -> in_operand o (A i k)) ->
      (forall k o, aget y [k] = Some o -> in_operand o (v k)) ->
      forall i, (i < r)%nat -> exists z, aget Z [i] = Some z /\ entry_result z n /\ in_operand_or_nan z (Rsum n (fun k => A i k * v k)).
Proof.
  intros Sx Sy OK.
  set (f := fun i => dot (map (fun k => (oget x [i; k], oget y [k])) (seq 0 n))).
  set (Q := fun i z => entry_result z n /\ forall a b, (forall k o, (k < n)%nat -> aget x [i; k] = Some o -> in_operand o (a k)) ->
      (forall k o, (k < n)%nat -> aget y [k] = Some o -> in_operand o (b k)) -> in_operand_or_nan z (Rsum n (fun k => a k * b k))).
  destruct (mapM_entries f Q (seq 0 r) m) as (zs & Hzs & HQ).
  - intro. apply keeps_dot.
  - intros i Hi. apply in_seq in Hi. destruct (entry_arr x y m n (fun k => [i; k]) (fun k => [k]) OK) as (z & Hz & NN & E).
    + intros k Hk. rewrite Sx. apply ib2; lia.
    + intros k Hk. rewrite Sy. now apply ib1.
    + exists z. split; [exact Hz|]. split; assumption.
  - exists (mkarr [r] zs). split; [|split; [reflexivity|split]].
    + unfold matmul. rewrite Sx, Sy, Nat.eqb_refl. rewrite keeps_returns by (apply keeps_mapM; intro; apply keeps_dot).
      exists zs. split; [exact Hzs|]. now apply returns_ret.
    + unfold awf. cbn [ashape adata size]. rewrite <- (Forall2_len _ _ _ HQ), seq_length. lia.
    + intros A v HA Hv i Hi. destruct (Forall2_nth _ _ _ HQ i i (nth_seq r i Hi)) as (z & Hz & NN & E). exists z. split; [|split; [assumption|]].
      * unfold aget. cbn [ashape adata flat]. destruct (Nat.ltb_spec i r); [|lia]. cbn [size]. now rewrite Nat.mul_1_r, Nat.add_0_r.
      * apply E; intros; eauto.
Qed.
Lemma vecmat x y n c m : ashape x = [n] -> ashape y = [n; c] -> product_ok x y ->
  exists Z, returns (matmul x y) m Z /\ ashape Z = [c] /\ awf Z /\
    forall (v : nat -> R) (A : nat -> nat -> R),
      (forall k o, aget x [k] = Some o -> in_operand o (v k)) ->
      (forall k j o, aget y [k; j] = Some o -> in_operand o (A k j)) ->
      forall j, (j < c)%nat -> exists z, aget Z [j] = Some z /\ entry_result z n /\ in_operand_or_nan z (Rsum n (fun k => v k * A k j)).
Proof.
  intros Sx Sy OK.
  set (f := fun j => dot (map (fun k => (oget x [k], oget y [k; j])) (seq 0 n))).
  set (Q := fun j z => entry_result z n /\ forall a b, (forall k o, (k < n)%nat -> aget x [k] = Some o -> in_operand o (a k)) ->
      (forall k o, (k < n)%nat -> aget y [k; j] = Some o -> in_operand o (b k)) -> in_operand_or_nan z (Rsum n (fun k => a k * b k))).
  destruct (mapM_entries f Q (seq 0 c) m) as (zs & Hzs & HQ).
  - intro. apply keeps_dot.
  - intros i Hi. apply in_seq in Hi. destruct (entry_arr x y m n (fun k => [k]) (fun k => [k; i]) OK) as (z & Hz & NN & E).
    + intros k Hk. rewrite Sx. now apply ib1.
    + intros k Hk. rewrite Sy. apply ib2; lia.
    + exists z. split; [exact Hz|]. split; assumption.
  - exists (mkarr [c] zs). split; [|split; [reflexivity|split]].
    + unfold matmul. rewrite Sx, Sy, Nat.eqb_refl. rewrite keeps_returns by (apply keeps_mapM; intro; apply keeps_dot).
      exists zs. split; [exact Hzs|]. now apply returns_ret.
    + unfold awf. cbn [ashape adata size]. rewrite <- (Forall2_len _ _ _ HQ), seq_length. lia.
    + intros v A Hv HA i Hi. destruct (Forall2_nth _ _ _ HQ i i (nth_seq c i Hi)) as (z & Hz & NN & E). exists z. split; [|split; [assumption|]].
      * unfold aget. cbn [ashape adata flat]. destruct (Nat.ltb_spec i c); [|lia]. cbn [size]. now rewrite Nat.mul_1_r, Nat.add_0_r.
      * apply (E v (fun k => A k i)); intros; eauto.
Qed.
Lemma vecvec x y n m : ashape x = [n] -> ashape y = [n] -> product_ok x y ->
  exists z, returns (matmul x y) m (scalar z) /\ entry_result z n /\
    forall (v w : nat -> R),
      (forall k o, aget x [k] = Some o -> in_operand o (v k)) -> (forall k o, aget y [k] = Some o -> in_operand o (w k)) ->
      in_operand_or_nan z (Rsum n (fun k => v k * w k)).
Proof.
  intros Sx Sy OK. destruct (entry_arr x y m n (fun k => [k]) (fun k => [k]) OK) as (z & Hz & NN & E).
  - intros k Hk. rewrite Sx. now apply ib1.
  - intros k Hk. rewrite Sy. now apply ib1.
  - exists z. split; [|split; [assumption|]].
    + unfold matmul. rewrite Sx, Sy, Nat.eqb_refl. rewrite keeps_returns by apply keeps_dot. exists z. split; [exact Hz|]. now apply returns_ret.
    + intros v w Hv Hw. apply E; eauto.
Qed.
Lemma matmat x y r n c m : ashape x = [r; n] -> ashape y = [n; c] -> product_ok x y ->
  exists Z, returns (matmul x y) m Z /\ ashape Z = [r; c] /\ awf Z /\
    forall (A B : nat -> nat -> R),
      (forall i k o, aget x [i; k] = Some o -> in_operand o (A i k)) ->
      (forall k j o, aget y [k; j] = Some o -> in_operand o (B k j)) ->
      forall i j, (i < r)%nat -> (j < c)%nat ->
        exists z, aget Z [i; j] = Some z /\ entry_result z n /\ in_operand_or_nan z (Rsum n (fun k => A i k * B k j)).
Proof.
  intros Sx Sy OK.
  set (f := fun ij => dot (map (fun k => (oget x [nth 0 ij 0%nat; k], oget y [k; nth 1 ij 0%nat])) (seq 0 n))).
  set (Q := fun ij z => entry_result z n /\ forall a b, (forall k o, (k < n)%nat -> aget x [nth 0 ij 0%nat; k] = Some o -> in_operand o (a k)) ->
      (forall k o, (k < n)%nat -> aget y [k; nth 1 ij 0%nat] = Some o -> in_operand o (b k)) -> in_operand_or_nan z (Rsum n (fun k => a k * b k))).
  destruct (mapM_entries f Q (indices [r; c]) m) as (zs & Hzs & HQ).
  - intro. apply keeps_dot.
  - intros ij Hi. apply in_indices in Hi. assert (B : in_bounds [r; c] ij) by now apply in_bounds_flat.
    inversion B as [|i ? ij' ? Hir B']; subst. inversion B' as [|j ? ? ? Hjc B'']; subst. inversion B''; subst. cbn [nth].
    destruct (entry_arr x y m n (fun k => [i; k]) (fun k => [k; j]) OK) as (z & Hz & NN & E).
    + intros k Hk. rewrite Sx. apply ib2; lia.
    + intros k Hk. rewrite Sy. apply ib2; lia.
    + exists z. split; [exact Hz|]. split; assumption.
  - exists (mkarr [r; c] zs). split; [|split; [reflexivity|split]].
    + unfold matmul. rewrite Sx, Sy, Nat.eqb_refl. rewrite keeps_returns by (apply keeps_mapM; intro; apply keeps_dot).
      exists zs. split; [exact Hzs|]. now apply returns_ret.
    + unfold awf. cbn [ashape adata]. rewrite <- (Forall2_len _ _ _ HQ). apply indices_length.
    + intros A B HA HB i j Hi Hj. assert (Bd := ib2 i j r c Hi Hj). apply in_bounds_flat in Bd. destruct Bd as [p F].
      destruct (Forall2_nth _ _ _ HQ p [i; j] (flat_nth _ _ _ F)) as (z & Hz & NN & E). exists z. split; [|split; [assumption|]].
      * unfold aget. cbn [ashape adata]. now rewrite F.
      * cbn [nth] in E. apply (E (fun k => A i k) (fun k => B k j)); intros; eauto.
Qed.
