(** Proofs about the test systems, conversion, sign, comparison matrices,
    arrays combined with scalar intervals, and histories of updates. *)
From Coq Require Import ZArith Reals List Bool Arith Lia Lra Psatz Floats.SpecFloat.
From Flocq Require Import Core IEEE754.BinarySingleNaN.
From Verif Require Import Base PyNum Kernel Spec Expr XReal XArith KernelProofs ExprProofs KernelAlg KernelMore Witness Arrays Construct SpecArray ArrayProofs ArrayMore ArrayMat ArrayItems ConstructProofs ConstructMore.
Import ListNotations.
Open Scope nat_scope.

(** ** Arrays with a scalar interval *)
Definition scalar_fun (o : binop) (s : itv) (e : itv) : M itv :=
  match o with
  | OpAdd => radd_any s (OItv e)
  | OpSub => radd_any (mkitv (kd s) (num_neg (hi s)) (num_neg (lo s))) (OItv e)
  | _ => rmul_any s (OItv e)
  end.
Lemma keeps_scalar_fun o s e : keeps_mode (scalar_fun o s e).
Proof. destruct o; unfold scalar_fun, radd_any, rmul_any; [apply keeps_add | apply keeps_add | apply keeps_mul | apply keeps_mul]. Qed.
Lemma arr_map_total f x m : (forall e, keeps_mode (f e)) -> adata (adat x) <> [] -> (forall e, In e (adata (adat x)) -> exists c, returns (f e) m c) ->
  exists Z, returns (arr_map f x) m Z.
Proof.
  intros K N H. destruct (vectorize_total f (adat x) m K N H) as [d Hd]. exists (array_interval d).
  apply lift_returns; [apply keeps_vectorize, K|]. eauto.
Qed.
Lemma nonempty_size (x : aitv) : consistent x -> size (shp x) <> 0 -> adata (adat x) <> [].
Proof. intros [C W] N E. unfold awf in W. rewrite E in W. simpl in W. rewrite <- C in W. congruence. Qed.

(** zeros + S *)
Lemma zero_plus S m : small_itv S -> exists Z, returns (itv_add fzero (OItv S)) m Z /\ kd Z = kd S /\ same_num (lo Z) (lo S) /\ same_num (hi Z) (hi S).
Proof.
  intros Sm. assert (S0 : small_itv fzero) by (split; exact I).
  destruct (gives_returns _ _ _ _ _ (add_gives fzero S m S0 Sm)) as (Z & HZ & K & L & H & _).
  exists Z. split; [exact HZ|]. split; [exact K|].
  assert (Z0 : forall md c, small_num c -> xadd md (XFin 0) (xval c) = xval c).
  { intros md c Hc. destruct (small_double c Hc) as (f & _ & Xf). rewrite <- Xf. destruct (xflt f) as [| | |r] eqn:E; try reflexivity.
    cbn [xadd]. rewrite Rplus_0_l. apply xround_dbl_id. now exists f. }
  cbn [fzero lo hi xval] in L, H. change (xflt f0) with (XFin 0) in L, H. destruct Sm as [Sl Sh].
  rewrite Z0 in L, H by assumption. split; now apply same_num_x.
Qed.
Lemma zeros_plus s S m : size s <> 0 -> small_itv S ->
  exists x, returns (Z <- zeros s ;; arr_op_itv OpAdd Z S) m x /\ consistent x /\ shp x = s /\
    forall idx, in_bounds s idx -> exists e, aget (adat x) idx = Some e /\ kd e = kd S /\ same_num (lo e) (lo S) /\ same_num (hi e) (hi S).
Proof.
  intros N Sm. destruct (zeros_spec s m N) as (z & Hz & [Cz Wz] & Sz & P).
  assert (K : forall e, keeps_mode ((fun e => radd_any S (OItv e)) e)) by (intro; apply (keeps_scalar_fun OpAdd)).
  assert (A0 : forall e, In e (adata (adat z)) -> e = fzero).
  { intros e He. apply In_nth_error in He. destruct He as [k Hk]. assert (Hl : k < length (adata (adat z))) by (apply nth_error_Some; congruence).
    unfold awf in Wz. rewrite Wz in Hl. destruct (nth_flat _ k Hl) as (idx & _ & F).
    assert (G : aget (adat z) idx = Some e) by (unfold aget; now rewrite F).
    rewrite P in G; [congruence|]. rewrite <- Sz, Cz. apply in_bounds_flat. eauto. }
  destruct (arr_map_total _ z m K) as [x Hx].
  - apply nonempty_size; [split; assumption | congruence].
  - intros e He. rewrite (A0 e He). destruct (zero_plus S m Sm) as (Z & HZ & _). exists Z. exact HZ.
  - destruct (arr_map_spec _ z m x K Hx Wz) as (Cx & Sx & Q). exists x. split; [|split; [exact Cx|split; [congruence|]]].
    + apply (proj2 (keeps_returns _ _ _ _ (keeps_lift_arr _ (keeps_vectorize _ _ (fun p => keeps_single _ _ _ _))))). exists z. split; [exact Hz|]. exact Hx.
    + intros idx Hi. destruct (Q idx fzero (P idx Hi)) as (c & Gc & Rc). exists c. split; [exact Gc|].
      destruct (zero_plus S m Sm) as (Z & HZ & K1 & L1 & H1). cbn [radd_any] in Rc. unfold returns in *. assert (c = Z) by congruence. subst c. auto.
Qed.

(** ** set_diag *)
Lemma pk2 n i j c : i < n -> j < c -> py_key [n; c] [Z.of_nat i; Z.of_nat j] [i; j].
Proof. intros Hi Hj. repeat constructor; auto. Qed.
Lemma set_diag_spec A e n : consistent A -> shp A = [n; n] -> forall k, k <= n ->
  exists B, set_diag A e k = Ok B /\ consistent B /\ shp B = [n; n] /\
    forall i j, i < n -> j < n -> aget (adat B) [i; j] = if (i =? j) && (i <? k) then Some e else aget (adat A) [i; j].
Proof.
  intros CA SA. induction k as [|k IH]; intro Hk.
  - exists A. split; [reflexivity|]. split; [exact CA|]. split; [exact SA|]. intros i j _ _. now rewrite andb_false_r.
  - destruct IH as (B & HB & CB & SB & P); [lia|]. destruct (setitem_spec B [Z.of_nat k; Z.of_nat k] (OItv e) CB) as [Q _].
    destruct (Q [k; k]) as (C & HC & CC & SC & G1 & G2); [rewrite <- (proj1 CB), SB; apply pk2; lia|].
    exists C. split; [cbn [set_diag]; rewrite HB; exact HC|]. split; [exact CC|]. split; [congruence|].
    intros i j Hi Hj. destruct (Nat.eqb_spec i j) as [->|Nij].
    + destruct (Nat.eq_dec j k) as [->|Njk].
      * rewrite G1. cbn [as_item]. destruct (Nat.ltb_spec k (S k)); [reflexivity | lia].
      * rewrite G2 by congruence. rewrite P by assumption. rewrite Nat.eqb_refl. cbn [andb].
        destruct (Nat.ltb_spec j k); destruct (Nat.ltb_spec j (S k)); try lia; reflexivity.
    + rewrite G2 by congruence. rewrite P by assumption. destruct (Nat.eqb_spec i j); [contradiction|]. reflexivity.
Qed.

(** ** Neumaier's system *)
Lemma unsorted_le l r m : num_le l r = true -> returns (single_interval l r false false) m (mkitv Classical l r).
Proof. intro H. unfold returns, outcome, single_interval, mbind, mret. cbn [fst]. now rewrite H. Qed.
Lemma run_single l r s m e : returns (single_interval l r s false) m e -> single_interval l r s false m = (Ok e, m).
Proof. intro H. apply run_returns; [apply keeps_single | exact H]. Qed.
Lemma keeps_build s ls rs a b : keeps_mode (build s ls rs a b).
Proof. unfold build. apply keeps_bind; [apply keeps_lift_arr, keeps_vectorize; intro; apply keeps_single|]. intro. apply keeps_ret. Qed.
Lemma keeps_interval1 a s q : keeps_mode (interval1 a s q).
Proof.
  assert (S1 : forall l r, keeps_mode (e <- single_interval l r s q ;; mret (RItv e))) by (intros; apply keeps_bind; [apply keeps_single | intro; apply keeps_ret]).
  assert (S2 : forall t, keeps_mode (data <- mlift (np_array t) ;; vals <- mlift (promote (adata data)) ;;
      (let d := mkarr (ashape data) vals in
      if last (ashape d) 0 <? 2 then mraise IndexError
      else build (removelast (ashape d)) (last_axis d 0) (last_axis d 1) s q))).
  { intro t. apply keeps_bind; [apply keeps_lift|]. intro. apply keeps_bind; [apply keeps_lift|]. intro. cbv zeta.
    destruct (last _ 0 <? 2); [apply keeps_raise | apply keeps_build]. }
  destruct a as [e|x|t]; try apply keeps_ret. destruct t as [a|[|[a|l] [|[b|l2] [|c l3]]]]; first [apply keeps_raise | apply S1 | apply S2].
Qed.
Lemma keeps_zeros s : keeps_mode (zeros s).
Proof. apply keeps_lift_arr, keeps_vectorize. intro. apply keeps_single. Qed.
Lemma keeps_arr_add x s : keeps_mode (arr_op_itv OpAdd x s).
Proof. apply keeps_lift_arr, keeps_vectorize. intro. apply (keeps_scalar_fun OpAdd). Qed.
Lemma size2 n : n <> 0 -> size [n; n] <> 0.
Proof. intro. simpl. nia. Qed.
Lemma zeros_plus_run s S m x : returns (Z <- zeros s ;; arr_op_itv OpAdd Z S) m x ->
  exists z, zeros s m = (Ok z, m) /\ arr_op_itv OpAdd z S m = (Ok x, m).
Proof.
  intro H. apply keeps_returns in H; [|apply keeps_zeros]. destruct H as (z & Hz & Hx). exists z.
  split; apply run_returns; auto; [apply keeps_zeros | apply keeps_arr_add].
Qed.
Lemma regular_repeat (i s : pynum) n : n <> 0 -> regular [n; 2] (NList (repeat (NList [NLeaf i; NLeaf s]) n)).
Proof.
  intro N. replace [n; 2] with (length (repeat (NList [NLeaf i; NLeaf s]) n) :: [2]) by (now rewrite repeat_length). constructor; [destruct n; [congruence|discriminate]|].
  apply Forall_forall. intros t Ht. apply repeat_spec in Ht. subst t. apply (reg_list [] [NLeaf i; NLeaf s]); [discriminate|]. repeat constructor.
Qed.
Lemma neumaier_spec n theta infb supb m : n <> 0 -> small_num theta -> is_nan_num theta = false ->
  medium_num (dflt infb (PInt (-1))) -> medium_num (dflt supb (PInt 1)) ->
  exists A b, returns (neumaier_system n theta infb supb) m (A, b) /\
    consistent A /\ shp A = [n; n] /\ consistent b /\ shp b = [n] /\
    (forall i, i < n -> aget (adat A) [i; i] = Some (mkitv Classical theta theta)) /\
    (forall i j, i < n -> j < n -> i <> j -> exists e, aget (adat A) [i; j] = Some e /\ kd e = Classical /\ same_num (lo e) (PInt 0) /\ same_num (hi e) (PInt 2)) /\
    (forall i, i < n -> exists e, aget (adat b) [i] = Some e /\ made_of true (dflt infb (PInt (-1))) (dflt supb (PInt 1)) e).
Proof.
  intros N St Nt Mi Ms. set (iv := dflt infb (PInt (-1))) in *. set (sv := dflt supb (PInt 1)) in *.
  destruct (interval1_pairs (NList (repeat (NList [NLeaf iv; NLeaf sv]) n)) [n] 2 true m (regular_repeat iv sv n N)) as (b & Hb & Cb & Sb & Pb); [discriminate|lia| |simpl; lia|].
  { cbn [leaves]. apply Forall_flat_map, Forall_forall. intros t Ht. apply repeat_spec in Ht. subst t. simpl. repeat constructor; assumption. }
  assert (S02 : small_itv (mkitv Classical (PInt 0) (PInt 2))) by (split; simpl; lia).
  destruct (zeros_plus [n; n] _ m (size2 n N) S02) as (A & HA & CA & SA & PA).
  destruct (set_diag_spec A (mkitv Classical theta theta) n CA SA n (le_n n)) as (A' & HA' & CA' & SA' & PA').
  exists A', b. split; [|split; [exact CA'|split; [exact SA'|split; [exact Cb|split; [exact Sb|split; [|split]]]]]].
  - apply zeros_plus_run in HA. destruct HA as (z & Hz & Ha).
    assert (D : single_interval theta theta false false m = (Ok (mkitv Classical theta theta), m)).
    { apply run_single, unsorted_le. rewrite num_le_x. apply xleb_refl. intro E. apply is_nan_num_x in E. congruence. }
    assert (D0 : single_interval (PInt 0) (PInt 2) false false m = (Ok (mkitv Classical (PInt 0) (PInt 2)), m)) by (apply run_single, unsorted_le; reflexivity).
    unfold neumaier_system. fold (dflt infb (PInt (-1))). fold (dflt supb (PInt 1)). fold iv sv. cbv zeta.
    unfold returns, outcome. rewrite (bind_ok _ _ _ _ _ (run_returns _ _ _ (keeps_interval1 _ _ _) Hb)).
    rewrite (bind_ok _ _ _ _ _ Hz), (bind_ok _ _ _ _ _ D0), (bind_ok _ _ _ _ _ Ha), (bind_ok _ _ _ _ _ D).
    unfold mbind, mlift. rewrite HA'. reflexivity.
  - intros i Hi. rewrite PA' by assumption. rewrite Nat.eqb_refl. destruct (Nat.ltb_spec i n); [reflexivity | lia].
  - intros i j Hi Hj Nij. rewrite PA' by assumption. destruct (Nat.eqb_spec i j); [contradiction|]. cbn [andb].
    destruct (PA [i; j] (ib2 _ _ _ _ Hi Hj)) as (e & He & K & L & H). exists e. auto.
  - intros i Hi. destruct (Pb [i] (ib1 _ _ Hi)) as (l & r & e & El & Er & He & Me). exists e. split; [exact He|].
    cbn [app tget] in El, Er. destruct (nth_error (repeat (NList [NLeaf iv; NLeaf sv]) n) i) as [t|] eqn:E; [|discriminate].
    apply nth_error_In, repeat_spec in E. subst t. simpl in El, Er. congruence.
Qed.

(** ** Shary's system *)
Lemma sub_small_run a b m : small_num a -> small_num b -> exists v, num_sub m a b = Ok v /\ sub_ a b m = (Ok v, m) /\ exact_num v /\ xval v = xsub m (xval a) (xval b).
Proof. intros Ha Hb. destruct (XArith.num_sub_x m a b Ha Hb) as (v & Hv & E & Xv). exists v. unfold sub_, mprim. rewrite Hv. auto. Qed.
Lemma add_small_run a b m : small_num a -> small_num b -> exists v, num_add m a b = Ok v /\ add_ a b m = (Ok v, m) /\ exact_num v /\ xval v = xadd m (xval a) (xval b).
Proof. intros Ha Hb. destruct (XArith.num_add_x m a b Ha Hb) as (v & Hv & E & Xv). exists v. unfold add_, mprim. rewrite Hv. auto. Qed.
(** Subtraction and addition with an int of at most 2^25 give small numbers. *)
Lemma num_sub_small m a b v : num_sub m a b = Ok v -> (forall z, a = PInt z -> (Z.abs z <= 2 ^ 25)%Z) -> (forall z, b = PInt z -> (Z.abs z <= 2 ^ 25)%Z) -> small_num v.
Proof.
  unfold num_sub, arith2. destruct a as [a|a], b as [b|b]; intros H Ha Hb.
  - apply Ok_inj in H. subst v. simpl. specialize (Ha _ eq_refl). specialize (Hb _ eq_refl). change (2 ^ 26)%Z with (2 ^ 25 + 2 ^ 25)%Z. lia.
  - destruct (to_double (PInt a)); [|discriminate]. cbn [rbind] in H. destruct (to_double (PFlt b)); [|discriminate]. cbn [rbind] in H. apply Ok_inj in H. now subst v.
  - destruct (to_double (PFlt a)); [|discriminate]. cbn [rbind] in H. destruct (to_double (PInt b)); [|discriminate]. cbn [rbind] in H. apply Ok_inj in H. now subst v.
  - destruct (to_double (PFlt a)); [|discriminate]. cbn [rbind] in H. destruct (to_double (PFlt b)); [|discriminate]. cbn [rbind] in H. apply Ok_inj in H. now subst v.
Qed.
Lemma num_add_small m a b v : num_add m a b = Ok v -> (forall z, a = PInt z -> (Z.abs z <= 2 ^ 25)%Z) -> (forall z, b = PInt z -> (Z.abs z <= 2 ^ 25)%Z) -> small_num v.
Proof.
  unfold num_add, arith2. destruct a as [a|a], b as [b|b]; intros H Ha Hb.
  - apply Ok_inj in H. subst v. simpl. specialize (Ha _ eq_refl). specialize (Hb _ eq_refl). change (2 ^ 26)%Z with (2 ^ 25 + 2 ^ 25)%Z. lia.
  - destruct (to_double (PInt a)); [|discriminate]. cbn [rbind] in H. destruct (to_double (PFlt b)); [|discriminate]. cbn [rbind] in H. apply Ok_inj in H. now subst v.
  - destruct (to_double (PFlt a)); [|discriminate]. cbn [rbind] in H. destruct (to_double (PInt b)); [|discriminate]. cbn [rbind] in H. apply Ok_inj in H. now subst v.
  - destruct (to_double (PFlt a)); [|discriminate]. cbn [rbind] in H. destruct (to_double (PFlt b)); [|discriminate]. cbn [rbind] in H. apply Ok_inj in H. now subst v.
Qed.
(** Parameters: doubles, or ints of at most 2^25. *)
Lemma param_int c : param c -> forall z, c = PInt z -> (Z.abs z <= 2 ^ 25)%Z.
Proof. intros H z ->. exact H. Qed.
Lemma param_small c : param c -> small_num c.
Proof. destruct c; simpl; [|auto]. change (2 ^ 26)%Z with (2 * 2 ^ 25)%Z. lia. Qed.
Lemma le_fin a b x : num_le a b = true -> num_le b x = true -> finite_num a -> finite_num x -> finite_num b /\ (num_val a <= num_val b <= num_val x)%R.
Proof.
  rewrite !num_le_x, !finite_num_x. intros H1 H2 Ea Ex. rewrite Ea in H1. rewrite Ex in H2.
  destruct (xval b) as [| | |r] eqn:E; try discriminate. apply xleb_fin in H1, H2.
  assert (r = num_val b). { destruct b as [z|f]; simpl in E |- *; [congruence|]. destruct f as [[]|[]| |]; simpl in E |- *; congruence. }
  subst r. split; [reflexivity|]. simpl in *. lra.
Qed.
Lemma shary_spec n N alpha beta m : n <> 0 -> (Z.of_nat n <= 2 ^ 25)%Z -> param alpha -> param beta ->
  num_le (PInt 0) alpha = true -> num_le alpha beta = true -> num_le beta (PInt 1) = true ->
  (forall v, N = Some v -> num_le (PInt (Z.of_nat n - 1)) v = true) ->
  exists A b l r, returns (shary_system n N alpha beta) m (A, b) /\
    num_sub m alpha (PInt 1) = Ok l /\ num_sub m (PInt 1) beta = Ok r /\
    consistent A /\ shp A = [n; n] /\ consistent b /\ shp b = [n] /\
    (forall i, i < n -> aget (adat A) [i; i] = Some (mkitv Classical (PInt (Z.of_nat n - 1)) (dflt N (PInt (Z.of_nat n))))) /\
    (forall i j, i < n -> j < n -> i <> j -> exists e, aget (adat A) [i; j] = Some e /\ kd e = Classical /\ same_num (lo e) l /\ same_num (hi e) r) /\
    (forall i, i < n -> exists e, aget (adat b) [i] = Some e /\ kd e = Classical /\ same_num (lo e) (PInt (1 - Z.of_nat n)) /\ same_num (hi e) (PInt (Z.of_nat n - 1))).
Proof.
  intros N0 Nb Pa Pb A0 AB B1 HN.
  assert (P1 : param (PInt 1)) by (simpl; lia).
  assert (AX : num_le alpha (PInt 1) = true) by (rewrite num_le_x in *; eapply xleb_trans; eauto).
  destruct (le_fin _ _ _ A0 AX I I) as (Fa & Va). assert (B0 : num_le (PInt 0) beta = true) by (rewrite num_le_x in *; eapply xleb_trans; eauto).
  destruct (le_fin _ _ _ B0 B1 I I) as (Fb & Vb). simpl in Va, Vb.
  destruct (le_fin _ _ _ A0 AB I Fb) as (_ & Vab). 
  destruct (sub_small_run alpha (PInt 1) m (param_small _ Pa) (param_small _ P1)) as (l & Hl & Rl & _ & Xl).
  destruct (sub_small_run (PInt 1) beta m (param_small _ P1) (param_small _ Pb)) as (r & Hr & Rr & _ & Xr).
  assert (Sl : small_num l) by (eapply num_sub_small; [exact Hl | now apply param_int | now apply param_int]).
  assert (Sr : small_num r) by (eapply num_sub_small; [exact Hr | now apply param_int | now apply param_int]).
  assert (LR : num_le l r = true).
  { apply finite_num_x in Fa, Fb. rewrite num_le_x, Xl, Xr, Fa, Fb. unfold xsub. cbn [xval xopp xadd]. apply xround_mono. lra. }
  set (pn1 := PInt (Z.of_nat n - 1)).
  assert (HT : num_le (PInt (1 - Z.of_nat n)) pn1 = true) by (rewrite num_le_x; apply xleb_fin, IZR_le; lia).
  assert (HD : num_le pn1 (dflt N (PInt (Z.of_nat n))) = true).
  { destruct N as [v|]; simpl; [now apply HN|]. rewrite num_le_x. apply xleb_fin, IZR_le. lia. }
  destruct (zeros_plus [n; n] (mkitv Classical l r) m (size2 n N0)) as (A & HA & CA & SA & PA); [split; assumption|].
  destruct (zeros_plus [n] (mkitv Classical (PInt (1 - Z.of_nat n)) pn1) m) as (b & Hb & Cb & Sb & Pb'); [simpl; lia | |].
  { unfold pn1. split; cbn [lo hi small_num]; change (2 ^ 26)%Z with (2 * 2 ^ 25)%Z; lia. }
  destruct (set_diag_spec A (mkitv Classical pn1 (dflt N (PInt (Z.of_nat n)))) n CA SA n (le_n n)) as (A' & HA' & CA' & SA' & PA').
  exists A', b, l, r. split; [|split; [exact Hl|split; [exact Hr|split; [exact CA'|split; [exact SA'|split; [exact Cb|split; [exact Sb|split; [|split]]]]]]]].
  - apply zeros_plus_run in HA. destruct HA as (z & Hz & Ha). apply zeros_plus_run in Hb. destruct Hb as (zb & Hzb & Hab).
    assert (D1 := run_single _ _ _ _ _ (unsorted_le l r m LR)). assert (D2 := run_single _ _ _ _ _ (unsorted_le _ _ m HT)).
    assert (D3 := run_single _ _ _ _ _ (unsorted_le _ _ m HD)).
    unfold shary_system. cbv zeta. fold pn1.
    assert (HN' : (match N with None => mret (PInt (Z.of_nat n)) | Some v => if num_ge v pn1 then mret v else mraise AssertionError end) m = (Ok (dflt N (PInt (Z.of_nat n))), m)).
    { destruct N as [v|]; [|reflexivity]. unfold num_ge. unfold pn1. rewrite (HN v eq_refl). reflexivity. }
    unfold returns, outcome. rewrite (bind_ok _ _ _ _ _ HN').
    assert (C0 : num_lt alpha (PInt 0) || num_lt beta alpha || num_gt beta (PInt 1) = false).
    { assert (T : forall u v, num_le u v = true -> num_lt v u = false).
      { intros u v. rewrite num_le_x, num_lt_x. intro H. destruct (xltb (xval v) (xval u)) eqn:E; [|reflexivity].
        assert (EQ := xleb_antisym _ _ H (xltb_xleb _ _ E)). rewrite EQ in E. unfold xltb, xcmp in E. destruct (xval v); try discriminate.
        rewrite Rcompare_Eq in E by reflexivity. discriminate. }
      unfold num_gt. rewrite (T _ _ A0), (T _ _ AB), (T _ _ B1). reflexivity. }
    rewrite C0. rewrite (bind_ok _ _ _ _ _ Rl), (bind_ok _ _ _ _ _ Rr), (bind_ok _ _ _ _ _ Hz), (bind_ok _ _ _ _ _ D1), (bind_ok _ _ _ _ _ Ha),
      (bind_ok _ _ _ _ _ Hzb), (bind_ok _ _ _ _ _ D2), (bind_ok _ _ _ _ _ Hab), (bind_ok _ _ _ _ _ D3).
    unfold mbind, mlift. rewrite HA'. reflexivity.
  - intros i Hi. rewrite PA' by assumption. rewrite Nat.eqb_refl. destruct (Nat.ltb_spec i n); [reflexivity | lia].
  - intros i j Hi Hj Nij. rewrite PA' by assumption. destruct (Nat.eqb_spec i j); [contradiction|]. cbn [andb].
    destruct (PA [i; j] (ib2 _ _ _ _ Hi Hj)) as (e & He & K & L & H). exists e. auto.
  - intros i Hi. destruct (Pb' [i] (ib1 _ _ Hi)) as (e & He & K & L & H). exists e. auto.
Qed.
Lemma shary_bad n N alpha beta m : (num_lt alpha (PInt 0) = true \/ num_lt beta alpha = true \/ num_lt (PInt 1) beta = true) ->
  (forall v, N = Some v -> num_le (PInt (Z.of_nat n - 1)) v = true) -> raises (shary_system n N alpha beta) m GenericException.
Proof.
  intros H HN. unfold shary_system. cbv zeta.
  assert (HN' : (match N with None => mret (PInt (Z.of_nat n)) | Some v => if num_ge v (PInt (Z.of_nat n - 1)) then mret v else mraise AssertionError end) m = (Ok (dflt N (PInt (Z.of_nat n))), m)).
  { destruct N as [v|]; [|reflexivity]. unfold num_ge. rewrite (HN v eq_refl). reflexivity. }
  unfold raises, outcome. rewrite (bind_ok _ _ _ _ _ HN').
  replace (num_lt alpha (PInt 0) || num_lt beta alpha || num_gt beta (PInt 1)) with true; [reflexivity|].
  unfold num_gt. destruct H as [-> | [-> | ->]]; rewrite ?orb_true_r; reflexivity.
Qed.

(** ** Toft's system *)
Lemma order_pm c r m l h : finite_num c -> finite_num r -> (0 <= num_val r)%R -> small_num c -> small_num r ->
  num_sub m c r = Ok l -> num_add m c r = Ok h -> num_le l h = true.
Proof.
  intros Fc Fr Hr Sc Sr Hl Hh. destruct (XArith.num_sub_x m c r Sc Sr) as (l' & El & _ & Xl). destruct (XArith.num_add_x m c r Sc Sr) as (h' & Eh & _ & Xh).
  assert (l' = l) by congruence. assert (h' = h) by congruence. subst. rewrite num_le_x, Xl, Xh. apply finite_num_x in Fc, Fr. rewrite Fc, Fr.
  unfold xsub. cbn [xopp xadd]. apply xround_mono. lra.
Qed.
Lemma set_col_spec A a n j0 : consistent A -> shp A = [n; n] -> j0 < n ->
  consistent (set_col A j0 a) /\ shp (set_col A j0 a) = [n; n] /\
  forall i j, i < n -> j < n -> aget (adat (set_col A j0 a)) [i; j] = if j =? j0 then Some (nth i a zero_itv) else aget (adat A) [i; j].
Proof.
  intros [C W] S Hj0. split; [split; [exact C | apply of_fun_wf]|]. split; [exact S|]. intros i j Hi Hj.
  assert (B : in_bounds (ashape (adat A)) [i; j]) by (rewrite <- C, S; now apply ib2). apply in_bounds_flat in B. destruct B as [k F].
  cbn [set_col adat]. rewrite (of_fun_get _ _ _ _ F). cbn [nth]. destruct (j =? j0); [reflexivity|].
  destruct (aget_some _ _ _ W F) as (e & G & _). now rewrite G.
Qed.
Lemma set_row_spec A a n i0 : consistent A -> shp A = [n; n] -> i0 < n ->
  consistent (set_row A i0 a) /\ shp (set_row A i0 a) = [n; n] /\
  forall i j, i < n -> j < n -> aget (adat (set_row A i0 a)) [i; j] = if i =? i0 then Some (nth j a zero_itv) else aget (adat A) [i; j].
Proof.
  intros [C W] S Hj0. split; [split; [exact C | apply of_fun_wf]|]. split; [exact S|]. intros i j Hi Hj.
  assert (B : in_bounds (ashape (adat A)) [i; j]) by (rewrite <- C, S; now apply ib2). apply in_bounds_flat in B. destruct B as [k F].
  cbn [set_row adat]. rewrite (of_fun_get _ _ _ _ F). cbn [nth]. destruct (i =? i0); [reflexivity|].
  destruct (aget_some _ _ _ W F) as (e & G & _). now rewrite G.
Qed.
(** [c - r, c + r] as Python computes the endpoints. *)
Lemma pm_run c r m : param c -> param r -> finite_num c -> finite_num r -> (0 <= num_val r)%R ->
  exists l h, num_sub m c r = Ok l /\ num_add m c r = Ok h /\ sub_ c r m = (Ok l, m) /\ add_ c r m = (Ok h, m) /\ small_num l /\ small_num h /\ num_le l h = true.
Proof.
  intros Pc Pr Fc Fr Hr. destruct (sub_small_run c r m (param_small _ Pc) (param_small _ Pr)) as (l & Hl & Rl & _).
  destruct (add_small_run c r m (param_small _ Pc) (param_small _ Pr)) as (h & Hh & Rh & _).
  exists l, h. split; [exact Hl|]. split; [exact Hh|]. split; [exact Rl|]. split; [exact Rh|].
  split; [eapply num_sub_small; [exact Hl | now apply param_int | now apply param_int]|].
  split; [eapply num_add_small; [exact Hh | now apply param_int | now apply param_int]|].
  exact (order_pm c r m l h Fc Fr Hr (param_small _ Pc) (param_small _ Pr) Hl Hh).
Qed.
Lemma same_refl_le l h : num_le l h = true -> same_num l l /\ same_num h h.
Proof. intros _. split; now apply same_num_x. Qed.
Lemma toft_a_spec r k m : param r -> finite_num r -> (0 <= num_val r)%R -> (Z.of_nat k + 1 <= 2 ^ 25)%Z ->
  exists e, returns (toft_a r k) m e /\ plus_minus m (PInt (Z.of_nat k + 1)) r e.
Proof.
  intros Pr Fr Hr Hk. destruct (pm_run (PInt (Z.of_nat k + 1)) r m) as (l & h & Hl & Hh & Rl & Rh & _ & _ & O); auto; [simpl; lia | exact I|].
  exists (mkitv Classical l h). split.
  - unfold toft_a, returns, outcome. rewrite (bind_ok _ _ _ _ _ Rl), (bind_ok _ _ _ _ _ Rh). exact (single_sorted_le l h m O).
  - exists l, h. cbn [kd lo hi]. split; [exact Hl|]. split; [exact Hh|]. split; [reflexivity|]. exact (same_refl_le l h O).
Qed.
Lemma toft_spec n r R m : n <> 0 -> (Z.of_nat n <= 2 ^ 25)%Z -> param r -> param R -> finite_num r -> finite_num R ->
  (0 <= num_val r)%R -> (0 <= num_val R)%R ->
  exists A b, returns (toft_system n r R) m (A, b) /\
    consistent A /\ shp A = [n; n] /\ consistent b /\ shp b = [n] /\
    (forall i, i < n - 1 -> exists e, aget (adat A) [i; i] = Some e /\ plus_minus m (PInt 1) r e) /\
    (forall i j, i < n - 1 -> j < n - 1 -> i <> j -> aget (adat A) [i; j] = Some (mkitv Classical (PFlt f0) (PFlt f0))) /\
    (forall k, k < n -> exists e, aget (adat A) [k; n - 1] = Some e /\ aget (adat A) [n - 1; k] = Some e /\ plus_minus m (PInt (Z.of_nat k + 1)) r e) /\
    (forall i, i < n -> exists e, aget (adat b) [i] = Some e /\ plus_minus m (PInt 1) R e).
Proof.
  intros N0 Nb Pr PR Fr FR Hr HR. assert (P1 : param (PInt 1)) by (simpl; lia).
  destruct (pm_run (PInt 1) R m P1 PR I FR HR) as (bl & bh & Hbl & Hbh & Rbl & Rbh & Sbl & Sbh & Ob).
  destruct (pm_run (PInt 1) r m P1 Pr I Fr Hr) as (dl & dh & Hdl & Hdh & Rdl & Rdh & Sdl & Sdh & Od).
  destruct (zeros_spec [n; n] m (size2 n N0)) as (A & HA & CA & SA & PA).
  destruct (zeros_plus [n] (mkitv Classical bl bh) m) as (b & Hb & Cb & Sb & Pb'); [simpl; lia | split; assumption |].
  destruct (set_diag_spec A (mkitv Classical dl dh) n CA SA n (le_n n)) as (A1 & HA1 & CA1 & SA1 & PA1).
  assert (Ka : forall k, keeps_mode (toft_a r k)).
  { intro k. unfold toft_a, sub_, add_. apply keeps_bind; [apply keeps_prim|]. intro. apply keeps_bind; [apply keeps_prim|]. intro. apply keeps_single. }
  assert (Ta : forall k, In k (seq 0 n) -> exists e, returns (toft_a r k) m e).
  { intros k Hk. apply in_seq in Hk. destruct (toft_a_spec r k m Pr Fr Hr) as (e & He & _); [lia|]. eauto. }
  destruct (mapM_total (toft_a r) (seq 0 n) m Ka Ta) as [a Ha]. assert (Fa := proj1 (mapM_returns (toft_a r) (seq 0 n) m Ka a) Ha).
  assert (La : length a = n) by (rewrite <- (Forall2_len _ _ _ Fa); apply seq_length).
  assert (Pa : forall k, k < n -> plus_minus m (PInt (Z.of_nat k + 1)) r (nth k a zero_itv)).
  { intros k Hk. destruct (Forall2_nth _ _ _ Fa k k (nth_seq n k Hk)) as (e & He & Re). rewrite (nth_error_nth _ _ zero_itv He).
    destruct (toft_a_spec r k m Pr Fr Hr) as (e' & He' & Q); [lia|]. unfold returns in *. assert (e' = e) by congruence. now subst e'. }
  destruct (set_col_spec A1 a n (n - 1) CA1 SA1) as (CC & SC & PC); [lia|].
  destruct (set_row_spec _ a n (n - 1) CC SC) as (CR & SR & PR'); [lia|].
  exists (set_row (set_col A1 (n - 1) a) (n - 1) a), b.
  split; [|split; [exact CR|split; [exact SR|split; [exact Cb|split; [exact Sb|split; [|split; [|split]]]]]]].
  - apply zeros_plus_run in Hb. destruct Hb as (zb & Hzb & Hab).
    assert (D1 := run_single _ _ _ _ _ (unsorted_le _ _ m Ob)). assert (D2 := run_single _ _ _ _ _ (unsorted_le _ _ m Od)).
    assert (G : forall c, finite_num c -> (0 <= num_val c)%R -> num_ge c (PInt 0) = true).
    { intros c Fc Hc. unfold num_ge. rewrite num_le_x. apply finite_num_x in Fc. rewrite Fc. now apply xleb_fin. }
    unfold toft_system, returns, outcome. rewrite (G r Fr Hr), (G R FR HR). cbn [andb].
    rewrite (bind_ok _ _ _ _ _ (run_returns _ _ _ (keeps_zeros _) HA)), (bind_ok _ _ _ _ _ Hzb), (bind_ok _ _ _ _ _ Rbl), (bind_ok _ _ _ _ _ Rbh),
      (bind_ok _ _ _ _ _ D1), (bind_ok _ _ _ _ _ Hab), (bind_ok _ _ _ _ _ Rdl), (bind_ok _ _ _ _ _ Rdh), (bind_ok _ _ _ _ _ D2).
    assert (D3 : mlift (set_diag A (mkitv Classical dl dh) n) m = (Ok A1, m)) by (unfold mlift; now rewrite HA1).
    rewrite (bind_ok _ _ _ _ _ D3), (bind_ok _ _ _ _ _ (run_returns _ _ _ (keeps_mapM _ _ Ka) Ha)). reflexivity.
  - intros i Hi. exists (mkitv Classical dl dh). split.
    + rewrite PR', PC, PA1 by lia. destruct (Nat.eqb_spec i (n - 1)); [lia|]. rewrite Nat.eqb_refl. destruct (Nat.ltb_spec i n); [reflexivity | lia].
    + exists dl, dh. split; [exact Hdl|]. split; [exact Hdh|]. split; [reflexivity|]. exact (same_refl_le _ _ Od).
  - intros i j Hi Hj Nij. rewrite PR', PC, PA1 by lia. destruct (Nat.eqb_spec i (n - 1)); [lia|]. destruct (Nat.eqb_spec j (n - 1)); [lia|].
    destruct (Nat.eqb_spec i j); [contradiction|]. cbn [andb]. apply PA. apply ib2; lia.
  - intros k Hk. exists (nth k a zero_itv). split; [|split; [|now apply Pa]].
    + rewrite PR', PC by lia. destruct (Nat.eqb_spec k (n - 1)) as [->|]; [reflexivity|]. now rewrite Nat.eqb_refl.
    + rewrite PR' by lia. now rewrite Nat.eqb_refl.
  - intros i Hi. destruct (Pb' [i] (ib1 _ _ Hi)) as (e & He & K & L & H). exists e. split; [exact He|]. exists bl, bh. auto.
Qed.
