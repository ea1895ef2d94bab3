(** Reading and writing parts of an interval array: slices, lists, masks. *)
From Coq Require Import ZArith List Bool Arith Lia.
From Verif Require Import Base PyNum Kernel Expr Arrays Construct SpecArray Slices SpecSlices SlicesProofs SlicesJoint SlicesBack.
Import ListNotations.
Open Scope nat_scope.

(** C74: x[key] *)
Theorem C74_get : forall x key, consistent x -> valid_key (shp x) key -> simple_key key ->
  (full_int_key (shp x) key -> exists p e, reaches (shp x) key [] p /\ aget (adat x) p = Some e /\ getkey x key = Ok (RItv e)) /\
  (~ full_int_key (shp x) key -> exists z, getkey x key = Ok (RArr z) /\ result_shape (shp x) key (shp z) /\ selected (reaches (shp x) key) (shp z) x z).
Proof. exact getkey_spec. Qed.
Print Assumptions C74_get.

(** C74: x[key] = v *)
Theorem C74_set : forall x key v r, consistent x -> valid_key (shp x) key -> simple_key key -> result_shape (shp x) key r ->
  well_formed v -> (full_int_key (shp x) key -> ~ is_array v) ->
  (storable v r -> exists y, setkey x key v = Ok y /\ consistent y /\ shp y = shp x /\ assigned (reaches (shp x) key) r v x y) /\
  (~ storable v r -> setkey x key v = Err ValueError).
Proof. exact setkey_spec. Qed.
Print Assumptions C74_set.

(** C74: reading back what was assigned *)
Theorem C74_get_after_set : forall x key v y r, consistent x -> valid_key (shp x) key -> simple_key key -> result_shape (shp x) key r ->
  Forall (fun it => forall zs, it <> KL zs) key -> well_formed v -> (full_int_key (shp x) key -> ~ is_array v) -> setkey x key v = Ok y ->
  (full_int_key (shp x) key -> exists e, gives v [] [] e /\ getkey y key = Ok (RItv e)) /\
  (~ full_int_key (shp x) key -> exists z, getkey y key = Ok (RArr z) /\ shp z = r /\ forall idx, in_bounds r idx -> exists e, gives v r idx e /\ aget (adat z) idx = Some e).
Proof. exact get_set. Qed.
Print Assumptions C74_get_after_set.

(** C74: masks with the shape of the array *)
Theorem C74_mask : forall x m, consistent x -> awf m ->
  (ashape m = shp x -> exists z, getmask x m = Ok (RArr z) /\ shp z = [trues (adata m)] /\ selected (mask_reaches m) (shp z) x z) /\
  (ashape m = shp x -> forall v, well_formed v ->
     (storable v [trues (adata m)] -> exists y, setmask x m v = Ok y /\ consistent y /\ shp y = shp x /\ assigned (mask_reaches m) [trues (adata m)] v x y) /\
     (~ storable v [trues (adata m)] -> setmask x m v = Err ValueError)) /\
  (ashape m <> shp x -> getmask x m = Err IndexError /\ forall v, setmask x m v = Err IndexError).
Proof.
  intros x m Cx W. split; [now apply getmask_spec|]. split; [|now apply getmask_err].
  intros Es v Wv. now apply setmask_spec.
Qed.
Print Assumptions C74_mask.

(** C74: every other key (several lists or masks, or one with ints) *)
Theorem C74_joint_get : forall x key, consistent x -> valid_key (shp x) key -> ~ simple_key key -> (exists ws c, widths (shp x) key ws /\ joined ws c) ->
  exists z, getkey x key = Ok (RArr z) /\ joint_shape (shp x) key (shp z) /\ selected (joint_reaches (shp x) key) (shp z) x z.
Proof. exact joint_get. Qed.
Print Assumptions C74_joint_get.
Theorem C74_joint_set : forall x key v r, consistent x -> valid_key (shp x) key -> ~ simple_key key -> joint_shape (shp x) key r -> well_formed v ->
  (storable v r -> exists y, setkey x key v = Ok y /\ consistent y /\ shp y = shp x /\ assigned (joint_reaches (shp x) key) r v x y) /\
  (~ storable v r -> setkey x key v = Err ValueError).
Proof. exact joint_set. Qed.
Print Assumptions C74_joint_set.
Theorem C74_joint_misfit : forall x key v, consistent x -> valid_key (shp x) key -> ~ simple_key key -> (forall ws c, widths (shp x) key ws -> ~ joined ws c) ->
  getkey x key = Err IndexError /\ setkey x key v = Err IndexError.
Proof. exact joint_misfit. Qed.
Print Assumptions C74_joint_misfit.

(** C74: with lists too, and for every kind of key: at every index the value stored last in the
    element that the index names; each value itself if no element is named twice. *)
Theorem C74_read_back : forall x key v y r, consistent x -> valid_key (shp x) key -> simple_key key -> result_shape (shp x) key r -> ~ full_int_key (shp x) key ->
  well_formed v -> setkey x key v = Ok y -> exists z, getkey y key = Ok (RArr z) /\ read_back (reaches (shp x) key) r v z.
Proof. exact back_simple. Qed.
Print Assumptions C74_read_back.
Theorem C74_joint_read_back : forall x key v y r, consistent x -> valid_key (shp x) key -> ~ simple_key key -> joint_shape (shp x) key r ->
  well_formed v -> setkey x key v = Ok y -> exists z, getkey y key = Ok (RArr z) /\ read_back (joint_reaches (shp x) key) r v z.
Proof. exact back_joint. Qed.
Print Assumptions C74_joint_read_back.
Theorem C74_mask_read_back : forall x m v y, consistent x -> awf m -> ashape m = shp x -> well_formed v -> setmask x m v = Ok y ->
  exists z, getmask y m = Ok (RArr z) /\ read_back (mask_reaches m) [trues (adata m)] v z.
Proof. exact back_mask. Qed.
Print Assumptions C74_mask_read_back.
Theorem C74_distinct_read_back : forall sel r v z, read_back sel r v z -> (forall i j p, sel i p -> sel j p -> i = j) ->
  forall idx, in_bounds r idx -> exists e, gives v r idx e /\ aget (adat z) idx = Some e.
Proof. exact back_distinct. Qed.
Print Assumptions C74_distinct_read_back.

(** C74: keys that do not fit raise *)
Theorem C74_errors : forall x key v, consistent x ->
  (length (shp x) < length key -> getkey x key = Err IndexError /\ setkey x key v = Err IndexError) /\
  (length key <= length (shp x) -> ~ valid_key (shp x) key ->
     exists e, (e = IndexError \/ e = ValueError) /\ getkey x key = Err e /\ setkey x key v = Err e).
Proof. exact all_key_errors. Qed.
Print Assumptions C74_errors.

(** C74: what the usual slices mean *)
Theorem C74_slices : forall n k i,
  (slice_pos n (mkslice None None None) k i <-> i = k /\ i < n) /\
  (slice_pos n (mkslice None None (Some (-1)%Z)) k i <-> k < n /\ i = n - 1 - k) /\
  (forall a b, a <= b <= n -> (slice_pos n (mkslice (Some (Z.of_nat a)) (Some (Z.of_nat b)) None) k i <-> i = a + k /\ i < b)) /\
  (forall a, 0 < a <= n -> (slice_pos n (mkslice (Some (- Z.of_nat a)%Z) None None) k i <-> i = n - a + k /\ i < n)) /\
  (forall d, 0 < d -> (slice_pos n (mkslice None None (Some (Z.of_nat d))) k i <-> i = k * d /\ i < n)).
Proof.
  intros n k i. split; [apply slice_all|]. split; [apply slice_reversed|]. split; [intros; now apply slice_range|].
  split; [intros; now apply slice_from_end | intros; now apply slice_every].
Qed.
Print Assumptions C74_slices.

(** A 2 x 3 array, its last column and its rows in reverse order. *)
Definition iv (z : Z) : itv := mkitv Classical (PInt z) (PInt (z + 1)).
Definition x23 : aitv := array_interval (mkarr [2; 3] (map iv [10; 11; 12; 20; 21; 22]%Z)).
Definition last_column : list item := [KS (mkslice None None None); KI (-1)%Z].
Definition rows_reversed : list item := [KS (mkslice None None (Some (-1)%Z))].
Definition first_and_last : list item := [KS (mkslice None None None); KL [0; -1]%Z].
Example C74_case : consistent x23 /\ valid_key (shp x23) last_column /\ simple_key last_column /\
  valid_key (shp x23) rows_reversed /\ simple_key rows_reversed /\ valid_key (shp x23) first_and_last /\ simple_key first_and_last /\
  getkey x23 last_column = Ok (RArr (array_interval (mkarr [2] (map iv [12; 22]%Z)))) /\
  getkey x23 rows_reversed = Ok (RArr (array_interval (mkarr [2; 3] (map iv [20; 21; 22; 10; 11; 12]%Z)))) /\
  getkey x23 first_and_last = Ok (RArr (array_interval (mkarr [2; 2] (map iv [10; 12; 20; 22]%Z)))) /\
  setkey x23 last_column (VNum (PInt 5)) =
    Ok (array_interval (mkarr [2; 3] [iv 10; iv 11; mkitv Classical (PInt 5) (PInt 5); iv 20; iv 21; mkitv Classical (PInt 5) (PInt 5)])) /\
  setkey x23 rows_reversed (VArr (mkarr [1; 2; 1] [iv 1; iv 2])) = Ok (array_interval (mkarr [2; 3] (map iv [2; 2; 2; 1; 1; 1]%Z))) /\
  setkey x23 last_column (VArr (mkarr [3] [iv 1; iv 2; iv 3])) = Err ValueError.
Proof.
  assert (S1 : valid_key (shp x23) last_column).
  { constructor; [discriminate|]. constructor; [|constructor]. exists 2. unfold py_index. lia. }
  assert (S2 : valid_key (shp x23) rows_reversed) by (constructor; [discriminate|constructor]).
  assert (S3 : valid_key (shp x23) first_and_last).
  { constructor; [discriminate|]. constructor; [|constructor]. constructor; [exists 0; unfold py_index; lia|].
    constructor; [exists 2; unfold py_index; lia|constructor]. }
  split; [split; reflexivity|]. split; [assumption|]. split.
  { left. constructor; [left; eexists; reflexivity|]. constructor; [right; eexists; reflexivity|constructor]. }
  split; [assumption|]. split; [left; constructor; [left; eexists; reflexivity|constructor]|]. split; [assumption|]. split.
  { right. exists [KS (mkslice None None None)], (KL [0; -1]%Z), []. split; [reflexivity|]. split; [|constructor].
    constructor; [eexists; reflexivity|constructor]. }
  repeat split.
Qed.
Example C74_storable : result_shape (shp x23) rows_reversed [2; 3] /\ storable (VArr (mkarr [1; 2; 1] [iv 1; iv 2])) [2; 3] /\
  ~ full_int_key (shp x23) rows_reversed /\ well_formed (VArr (mkarr [1; 2; 1] [iv 1; iv 2])).
Proof.
  split; [|split; [|split]].
  - apply rs_many; [discriminate | | constructor]. intro k. simpl. split.
    + intro H. exists (1 - k). apply slice_reversed. lia.
    + intros [i H]. apply slice_reversed in H. lia.
  - exists (mkarr [2; 1] [iv 1; iv 2]). split; [reflexivity|]. split.
    + exists 1. split; [reflexivity|]. simpl. lia.
    + split; [reflexivity|]. intros [|[|i]] Hi; simpl in *; try lia.
  - intros [L _]. discriminate.
  - reflexivity.
Qed.

(** A 2 x 3 x 2 array: the block [x[:, [0, 2], 1]], the common dimension in front in
    [x[0, :, [1, 0, 1]]], single elements [x[[1, 0], [2, 0], [0, 1]]], and lists of
    lengths 2 and 3, which do not fit. *)
Definition x232 : aitv := array_interval (mkarr [2; 3; 2] (map iv [0; 1; 2; 3; 4; 5; 6; 7; 8; 9; 10; 11]%Z)).
Definition all_of : item := KS (mkslice None None None).
Definition in_block : list item := [all_of; KL [0; 2]%Z; KI 1%Z].
Definition apart : list item := [KI 0%Z; all_of; KL [1; 0; 1]%Z].
Definition points : list item := [KL [1; 0]%Z; KL [2; 0]%Z; KL [0; 1]%Z].
Definition misfit : list item := [KL [1; 0]%Z; KL [2; 0; 1]%Z].
Example C74_joint_case : consistent x232 /\
  (valid_key (shp x232) in_block /\ ~ simple_key in_block /\ widths (shp x232) in_block [2; 1] /\ joined [2; 1] 2) /\
  (valid_key (shp x232) misfit /\ ~ simple_key misfit /\ widths (shp x232) misfit [2; 3] /\ forall c, ~ joined [2; 3] c) /\
  getkey x232 in_block = Ok (RArr (array_interval (mkarr [2; 2] (map iv [1; 5; 7; 11]%Z)))) /\
  getkey x232 apart = Ok (RArr (array_interval (mkarr [3; 3] (map iv [1; 3; 5; 0; 2; 4; 1; 3; 5]%Z)))) /\
  getkey x232 points = Ok (RArr (array_interval (mkarr [2] (map iv [10; 1]%Z)))) /\
  getkey x232 misfit = Err IndexError.
Proof.
  assert (NS : forall key a b, (exists it, nth_error key a = Some it /\ is_adv it = true) -> (exists it, nth_error key b = Some it /\ a <> b /\ (is_adv it || is_int it) = true) -> ~ simple_key key).
  { intros key a b (it & Ea & Aa) (jt & Eb & Nab & Ab) [F|(pre & kt & post & E & F1 & F2)].
    - rewrite Forall_forall in F. destruct (F it (nth_error_In _ _ Ea)) as [[w ->]|[z ->]]; discriminate.
    - rewrite Forall_forall in F1, F2.
      assert (P : forall i k, nth_error key i = Some k -> (is_adv k || is_int k) = true -> i = length pre).
      { intros i k Ei Ak. rewrite E in Ei. destruct (Nat.lt_trichotomy i (length pre)) as [L|[L|L]]; [|exact L|].
        - rewrite nth_error_app1 in Ei by exact L. destruct (F1 k (nth_error_In _ _ Ei)) as [w ->]. discriminate.
        - rewrite nth_error_app2 in Ei by lia. destruct (i - length pre) as [|d] eqn:D; [lia|]. simpl in Ei. destruct (F2 k (nth_error_In _ _ Ei)) as [w ->]. discriminate. }
      apply Nab. rewrite (P a it Ea) by (rewrite Aa; reflexivity). symmetry. exact (P b jt Eb Ab). }
  assert (CL : forall n zs, Forall (fun z => exists i, py_index n z i) zs -> forall k, k < length zs <-> exists i, item_pos n (KL zs) k i).
  { intros n zs F k. rewrite Forall_forall in F. simpl. rewrite <- nth_error_Some. split.
    - intro Hk. destruct (nth_error zs k) as [z|] eqn:E; [|congruence]. destruct (F z (nth_error_In _ _ E)) as [i Hi]. exists i, z. auto.
    - intros (i & z & E & _). congruence. }
  assert (V1 : Forall (fun z => exists i, py_index 3 z i) [0; 2]%Z) by (constructor; [exists 0; unfold py_index; lia|constructor; [exists 2; unfold py_index; lia|constructor]]).
  assert (V2 : Forall (fun z => exists i, py_index 2 z i) [1; 0]%Z) by (constructor; [exists 1; unfold py_index; lia|constructor; [exists 0; unfold py_index; lia|constructor]]).
  assert (V3 : Forall (fun z => exists i, py_index 3 z i) [2; 0; 1]%Z) by (constructor; [exists 2; unfold py_index; lia|constructor; [exists 0; unfold py_index; lia|constructor; [exists 1; unfold py_index; lia|constructor]]]).
  split; [split; reflexivity|]. split; [|split].
  - split; [constructor; [discriminate|]; constructor; [exact V1|]; constructor; [exists 1; unfold py_index; lia|constructor]|].
    split; [apply (NS in_block 1 2); [eexists; split; reflexivity | eexists; split; [reflexivity|split; [lia|reflexivity]]]|].
    split; [|split; [constructor; [now right|constructor; [now left|constructor]] | right; now left]].
    apply w_slice. apply w_many; [intros [w E]; discriminate | discriminate | exact (CL 3 _ V1)|]. apply w_int. constructor.
  - split; [constructor; [exact V2|]; constructor; [exact V3|constructor]|].
    split; [apply (NS misfit 0 1); [eexists; split; reflexivity | eexists; split; [reflexivity|split; [lia|reflexivity]]]|].
    split; [|intros c [F _]; inversion F as [|? ? A1 F']; inversion F' as [|? ? A2 _]; lia].
    apply w_many; [intros [w E]; discriminate | discriminate | exact (CL 2 _ V2)|]. apply w_many; [intros [w E]; discriminate | discriminate | exact (CL 3 _ V3)|]. constructor.
  - repeat split.
Qed.

(** A repeated position: the last value stored is read twice. *)
Example C74_read_back_case :
  setkey x23 [all_of; KL [0; 2; 0]%Z] (VArr (mkarr [3] (map iv [1; 2; 3]%Z))) = Ok (array_interval (mkarr [2; 3] (map iv [3; 11; 2; 3; 21; 2]%Z))) /\
  getkey (array_interval (mkarr [2; 3] (map iv [3; 11; 2; 3; 21; 2]%Z))) [all_of; KL [0; 2; 0]%Z] = Ok (RArr (array_interval (mkarr [2; 3] (map iv [3; 2; 3; 3; 2; 3]%Z)))) /\
  setkey x232 points (VArr (mkarr [2] (map iv [50; 60]%Z))) = Ok (array_interval (mkarr [2; 3; 2] (map iv [0; 60; 2; 3; 4; 5; 6; 7; 8; 9; 50; 11]%Z))).
Proof. repeat split. Qed.
