(** Properties of construction, interval arrays and their helpers: C27-C31,
    C48-C51, C59, C60.  Each theorem is closed by the lemma that proves it. *)
From Coq Require Import ZArith Reals List Bool Arith Lia Lra.
From Flocq Require Import Core IEEE754.BinarySingleNaN.
From Verif Require Import Base PyNum Kernel Spec Expr XReal Arrays Construct SpecArray ArrayProofs ArrayMore ArrayMat ArrayItems ConstructProofs ConstructMore ConstructSys ConstructUtil KernelRefute ArrayRefute ArrayMid Props_Kernel.
Import ListNotations.
Open Scope R_scope.
Open Scope nat_scope.

(** A concrete 2x2 array and vectors. *)
Definition exA : aitv := array_interval (mkarr [2; 2] [ex1; ex2; ex2; ex1]).
Definition exv : aitv := array_interval (mkarr [2] [ex1; ex2]).
Definition exd : itv := mkitv Classical (PFlt (fl 3 (-1))) (PFlt (fl 5 0)).
Definition exw : aitv := array_interval (mkarr [2] [exd; exd]).
Lemma exA_ok : consistent exA /\ Forall good (adata (adat exA)) /\ shp exA = [2; 2].
Proof. split; [split; reflexivity|]. split; [|reflexivity]. repeat apply Forall_cons; try apply Forall_nil; first [exact ex1_good | exact ex2_good]. Qed.
Lemma exv_ok : consistent exv /\ Forall good (adata (adat exv)) /\ shp exv = [2].
Proof. split; [split; reflexivity|]. split; [|reflexivity]. constructor; [exact ex1_good|]. constructor; [exact ex2_good|constructor]. Qed.

(** ** C27 *)
Theorem C27_sorted_construction : forall l r m, exists Z, returns (single_interval l r true false) m Z /\ kd Z = Classical /\
    ((lo Z = l /\ hi Z = r) \/ (lo Z = r /\ hi Z = l)) /\
    (is_nan_num l = false -> is_nan_num r = false -> num_le (lo Z) (hi Z) = true).
Proof. exact single_sorted. Qed.
Print Assumptions C27_sorted_construction.

Theorem C27_unsorted_construction : forall l r m, exists Z, returns (single_interval l r false false) m Z /\ lo Z = l /\ hi Z = r /\ (kd Z = Classical <-> num_le l r = true).
Proof. exact single_unsorted. Qed.
Print Assumptions C27_unsorted_construction.

(** A midpoint-radius form with finite doubles contains the midpoint; its
    endpoints are the midpoint minus/plus the radius, rounded in the current mode. *)
Theorem C27_midrad_construction : forall c r s m, is_finite c = true -> is_finite r = true -> (0 <= B2R r)%R ->
  exists Z, returns (single_interval (PFlt c) (PFlt r) s true) m Z /\ kd Z = Classical /\
    xval (lo Z) = xround m (B2R c - B2R r)%R /\ xval (hi Z) = xround m (B2R c + B2R r)%R /\ member Z (B2R c).
Proof. exact single_midrad. Qed.
Print Assumptions C27_midrad_construction.

Theorem C27_midrad_rejects_negative_radius : forall c r s m, num_le (PInt 0) r = false -> raises (single_interval c r s true) m AssertionError.
Proof. exact single_midrad_neg. Qed.
Print Assumptions C27_midrad_rejects_negative_radius.

Theorem C27_two_arrays : forall t1 t2 n s sq m, regular (n :: s) t1 -> regular (n :: s) t2 ->
  Forall medium_num (leaves t1) -> Forall medium_num (leaves t2) -> size (n :: s) <> 0 ->
  exists x, returns (interval2 t1 t2 sq false) m (RArr x) /\ consistent x /\ shp x = n :: s /\
    forall idx, in_bounds (n :: s) idx -> exists l r e, tget t1 idx = Some l /\ tget t2 idx = Some r /\
      aget (adat x) idx = Some e /\ made_of sq l r e.
Proof. exact interval2_arrays. Qed.
Print Assumptions C27_two_arrays.

Theorem C27_array_of_pairs : forall t s k sq m, regular (s ++ [k]) t -> s <> [] -> 2 <= k -> Forall medium_num (leaves t) -> size s <> 0 ->
  exists x, returns (interval1 (ANest t) sq false) m (RArr x) /\ consistent x /\ shp x = s /\
    forall idx, in_bounds s idx -> exists l r e, tget t (idx ++ [0]) = Some l /\ tget t (idx ++ [1]) = Some r /\
      aget (adat x) idx = Some e /\ made_of sq l r e.
Proof. exact interval1_pairs. Qed.
Print Assumptions C27_array_of_pairs.

(** What fails: the midpoint-radius form need not contain the points within the
    radius, and [Interval(c)] of a single number raises TypeError. *)
Theorem C27_midrad_encloses_refuted : exists c r m Z x, is_finite c = true /\ is_finite r = true /\ (0 <= B2R r)%R /\
  returns (single_interval (PFlt c) (PFlt r) true true) m Z /\ (Rabs (x - B2R c) <= B2R r)%R /\ ~ member Z x.
Proof. exact midrad_x. Qed.
Print Assumptions C27_midrad_encloses_refuted.

Theorem C27_single_number_raises : forall c s q m, raises (interval1 (ANest (NLeaf c)) s q) m TypeError.
Proof. exact interval_number_x. Qed.
Print Assumptions C27_single_number_raises.

Definition ex_nested : nested pynum := NList [NList [NLeaf (PInt 1); NLeaf (PFlt (fl 5 (-1)))]; NList [NLeaf (PInt 7); NLeaf (PInt (-3))]].
Lemma ex_nested_regular : regular [2; 2] ex_nested.
Proof.
  assert (P : forall a b : pynum, regular [2] (NList [NLeaf a; NLeaf b])) by (intros a b; apply (reg_list [] [NLeaf a; NLeaf b]); [discriminate | repeat constructor]).
  apply (reg_list [2] [_; _]); [discriminate|]. repeat constructor; apply P.
Qed.
Example C27_case : regular ([2] ++ [2]) ex_nested /\ Forall medium_num (leaves ex_nested) /\
  is_finite (fl 5 (-1)) = true /\ num_le (PInt 0) (PInt (-3)) = false.
Proof. split; [exact ex_nested_regular|]. split; [repeat constructor; simpl; lia|]. split; vm_compute; reflexivity. Qed.

(** ** C28 *)
Theorem C28_vertex_rows : forall x m, consistent x -> (length (shp x) = 1 \/ length (shp x) = 2) -> adata (adat x) <> [] ->
  Forall is_double (map lo (adata (adat x))) -> Forall is_double (map hi (adata (adat x))) ->
  exists V, returns (vertex x) m V /\ ashape V = 2 ^ size (shp x) :: shp x /\ awf V /\
    forall k idx p e, k < 2 ^ size (shp x) -> flat (shp x) idx = Some p -> aget (adat x) idx = Some e ->
      aget V (k :: idx) = Some (if Nat.testbit k (size (shp x) - 1 - p) then hi e else lo e).
Proof. exact vertex_spec. Qed.
Print Assumptions C28_vertex_rows.

Theorem C28_vertex_every_choice : forall x m V, consistent x -> (length (shp x) = 1 \/ length (shp x) = 2) -> adata (adat x) <> [] ->
  Forall is_double (map lo (adata (adat x))) -> Forall is_double (map hi (adata (adat x))) -> returns (vertex x) m V ->
  forall choice : list nat -> bool, exists k, k < 2 ^ size (shp x) /\
    forall idx e, in_bounds (shp x) idx -> aget (adat x) idx = Some e ->
      aget V (k :: idx) = Some (if choice idx then hi e else lo e).
Proof. exact vertex_all. Qed.
Print Assumptions C28_vertex_every_choice.

Theorem C28_choice_determines_row : forall n k k', k < 2 ^ n -> k' < 2 ^ n -> (forall j, j < n -> Nat.testbit k j = Nat.testbit k' j) -> k = k'.
Proof. exact bits_unique. Qed.
Print Assumptions C28_choice_determines_row.

Example C28_case : consistent exw /\ length (shp exw) = 1 /\ adata (adat exw) <> [] /\ Forall is_double (map lo (adata (adat exw))) /\ Forall is_double (map hi (adata (adat exw))).
Proof. split; [split; reflexivity|]. split; [reflexivity|]. split; [discriminate|]. split; repeat constructor; eexists; reflexivity. Qed.

(** ** C29 *)
Theorem C29_endpoint_arrays : forall x m, adata (adat x) <> [] ->
  (uniform (map lo (adata (adat x))) -> returns (arr_a x) m (amap lo (adat x))) /\
  (uniform (map hi (adata (adat x))) -> returns (arr_b x) m (amap hi (adat x))).
Proof. exact arr_ends_exact. Qed.
Print Assumptions C29_endpoint_arrays.

Theorem C29_mag_array : forall A m, adata (adat A) <> [] -> Forall small_itv (adata (adat A)) ->
  exists Z, returns (arr_mag A) m Z /\ ashape Z = ashape (adat A) /\ Forall2 (fun e v => exists f, v = PFlt f /\ returns (mag e) m f) (adata (adat A)) (adata Z).
Proof. exact mag_array. Qed.
Print Assumptions C29_mag_array.

Theorem C29_mig_array : forall A m, adata (adat A) <> [] -> Forall small_itv (adata (adat A)) ->
  exists Z, returns (arr_mig A) m Z /\ ashape Z = ashape (adat A) /\ Forall2 (fun e v => exists f, v = PFlt f /\ returns (mig e) m f) (adata (adat A)) (adata Z).
Proof. exact mig_array. Qed.
Print Assumptions C29_mig_array.

Theorem C29_mid_array : forall A m, adata (adat A) <> [] -> Forall small_itv (adata (adat A)) ->
  exists Z, returns (arr_mid A) m Z /\ ashape Z = ashape (adat A) /\ Forall2 (fun e v => returns (mid e) m v) (adata (adat A)) (adata Z).
Proof. exact mid_array. Qed.
Print Assumptions C29_mid_array.

Theorem C29_rad_array : forall A m, adata (adat A) <> [] -> Forall small_itv (adata (adat A)) ->
  exists Z, returns (arr_rad A) m Z /\ ashape Z = ashape (adat A) /\ Forall2 (fun e v => returns (rad e) m v) (adata (adat A)) (adata Z).
Proof. exact rad_array. Qed.
Print Assumptions C29_rad_array.

(** Widths: every element has a double among its ends, or none has. *)
Theorem C29_wid_array : forall A m, adata (adat A) <> [] -> Forall small_itv (adata (adat A)) ->
  (Forall (fun e => is_double (lo e) \/ is_double (hi e)) (adata (adat A)) \/ Forall (fun e => ~ is_double (lo e) /\ ~ is_double (hi e)) (adata (adat A))) ->
  exists Z, returns (arr_wid A) m Z /\ ashape Z = ashape (adat A) /\ Forall2 (fun e v => returns (wid e) m v) (adata (adat A)) (adata Z).
Proof. exact wid_array. Qed.
Print Assumptions C29_wid_array.

(** Otherwise the reported width of an interval that is at least 1/2 wide can be 0. *)
Theorem C29_wid_mixed_refuted : exists x m Z idx e v, consistent x /\ Forall proper_fin (adata (adat x)) /\ returns (arr_wid x) m Z /\
  aget (adat x) idx = Some e /\ aget Z idx = Some v /\ finite_num v /\ num_val v = 0%R /\ (num_val (lo e) + 1 / 2 <= num_val (hi e))%R.
Proof. exact wid_mixed_x. Qed.
Print Assumptions C29_wid_mixed_refuted.

(** With ints and doubles mixed the dtype of the first element truncates the rest. *)
Theorem C29_mixed_types_refuted : exists x m Z idx e v, consistent x /\ Forall proper_fin (adata (adat x)) /\ returns (arr_a x) m Z /\
  aget (adat x) idx = Some e /\ aget Z idx = Some v /\ finite_num v /\ num_val v <> num_val (lo e).
Proof. exact mixed_x. Qed.
Print Assumptions C29_mixed_types_refuted.

Example C29_case : uniform (map lo (adata (adat exw))) /\ adata (adat exw) <> [] /\ Forall small_itv (adata (adat exw)) /\
  Forall (fun e => is_double (lo e) \/ is_double (hi e)) (adata (adat exw)).
Proof.
  split; [left; repeat constructor; eexists; reflexivity|]. split; [discriminate|]. split; [repeat constructor|].
  repeat (apply Forall_cons; [left; eexists; reflexivity|]); constructor.
Qed.

(** ** C30 *)
Theorem C30_matrix_vector : forall x y r n m, ashape x = [r; n] -> ashape y = [n] -> product_ok x y ->
  exists Z, returns (matmul x y) m Z /\ ashape Z = [r] /\ awf Z /\
    forall (A : nat -> nat -> R) (v : nat -> R),
      (forall i k o, aget x [i; k] = Some o -> in_operand o (A i k)) ->
      (forall k o, aget y [k] = Some o -> in_operand o (v k)) ->
      forall i, (i < r)%nat -> exists z, aget Z [i] = Some z /\ entry_result z n /\ in_operand_or_nan z (Rsum n (fun k => (A i k * v k)%R)).
Proof. exact matvec. Qed.
Print Assumptions C30_matrix_vector.

Theorem C30_vector_matrix : forall x y n c m, ashape x = [n] -> ashape y = [n; c] -> product_ok x y ->
  exists Z, returns (matmul x y) m Z /\ ashape Z = [c] /\ awf Z /\
    forall (v : nat -> R) (A : nat -> nat -> R),
      (forall k o, aget x [k] = Some o -> in_operand o (v k)) ->
      (forall k j o, aget y [k; j] = Some o -> in_operand o (A k j)) ->
      forall j, (j < c)%nat -> exists z, aget Z [j] = Some z /\ entry_result z n /\ in_operand_or_nan z (Rsum n (fun k => (v k * A k j)%R)).
Proof. exact vecmat. Qed.
Print Assumptions C30_vector_matrix.

Theorem C30_vector_vector : forall x y n m, ashape x = [n] -> ashape y = [n] -> product_ok x y ->
  exists z, returns (matmul x y) m (scalar z) /\ entry_result z n /\
    forall (v w : nat -> R),
      (forall k o, aget x [k] = Some o -> in_operand o (v k)) -> (forall k o, aget y [k] = Some o -> in_operand o (w k)) ->
      in_operand_or_nan z (Rsum n (fun k => (v k * w k)%R)).
Proof. exact vecvec. Qed.
Print Assumptions C30_vector_vector.

Theorem C30_matrix_matrix : forall x y r n c m, ashape x = [r; n] -> ashape y = [n; c] -> product_ok x y ->
  exists Z, returns (matmul x y) m Z /\ ashape Z = [r; c] /\ awf Z /\
    forall (A B : nat -> nat -> R),
      (forall i k o, aget x [i; k] = Some o -> in_operand o (A i k)) ->
      (forall k j o, aget y [k; j] = Some o -> in_operand o (B k j)) ->
      forall i j, (i < r)%nat -> (j < c)%nat ->
        exists z, aget Z [i; j] = Some z /\ entry_result z n /\ in_operand_or_nan z (Rsum n (fun k => (A i k * B k j)%R)).
Proof. exact matmat. Qed.
Print Assumptions C30_matrix_matrix.

Example C30_case : product_ok (op_arr exA) (op_arr exv) /\ ashape (op_arr exA) = [2; 2] /\ ashape (op_arr exv) = [2].
Proof.
  split; [|split; reflexivity]. split; [reflexivity|]. split; [reflexivity|].
  split; [repeat apply Forall_cons; try apply Forall_nil; first [exact ex1_good | exact ex2_good]|]. split; [repeat apply Forall_cons; try apply Forall_nil; first [exact ex1_good | exact ex2_good]|].
  left. repeat constructor.
Qed.

(** ** C31 *)
Theorem C31_intersection : forall X Y m, good X -> good Y ->
  exists Z, returns (intersect X Y) m Z /\ kd Z = Classical /\
    (forall r, member X r -> member Y r -> member Z r) /\
    ((exists r, member X r /\ member Y r) -> forall r, member Z r <-> member X r /\ member Y r) /\
    (nan_itv Z -> ~ exists r, member X r /\ member Y r) /\
    (~ nan_itv Z -> exists x y, member X x /\ member Y y /\ (Rabs (x - y) < 1001 / 1000000000000000000)%R).
Proof. exact intersect_spec. Qed.
Print Assumptions C31_intersection.

Theorem C31_arrays : forall X Y m, consistent X -> consistent Y -> Forall good (adata (adat X)) -> Forall good (adata (adat Y)) ->
  (shp X = shp Y -> size (shp X) <> 0%nat ->
   exists Z, returns (intersection (RArr X) (RArr Y)) m (RArr Z) /\ consistent Z /\ shp Z = shp X /\
     forall idx, in_bounds (shp X) idx -> exists x y z, aget (adat X) idx = Some x /\ aget (adat Y) idx = Some y /\
       aget (adat Z) idx = Some z /\ returns (intersect x y) m z) /\
  (shp X <> shp Y -> raises (intersection (RArr X) (RArr Y)) m AssertionError).
Proof. exact intersection_arrays. Qed.
Print Assumptions C31_arrays.

Theorem C31_array_and_scalar : forall X Y m, consistent X -> Forall good (adata (adat X)) -> good Y -> size (shp X) <> 0%nat ->
  (exists Z, returns (intersection (RArr X) (RItv Y)) m (RArr Z) /\ consistent Z /\ shp Z = shp X /\
     forall idx, in_bounds (shp X) idx -> exists x z, aget (adat X) idx = Some x /\ aget (adat Z) idx = Some z /\ returns (intersect x Y) m z) /\
  (exists Z, returns (intersection (RItv Y) (RArr X)) m (RArr Z) /\ consistent Z /\ shp Z = shp X /\
     forall idx, in_bounds (shp X) idx -> exists x z, aget (adat X) idx = Some x /\ aget (adat Z) idx = Some z /\ returns (intersect Y x) m z).
Proof. exact intersection_scalar. Qed.
Print Assumptions C31_array_and_scalar.

(** A tiny gap counts as overlap. *)
Theorem C31_disjoint_gives_nan_refuted : exists X Y m Z, good X /\ good Y /\ returns (intersect X Y) m Z /\ ~ (exists r, member X r /\ member Y r) /\ exists r, member Z r.
Proof. exact gap_x. Qed.
Print Assumptions C31_disjoint_gives_nan_refuted.

Example C31_case : good ex1 /\ good ex2 /\ size (shp exv) <> 0 /\ ~ (exists r, member ex1 r /\ member ex2 r).
Proof.
  split; [exact ex1_good|]. split; [exact ex2_good|]. split; [discriminate|]. intros (r & H1 & H2).
  apply member_x in H1. apply member_x in H2. destruct ex1_x as [E1 _], ex2_x as [_ E2]. rewrite E1 in H1. rewrite E2 in H2. simpl in *. lra.
Qed.

(** ** C48 *)
Theorem C48_zeros : forall s m, size s <> 0%nat ->
  exists x, returns (zeros s) m x /\ consistent x /\ shp x = s /\ forall idx, in_bounds s idx -> aget (adat x) idx = Some fzero.
Proof. exact zeros_spec. Qed.
Print Assumptions C48_zeros.

Theorem C48_full : forall s inf sup m, size s <> 0%nat -> medium_num inf -> medium_num sup ->
  exists x, returns (full s inf sup) m x /\ consistent x /\ shp x = s /\
    forall idx, in_bounds s idx -> exists e, aget (adat x) idx = Some e /\ made_of false inf sup e.
Proof. exact full_spec. Qed.
Print Assumptions C48_full.

Theorem C48_eye : forall N M_ k m, let c := match M_ with Some c => c | None => N end in (N * c <> 0)%nat ->
  exists x, returns (eye N M_ k) m x /\ consistent x /\ shp x = [N; c] /\
    forall i j, (i < N)%nat -> (j < c)%nat ->
      aget (adat x) [i; j] = Some (if (Z.of_nat j - Z.of_nat i =? k)%Z then mkitv Classical (PInt 1) (PInt 1) else mkitv Classical (PInt 0) (PInt 0)).
Proof. exact eye_spec. Qed.
Print Assumptions C48_eye.

Theorem C48_diag_of_vector : forall v n k, consistent v -> shp v = [n] -> exists D, diag v k = Ok D /\ consistent D /\ shp D = [n + Z.abs_nat k; n + Z.abs_nat k] /\
  forall i j, i < n + Z.abs_nat k -> j < n + Z.abs_nat k ->
    ((Z.of_nat j - Z.of_nat i)%Z = k -> exists e, aget (adat D) [i; j] = Some e /\ aget (adat v) [Nat.min i j] = Some e) /\
    ((Z.of_nat j - Z.of_nat i)%Z <> k -> aget (adat D) [i; j] = Some zero_itv).
Proof. exact diag_vector. Qed.
Print Assumptions C48_diag_of_vector.

Theorem C48_diag_of_matrix : forall A r c k, consistent A -> shp A = [r; c] -> exists D q, diag A k = Ok D /\ consistent D /\ shp D = [q] /\
  forall p, (p < q <-> in_bounds [r; c] (if (0 <=? k)%Z then [p; p + Z.to_nat k] else [p + Z.to_nat (- k); p])) /\
    (p < q -> exists e, aget (adat D) [p] = Some e /\ aget (adat A) (if (0 <=? k)%Z then [p; p + Z.to_nat k] else [p + Z.to_nat (- k); p]) = Some e).
Proof. exact diag_matrix. Qed.
Print Assumptions C48_diag_of_matrix.

Theorem C48_neumaier_system : forall n theta infb supb m, n <> 0 -> small_num theta -> is_nan_num theta = false ->
  medium_num (dflt infb (PInt (-1))) -> medium_num (dflt supb (PInt 1)) ->
  exists A b, returns (neumaier_system n theta infb supb) m (A, b) /\
    consistent A /\ shp A = [n; n] /\ consistent b /\ shp b = [n] /\
    (forall i, i < n -> aget (adat A) [i; i] = Some (mkitv Classical theta theta)) /\
    (forall i j, i < n -> j < n -> i <> j -> exists e, aget (adat A) [i; j] = Some e /\ kd e = Classical /\ same_num (lo e) (PInt 0) /\ same_num (hi e) (PInt 2)) /\
    (forall i, i < n -> exists e, aget (adat b) [i] = Some e /\ made_of true (dflt infb (PInt (-1))) (dflt supb (PInt 1)) e).
Proof. exact neumaier_spec. Qed.
Print Assumptions C48_neumaier_system.

Theorem C48_shary_system : forall n N alpha beta m, n <> 0 -> (Z.of_nat n <= 2 ^ 25)%Z -> param alpha -> param beta ->
  num_le (PInt 0) alpha = true -> num_le alpha beta = true -> num_le beta (PInt 1) = true ->
  (forall v, N = Some v -> num_le (PInt (Z.of_nat n - 1)) v = true) ->
  exists A b l r, returns (shary_system n N alpha beta) m (A, b) /\
    num_sub m alpha (PInt 1) = Ok l /\ num_sub m (PInt 1) beta = Ok r /\
    consistent A /\ shp A = [n; n] /\ consistent b /\ shp b = [n] /\
    (forall i, i < n -> aget (adat A) [i; i] = Some (mkitv Classical (PInt (Z.of_nat n - 1)) (dflt N (PInt (Z.of_nat n))))) /\
    (forall i j, i < n -> j < n -> i <> j -> exists e, aget (adat A) [i; j] = Some e /\ kd e = Classical /\ same_num (lo e) l /\ same_num (hi e) r) /\
    (forall i, i < n -> exists e, aget (adat b) [i] = Some e /\ kd e = Classical /\ same_num (lo e) (PInt (1 - Z.of_nat n)) /\ same_num (hi e) (PInt (Z.of_nat n - 1))).
Proof. exact shary_spec. Qed.
Print Assumptions C48_shary_system.

Theorem C48_shary_rejects : forall n N alpha beta m, (num_lt alpha (PInt 0) = true \/ num_lt beta alpha = true \/ num_lt (PInt 1) beta = true) ->
  (forall v, N = Some v -> num_le (PInt (Z.of_nat n - 1)) v = true) -> raises (shary_system n N alpha beta) m GenericException.
Proof. exact shary_bad. Qed.
Print Assumptions C48_shary_rejects.

Theorem C48_toft_system : forall n r R m, n <> 0 -> (Z.of_nat n <= 2 ^ 25)%Z -> param r -> param R -> finite_num r -> finite_num R ->
  (0 <= num_val r)%R -> (0 <= num_val R)%R ->
  exists A b, returns (toft_system n r R) m (A, b) /\
    consistent A /\ shp A = [n; n] /\ consistent b /\ shp b = [n] /\
    (forall i, i < n - 1 -> exists e, aget (adat A) [i; i] = Some e /\ plus_minus m (PInt 1) r e) /\
    (forall i j, i < n - 1 -> j < n - 1 -> i <> j -> aget (adat A) [i; j] = Some (mkitv Classical (PFlt f0) (PFlt f0))) /\
    (forall k, k < n -> exists e, aget (adat A) [k; n - 1] = Some e /\ aget (adat A) [n - 1; k] = Some e /\ plus_minus m (PInt (Z.of_nat k + 1)) r e) /\
    (forall i, i < n -> exists e, aget (adat b) [i] = Some e /\ plus_minus m (PInt 1) R e).
Proof. exact toft_spec. Qed.
Print Assumptions C48_toft_system.

Example C48_case : param (PFlt (fl 1 (-2))) /\ param (PFlt (fl 3 (-2))) /\ num_le (PInt 0) (PFlt (fl 1 (-2))) = true /\
  num_le (PFlt (fl 1 (-2))) (PFlt (fl 3 (-2))) = true /\ num_le (PFlt (fl 3 (-2))) (PInt 1) = true /\ (3 * 3 <> 0) /\ small_num (PInt 4) /\ num_lt (PInt 3) (PInt 2) = false.
Proof. repeat split; vm_compute; intuition congruence. Qed.

(** ** C49 *)
Theorem C49_asinterval : forall m, (forall e, returns (asinterval (SItv e)) m (RItv e)) /\
  (forall x, returns (asinterval (SArr x)) m (RArr x)) /\
  (forall c, is_nan_num c = false -> returns (asinterval (SNest (NLeaf (ONum c)))) m (RItv (mkitv Classical c c))) /\
  (forall t n s, regular (n :: s) t -> Forall medium_operand (leaves t) ->
     exists x, returns (asinterval (SNest t)) m (RArr x) /\ consistent x /\ shp x = n :: s /\
       forall idx, in_bounds (n :: s) idx -> exists o e, tget t idx = Some o /\ aget (adat x) idx = Some e /\ as_point o e).
Proof. exact asinterval_spec. Qed.
Print Assumptions C49_asinterval.

Theorem C49_idempotent : forall a m r, returns (asinterval a) m r -> returns (asinterval (as_again r)) m r.
Proof. exact asinterval_idem. Qed.
Print Assumptions C49_idempotent.

Definition ex_ops : nested operand := NList [NLeaf (OItv ex1); NLeaf (ONum (PInt 4))].
Example C49_case : regular [2] ex_ops /\ Forall medium_operand (leaves ex_ops).
Proof. split; [apply (reg_list [] [NLeaf (OItv ex1); NLeaf (ONum (PInt 4))]); [discriminate|repeat constructor]|]. constructor; [exact I|]. constructor; [|constructor]. split; [simpl; lia|reflexivity]. Qed.

(** ** C50 *)
Theorem C50_history_keeps_shape_consistent : forall m x l y, history m x l y -> consistent x -> Forall scalar_update l -> consistent y.
Proof. exact history_consistent. Qed.
Print Assumptions C50_history_keeps_shape_consistent.

Theorem C50_set_item : forall x key v, consistent x ->
  (forall idx, py_key (ashape (adat x)) key idx -> exists y, setitem x key v = Ok y /\ consistent y /\ shp y = shp x /\
     aget (adat y) idx = Some (as_item v) /\ forall idx', idx' <> idx -> aget (adat y) idx' = aget (adat x) idx') /\
  ((forall idx, ~ py_key (ashape (adat x)) key idx) -> setitem x key v = Err IndexError).
Proof. exact setitem_spec. Qed.
Print Assumptions C50_set_item.

Theorem C50_delete_first_axis : forall x n s z k, consistent x -> shp x = n :: s -> py_index n z k ->
  exists y, delitem x (KInt z) = Ok y /\ consistent y /\ shp y = (n - 1) :: s /\
    forall i idx, in_bounds (shp y) (i :: idx) -> exists e, aget (adat y) (i :: idx) = Some e /\
      aget (adat x) ((if i <? k then i else S i) :: idx) = Some e.
Proof. exact delitem_first. Qed.
Print Assumptions C50_delete_first_axis.

Theorem C50_delete_tuple : forall x zs n k, consistent x -> zs <> [] -> nth_error (shp x) (length zs - 1) = Some n -> py_index n (last zs 0%Z) k ->
  exists y, delitem x (KTuple zs) = Ok y /\ consistent y /\ shp y = set_dim (shp x) (length zs - 1) (n - 1) /\
    forall idx, in_bounds (shp y) idx -> exists e, aget (adat y) idx = Some e /\
      aget (adat x) (skip_index (length zs - 1) k idx) = Some e.
Proof. exact delitem_tuple. Qed.
Print Assumptions C50_delete_tuple.

Theorem C50_in_place_consistent_iff_not_enlarging : forall o x y m Z, returns (arr_iop o x y) m Z ->
  shp Z = shp x /\ awf (adat Z) /\ (consistent Z <-> broadcast_shape (ashape (adat x)) (ashape y) (shp x)).
Proof. exact iop_consistent. Qed.
Print Assumptions C50_in_place_consistent_iff_not_enlarging.

(** In-place addition of a larger array leaves the old shape. *)
Theorem C50_in_place_broadcast_refuted : exists x y m Z, consistent x /\ Forall good (adata (adat x)) /\ returns (arr_iop OpAdd x y) m Z /\ shp Z <> ashape (adat Z).
Proof. exact stale_x. Qed.
Print Assumptions C50_in_place_broadcast_refuted.

Example C50_case : consistent exv /\ Forall scalar_update [USet [1%Z] (ONum (PInt 5)); UDel (KInt 0); UOp OpAdd (scalar (ONum (PInt 1)))] /\
  exists y, history mode_NE exv [USet [1%Z] (ONum (PInt 5)); UDel (KInt 0)] y /\ shp y = [1].
Proof.
  split; [split; reflexivity|]. split; [repeat constructor|]. eexists. split.
  - eapply h_set; [reflexivity|]. eapply h_del; [reflexivity|]. apply h_nil.
  - reflexivity.
Qed.

(** ** C51 *)
Theorem C51_sign_is_hull_of_signs : forall X m, (exists r, member X r) -> exists Z, returns (sign_itv X) m Z /\ sign_hull X Z.
Proof. exact sign_spec. Qed.
Print Assumptions C51_sign_is_hull_of_signs.

Theorem C51_comparison_matrix : forall A r c m, consistent A -> shp A = [r; c] -> (r * c <> 0)%nat -> Forall small_itv (adata (adat A)) -> Forall proper_fin (adata (adat A)) ->
  exists C, returns (compmat A) m C /\ ashape C = [r; c] /\
    forall i j e, (i < r)%nat -> (j < c)%nat -> aget (adat A) [i; j] = Some e ->
      exists v, aget C [i; j] = Some v /\ finite_num v /\ (i = j -> least_abs e (num_val v)) /\ (i <> j -> greatest_abs e (- num_val v)%R).
Proof. exact compmat_spec. Qed.
Print Assumptions C51_comparison_matrix.

Theorem C51_utilities_of_numbers : forall c m, medium_num c -> finite_num c ->
  (exists v, returns (u_mid (ONum c)) m v /\ same_num v c) /\ (exists v, returns (u_inf (ONum c)) m v /\ same_num v c) /\
  (exists v, returns (u_sup (ONum c)) m v /\ same_num v c) /\ (exists v, returns (u_rad (ONum c)) m v /\ num_val v = 0%R /\ finite_num v) /\
  (exists v, returns (u_mag (ONum c)) m v /\ finite_num v /\ num_val v = Rabs (num_val c)) /\
  (exists v, returns (u_wid (ONum c)) m v /\ same_num v c).
Proof. exact u_number. Qed.
Print Assumptions C51_utilities_of_numbers.

(** [wid] of a number is the number itself, not 0. *)
Theorem C51_wid_of_number_refuted : forall m, exists c v, medium_num c /\ finite_num c /\ returns (u_wid (ONum c)) m v /\ finite_num v /\ num_val v <> 0%R.
Proof. exact wid_number_x. Qed.
Print Assumptions C51_wid_of_number_refuted.

Example C51_case : (exists r, member ex2 r) /\ consistent exA /\ Forall small_itv (adata (adat exA)) /\ Forall proper_fin (adata (adat exA)).
Proof.
  split; [exists 1%R; apply ex2_member; lra|]. split; [split; reflexivity|].
  split; repeat apply Forall_cons; try apply Forall_nil; first [exact ex1_small | exact ex2_small | exact ex1_proper | exact ex2_proper].
Qed.

(** ** C59 *)
Theorem C59_elementwise_with_broadcasting : forall o x y m, (forall Z, returns (arr_op o x y) m Z -> exists s, broadcast_shape (ashape (adat x)) (ashape y) s /\ ashape (adat Z) = s /\
     consistent Z /\
     forall idx, in_bounds s idx -> exists e b c, reads (adat x) idx e /\ reads y idx b /\
       returns (py_op o (OItv e) b) m c /\ aget (adat Z) idx = Some c) /\
  ((~ exists s, broadcast_shape (ashape (adat x)) (ashape y) s) -> raises (arr_op o x y) m ValueError).
Proof. exact arr_op_elementwise. Qed.
Print Assumptions C59_elementwise_with_broadcasting.

Theorem C59_array_operations_enclose : forall o x y m Z, Forall good (adata (adat x)) -> Forall good_operand (adata y) ->
  (o = OpDiv -> Forall safe_divisor (adata y)) ->
  returns (arr_op o x y) m Z ->
  Forall good (adata (adat Z)) /\
  forall idx e b c, in_bounds (shp Z) idx -> reads (adat x) idx e -> reads y idx b -> aget (adat Z) idx = Some c ->
    forall u v, member e u -> in_operand b v -> member_or_nan c (opR o u v) /\ (o = OpDiv -> v <> 0%R).
Proof. exact arr_op_encl. Qed.
Print Assumptions C59_array_operations_enclose.

Theorem C59_reflected_operations_enclose : forall o y x m Z, Forall good (adata (adat x)) -> Forall num_operand (adata y) ->
  returns (arr_rop o y x) m Z ->
  consistent Z /\ broadcast_shape (ashape y) (ashape (adat x)) (shp Z) /\
  forall idx e b c, in_bounds (shp Z) idx -> reads (adat x) idx e -> reads y idx b -> aget (adat Z) idx = Some c ->
    forall v u, in_operand b v -> member e u -> member_or_nan c (opR o v u) /\ (o = OpDiv -> u <> 0%R).
Proof. exact arr_rop_encl. Qed.
Print Assumptions C59_reflected_operations_enclose.

Theorem C59_numpy_array_left_encloses : forall o y x m Z, Forall good (adata (adat x)) -> Forall num_operand (adata y) ->
  returns (np_arr_right o y x) m Z ->
  consistent Z /\ broadcast_shape (ashape y) (ashape (adat x)) (shp Z) /\
  forall idx e b c, in_bounds (shp Z) idx -> reads (adat x) idx e -> reads y idx b -> aget (adat Z) idx = Some c ->
    forall v u, in_operand b v -> member e u -> member_or_nan c (opR o v u) /\ (o = OpDiv -> u <> 0%R).
Proof. exact np_right_encl. Qed.
Print Assumptions C59_numpy_array_left_encloses.

Theorem C59_scalar_interval_encloses : forall o x S m, consistent x -> adata (adat x) <> [] -> Forall good (adata (adat x)) -> good S -> (o = OpDiv -> ~ member S 0%R) ->
  exists Z, returns (arr_op_itv o x S) m Z /\ consistent Z /\ shp Z = shp x /\ Forall good (adata (adat Z)) /\
    forall idx e, aget (adat x) idx = Some e -> exists c, aget (adat Z) idx = Some c /\
      forall u v, member e u -> member S v -> (o = OpDiv -> v <> 0%R) /\ member_or_nan c (opR o u v).
Proof. exact arr_op_itv_encl. Qed.
Print Assumptions C59_scalar_interval_encloses.

(** With a scalar interval divisor that contains 0 nothing is raised and the
    quotient is wrong. *)
Theorem C59_divide_by_scalar_interval_with_zero_refuted : exists x S m Z e c u v, consistent x /\ Forall good (adata (adat x)) /\ good S /\ member S 0%R /\
  returns (arr_op_itv OpDiv x S) m Z /\ nth_error (adata (adat x)) 0 = Some e /\ nth_error (adata (adat Z)) 0 = Some c /\
  member e u /\ member S v /\ v <> 0%R /\ ~ nan_itv c /\ ~ member c (u / v)%R.
Proof. exact arr_div_itv_x. Qed.
Print Assumptions C59_divide_by_scalar_interval_with_zero_refuted.

Example C59_case : Forall good (adata (adat exA)) /\ Forall good_operand (adata (op_arr exv)) /\ broadcast_shape (ashape (adat exA)) (ashape (op_arr exv)) [2; 2] /\
  consistent exA /\ good ex1 /\ ~ member ex1 0%R /\ Forall num_operand [ONum (PInt 2); ONum (PInt 3)].
Proof.
  split; [apply exA_ok|]. split; [repeat apply Forall_cons; try apply Forall_nil; first [exact ex1_good | exact ex2_good]|]. split; [apply bcast_iff; reflexivity|].
  split; [apply exA_ok|]. split; [exact ex1_good|]. split; [exact ex1_no0|]. repeat constructor; simpl; lia.
Qed.

(** ** C60 *)
Theorem C60_get_item : forall x key, awf (adat x) ->
  (forall idx, py_key (ashape (adat x)) key idx -> exists e, getitem x key = Ok e /\ aget (adat x) idx = Some e) /\
  ((forall idx, ~ py_key (ashape (adat x)) key idx) -> getitem x key = Err IndexError).
Proof. exact getitem_spec. Qed.
Print Assumptions C60_get_item.

Theorem C60_transpose : forall x, consistent x -> consistent (arr_T x) /\ shp (arr_T x) = rev (shp x) /\
  forall idx, in_bounds (shp x) idx -> aget (adat (arr_T x)) (rev idx) = aget (adat x) idx.
Proof. exact arr_T_spec. Qed.
Print Assumptions C60_transpose.

Theorem C60_transpose_involutive : forall x, consistent x -> arr_T (arr_T x) = x.
Proof. exact arr_T_T. Qed.
Print Assumptions C60_transpose_involutive.

Theorem C60_reshape : forall x s, consistent x ->
  (size s = size (shp x) -> exists y, arr_reshape x s = Ok y /\ consistent y /\ shp y = s /\ adata (adat y) = adata (adat x)) /\
  (size s <> size (shp x) -> arr_reshape x s = Err ValueError).
Proof. exact reshape_spec. Qed.
Print Assumptions C60_reshape.

Theorem C60_contains_means_some_element : forall x o, (adata (adat x) = [] -> arr_contains_scalar x o = Err UnboundLocalError) /\
  (adata (adat x) <> [] -> exists b, arr_contains_scalar x o = Ok b /\ (b = true <-> exists e, In e (adata (adat x)) /\ py_contains e o = true)).
Proof. exact arr_contains_scalar_spec. Qed.
Print Assumptions C60_contains_means_some_element.

(** So containment in an array is not containment in every element. *)
Theorem C60_contains_every_element_refuted : exists x o, consistent x /\ arr_contains_scalar x o = Ok true /\ exists e, In e (adata (adat x)) /\ py_contains e o = false.
Proof. exact contains_any_x. Qed.
Print Assumptions C60_contains_every_element_refuted.

Example C60_case : consistent exA /\ py_key (ashape (adat exA)) [1; -2]%Z [1; 0] /\ size [4] = size (shp exA).
Proof. split; [split; reflexivity|]. split; [|reflexivity]. constructor; [split; [lia|left; reflexivity]|]. constructor; [split; [lia|right; reflexivity]|]. constructor. Qed.
