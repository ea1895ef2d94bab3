(** Properties of comparison, iteration, sum, powers and elementary functions of
    interval arrays: C71-C73.  Each theorem is closed by the lemma that proves it. *)
From Coq Require Import ZArith Reals List Bool Arith Lia Lra.
From Flocq Require Import Core IEEE754.BinarySingleNaN.
From Verif Require Import Base PyNum Kernel Spec SpecElem Expr XReal Arrays Construct SpecArray ArrayCmp SpecArrayCmp ArrayCmpProofs
  ArrayElem SpecArrayElem ArrayElemProofs PerfectLibm Props_Kernel Props_Elem Props_Arrays ArraySum.
Import ListNotations.
Open Scope R_scope.

(** ** C71 *)
Theorem C71_elementwise : forall c x y m,
  (forall Z, returns (arr_cmp c x y) m Z -> exists s, broadcast_shape (ashape (adat x)) (ashape y) s /\ ashape Z = s /\ awf Z /\
     forall idx, in_bounds s idx -> exists e b, reads (adat x) idx e /\ reads y idx b /\ aget Z idx = Some (py_cmp c e b)) /\
  (awf (adat x) -> awf y -> (exists s, broadcast_shape (ashape (adat x)) (ashape y) s) -> exists Z, returns (arr_cmp c x y) m Z) /\
  ((~ exists s, broadcast_shape (ashape (adat x)) (ashape y) s) -> raises (arr_cmp c x y) m ValueError).
Proof. exact cmp_elementwise. Qed.
Print Assumptions C71_elementwise.

Theorem C71_meaning : forall c x y m Z, Forall finite_itv (adata (adat x)) -> Forall finite_operand (adata y) ->
  returns (arr_cmp c x y) m Z ->
  forall idx, in_bounds (ashape Z) idx -> exists e o b, reads (adat x) idx e /\ reads y idx o /\ aget Z idx = Some b /\ (b = true <-> compares c e o).
Proof. exact cmp_meaning_elementwise. Qed.
Print Assumptions C71_meaning.

(** Comparing the same array with a scalar interval, or with a numpy array on
    the left, never gives an answer. *)
Theorem C71_scalar_and_left_refuted : forall c x s y m, raises (arr_cmp_itv c x s) m NotImplementedError /\ raises (np_cmp_right c y x) m GenericException.
Proof. intros. split; reflexivity. Qed.
Print Assumptions C71_scalar_and_left_refuted.

Example C71_case : Forall finite_itv (adata (adat exA)) /\ Forall finite_operand (adata (op_arr exv)) /\
  returns (arr_cmp CLt exA (op_arr exv)) mode_NE (mkarr [2; 2]%nat [false; false; true; false]) /\
  returns (arr_cmp CLe exA (op_arr exv)) mode_NE (mkarr [2; 2]%nat [true; true; true; false]).
Proof.
  assert (F1 : finite_itv ex1) by (split; vm_compute; auto). assert (F2 : finite_itv ex2) by (split; vm_compute; auto).
  split; [repeat constructor; assumption|]. split; [repeat constructor; assumption|]. split; vm_compute; reflexivity.
Qed.

(** ** C72 *)
Theorem C72_iteration : forall x, consistent x -> forall n t, shp x = n :: t ->
  arr_len x = Ok n /\ exists l, arr_iter x = Ok l /\ length l = n /\
    forall i, (i < n)%nat -> exists p, nth_error l i = Some p /\ ashape p = t /\ awf p /\
      forall idx, in_bounds t idx -> aget p idx = aget (adat x) (i :: idx).
Proof. exact iter_pieces. Qed.
Print Assumptions C72_iteration.

Theorem C72_sum_encloses : forall x n m, consistent x -> shp x = [n] -> Forall good (adata (adat x)) ->
  (n = O -> returns (arr_sum x) m (ONum (PInt 0))) /\
  ((0 < n)%nat -> exists W, returns (arr_sum x) m (OItv W) /\ good W /\
     forall r : nat -> R, (forall k e, aget (adat x) [k] = Some e -> member e (r k)) -> member_or_nan W (Rsum n r)).
Proof. exact sum_encloses. Qed.
Print Assumptions C72_sum_encloses.

(** For two or more dimensions: a numpy array of the shape of a piece; each element is the
    [sum] of the vector of the elements at that index of all pieces, and so contains every
    sum of members. *)
Theorem C72_sum_of_pieces : forall x n t m, consistent x -> shp x = n :: t -> t <> [] -> Forall good (adata (adat x)) ->
  (n = O -> returns (arr_sum_nd x) m (SumNum (ONum (PInt 0)))) /\
  ((0 < n)%nat -> exists a, returns (arr_sum_nd x) m (SumArr a) /\ ashape a = t /\ awf a /\
     forall idx, in_bounds t idx -> exists W, aget a idx = Some (OItv W) /\ good W /\
       (forall v, consistent v -> shp v = [n] -> (forall k, (k < n)%nat -> aget (adat v) [k] = aget (adat x) (k :: idx)) -> returns (arr_sum v) m (OItv W)) /\
       forall r : nat -> R, (forall k e, aget (adat x) (k :: idx) = Some e -> member e (r k)) -> member_or_nan W (Rsum n r)).
Proof. exact sum_nd. Qed.
Print Assumptions C72_sum_of_pieces.

Example C72_case : consistent exv /\ shp exv = [2]%nat /\ Forall good (adata (adat exv)) /\ member ex1 2 /\ member ex2 1 /\ consistent exA /\ shp exA = [2; 2]%nat /\ Forall good (adata (adat exA)).
Proof.
  split; [exact (proj1 exv_ok)|]. split; [reflexivity|]. split; [exact (proj1 (proj2 exv_ok))|].
  split; [exact (proj1 (proj2 (proj2 C01_case)))|]. split; [apply ex2_member; lra|]. split; [exact (proj1 exA_ok)|]. split; [reflexivity | exact (proj1 (proj2 exA_ok))].
Qed.

(** ** C73 *)
Theorem C73_encloses : forall L f x m, consistent x -> adata (adat x) <> [] -> library_ok L f -> Forall (entry_ok f) (adata (adat x)) ->
  exists Z, returns (arr_elem L f x) m Z /\ consistent Z /\ shp Z = shp x /\
    forall idx X, aget (adat x) idx = Some X -> exists W, aget (adat Z) idx = Some W /\
      forall r, member X r -> defined_at f r -> member W (real_fun f r).
Proof. exact elem_array_encloses. Qed.
Print Assumptions C73_encloses.

Theorem C73_elementwise : forall L f x m Z, f <> FOther -> consistent x -> returns (arr_elem L f x) m Z ->
  consistent Z /\ shp Z = shp x /\
  forall idx e, aget (adat x) idx = Some e -> exists c, aget (adat Z) idx = Some c /\ returns (elem_itv L f e) m c.
Proof. exact elem_elementwise. Qed.
Print Assumptions C73_elementwise.

(** An exception is that of the first element that raises one. *)
Theorem C73_raises : forall L f x m ex, f <> FOther -> raises (arr_elem L f x) m ex ->
  (adata (adat x) = [] /\ ex = ValueError) \/
  exists pre e post, adata (adat x) = pre ++ e :: post /\ Forall (fun b => exists c, returns (elem_itv L f b) m c) pre /\ raises (elem_itv L f e) m ex.
Proof. exact elem_raises. Qed.
Print Assumptions C73_raises.

(** The functions of the package are numpy's after conversion of the argument. *)
Theorem C73_package_functions : forall L f m,
  (forall e, iv_elem L f (SItv e) m = np_elem L f (RItv e) m) /\ (forall x, iv_elem L f (SArr x) m = np_elem L f (RArr x) m) /\
  (forall a r, returns (asinterval a) m r -> iv_elem L f a m = np_elem L f r m) /\
  (forall a ex, raises (asinterval a) m ex -> raises (iv_elem L f a) m ex).
Proof. exact iv_elem_spec. Qed.
Print Assumptions C73_package_functions.

Theorem C73_numbers : forall L f c m, library_ok L f -> entry_ok f (mkitv Classical c c) -> finite_num c ->
  exists Z, returns (iv_elem L f (SNest (NLeaf (ONum c)))) m (RItv Z) /\ (defined_at f (num_val c) -> member Z (real_fun f (num_val c))).
Proof. exact iv_elem_number. Qed.
Print Assumptions C73_numbers.

Theorem C73_powers_elementwise : forall L x n m,
  (forall Z, returns (arr_pow L x n) m Z -> consistent Z /\ broadcast_shape (ashape (adat x)) (ashape n) (shp Z) /\
     forall idx, in_bounds (shp Z) idx -> exists e k c, reads (adat x) idx e /\ reads n idx k /\ returns (itv_pow L e k) m c /\ aget (adat Z) idx = Some c) /\
  ((~ exists s, broadcast_shape (ashape (adat x)) (ashape n) s) -> raises (arr_pow L x n) m ValueError).
Proof. exact pow_elementwise. Qed.
Print Assumptions C73_powers_elementwise.

(** Integer endpoints and exponents: the exact range, entry by entry. *)
Theorem C73_integer_powers : forall L x n m s, consistent x -> awf n -> broadcast_shape (ashape (adat x)) (ashape n) s -> size s <> 0%nat ->
  Forall (fun X => kd X = Classical /\ int_ends X) (adata (adat x)) -> Forall (fun k => exists j, k = PInt (Z.of_nat j)) (adata n) ->
  exists Z, returns (arr_pow L x n) m Z /\ consistent Z /\ shp Z = s /\
    forall idx, in_bounds s idx -> exists X j W, reads (adat x) idx X /\ reads n idx (PInt (Z.of_nat j)) /\ aget (adat Z) idx = Some W /\
      (forall r, member X r -> member W (r ^ j)) /\
      ((0 < j)%nat -> (exists r, member X r) ->
        (exists r, member X r /\ num_val (lo W) = r ^ j) /\ (exists r, member X r /\ num_val (hi W) = r ^ j)).
Proof. exact pow_array_int. Qed.
Print Assumptions C73_integer_powers.

Definition exi : aitv := array_interval (mkarr [2]%nat [ex4; mkitv Classical (PInt 1) (PInt 3)]).
Example C73_case : library_ok perfect_libm FSin /\ library_ok perfect_libm FSqrt /\ Forall (entry_ok FSin) (adata (adat (array_interval (mkarr [2]%nat [ex1; ex1])))) /\
  entry_ok FSqrt ex2 /\
  consistent exi /\ broadcast_shape (ashape (adat exi)) [1; 1]%nat [1; 2]%nat /\ Forall (fun X => kd X = Classical /\ int_ends X) (adata (adat exi)).
Proof.
  assert (E1 : entry_ok FSin ex1).
  { destruct C26_case as (_ & _ & P & A & B). split; [exact ex1_small|]. split; [exact P|]. split; [exact A | exact B]. }
  split; [exact perfect_sin|]. split; [exact (conj perfect_exp (conj perfect_log_dir perfect_log))|]. split; [constructor; [exact E1|]; constructor; [exact E1 | constructor]|].
  split. { split; [exact ex2_small|]. split; [reflexivity|]. split; [reflexivity|]. exists 1. split; [apply ex2_member|]; lra. }
  split; [split; reflexivity|]. split.
  { split; [reflexivity|]. intros i Hi. destruct i as [|[|i]]; cbn; [auto..|cbn in Hi; lia]. }
  constructor; [split; [reflexivity | exists (-2)%Z, 3%Z; auto]|]. constructor; [split; [reflexivity | exists 1%Z, 3%Z; auto]|]. constructor.
Qed.
