import sys; sys.path.insert(0,'/root')
from mkpa import thm
o=[]
def w(x): o.append(x)
w('''(** Properties of construction, interval arrays and their helpers: C27-C31,
    C48-C51, C59, C60.  Each theorem is closed by the lemma that proves it. *)
From Coq Require Import ZArith Reals List Bool Arith Lia Lra.
From Flocq Require Import Core IEEE754.BinarySingleNaN.
From Verif Require Import Base PyNum Kernel Spec Expr XReal Arrays Construct SpecArray ArrayProofs ArrayMore ArrayMat ArrayItems ConstructProofs ConstructMore ConstructSys ConstructUtil KernelRefute ArrayRefute Props_Kernel.
Import ListNotations.
Open Scope R_scope.
Open Scope nat_scope.

(** A concrete 2x2 array and vectors. *)
Definition exA : aitv := array_interval (mkarr [2; 2] [ex1; ex2; ex2; ex1]).
Definition exv : aitv := array_interval (mkarr [2] [ex1; ex2]).
Definition exd : itv := mkitv Classical (PFlt (fl 3 (-1))) (PFlt (fl 5 0)).
Definition exw : aitv := array_interval (mkarr [2] [exd; exd]).
Lemma exA_ok : consistent exA /\\ Forall good (adata (adat exA)) /\\ shp exA = [2; 2].
Proof. split; [split; reflexivity|]. split; [|reflexivity]. repeat apply Forall_cons; try apply Forall_nil; first [exact ex1_good | exact ex2_good]. Qed.
Lemma exv_ok : consistent exv /\\ Forall good (adata (adat exv)) /\\ shp exv = [2].
Proof. split; [split; reflexivity|]. split; [|reflexivity]. constructor; [exact ex1_good|]. constructor; [exact ex2_good|constructor]. Qed.

(** ** C27 *)''')
w(thm('C27_sorted_construction','single_sorted'))
w(thm('C27_unsorted_construction','single_unsorted'))
w('(** A midpoint-radius form with finite doubles contains the midpoint; its\n    endpoints are the midpoint minus/plus the radius, rounded in the current mode. *)')
w(thm('C27_midrad_construction','single_midrad').replace('0 <= B2R r','(0 <= B2R r)%R').replace('B2R c - B2R r)','B2R c - B2R r)%R').replace('B2R c + B2R r)','B2R c + B2R r)%R'))
w(thm('C27_midrad_rejects_negative_radius','single_midrad_neg'))
w(thm('C27_two_arrays','interval2_arrays'))
w(thm('C27_array_of_pairs','interval1_pairs'))
w('(** What fails: the midpoint-radius form need not contain the points within the\n    radius, and [Interval(c)] of a single number raises TypeError. *)')
w(thm('C27_midrad_encloses_refuted','midrad_x').replace('0 <= B2R r','(0 <= B2R r)%R').replace('Rabs (x - B2R c) <= B2R r','(Rabs (x - B2R c) <= B2R r)%R'))
w(thm('C27_single_number_raises','interval_number_x'))
w('''Definition ex_nested : nested pynum := NList [NList [NLeaf (PInt 1); NLeaf (PFlt (fl 5 (-1)))]; NList [NLeaf (PInt 7); NLeaf (PInt (-3))]].
Lemma ex_nested_regular : regular [2; 2] ex_nested.
Proof.
  assert (P : forall a b : pynum, regular [2] (NList [NLeaf a; NLeaf b])) by (intros a b; apply (reg_list [] [NLeaf a; NLeaf b]); [discriminate | repeat constructor]).
  apply (reg_list [2] [_; _]); [discriminate|]. repeat constructor; apply P.
Qed.
Example C27_case : regular ([2] ++ [2]) ex_nested /\\ Forall medium_num (leaves ex_nested) /\\
  is_finite (fl 5 (-1)) = true /\\ num_le (PInt 0) (PInt (-3)) = false.
Proof. split; [exact ex_nested_regular|]. split; [repeat constructor; simpl; lia|]. split; vm_compute; reflexivity. Qed.

(** ** C28 *)''')
w(thm('C28_vertex_rows','vertex_spec'))
w(thm('C28_vertex_every_choice','vertex_all'))
w(thm('C28_choice_determines_row','bits_unique'))
w('''Example C28_case : consistent exw /\\ length (shp exw) = 1 /\\ adata (adat exw) <> [] /\\ Forall is_double (map lo (adata (adat exw))) /\\ Forall is_double (map hi (adata (adat exw))).
Proof. split; [split; reflexivity|]. split; [reflexivity|]. split; [discriminate|]. split; repeat constructor; eexists; reflexivity. Qed.

(** ** C29 *)''')
w(thm('C29_endpoint_arrays','arr_ends_exact'))
w(thm('C29_mag_array','mag_array'))
w(thm('C29_mig_array','mig_array'))
w('(** With ints and doubles mixed the dtype of the first element truncates the rest. *)')
w(thm('C29_mixed_types_refuted','mixed_x'))
w('''Example C29_case : uniform (map lo (adata (adat exw))) /\\ adata (adat exw) <> [].
Proof. split; [|discriminate]. left. repeat constructor; eexists; reflexivity. Qed.

(** ** C30 *)''')
for n,l in [('C30_matrix_vector','matvec'),('C30_vector_matrix','vecmat'),('C30_vector_vector','vecvec'),('C30_matrix_matrix','matmat')]:
    w(thm(n,l).replace('A i k * v k','(A i k * v k)%R').replace('v k * A k j','(v k * A k j)%R').replace('v k * w k','(v k * w k)%R').replace('A i k * B k j','(A i k * B k j)%R'))
w('''Example C30_case : product_ok (op_arr exA) (op_arr exv) /\\ ashape (op_arr exA) = [2; 2] /\\ ashape (op_arr exv) = [2].
Proof.
  split; [|split; reflexivity]. split; [reflexivity|]. split; [reflexivity|].
  split; [repeat apply Forall_cons; try apply Forall_nil; first [exact ex1_good | exact ex2_good]|]. split; [repeat apply Forall_cons; try apply Forall_nil; first [exact ex1_good | exact ex2_good]|].
  left. repeat constructor.
Qed.

(** ** C31 *)''')
w(thm('C31_intersection','intersect_spec').replace('Rabs (x - y) < 1001 / 1000000000000000000','(Rabs (x - y) < 1001 / 1000000000000000000)%R'))
w(thm('C31_arrays','intersection_arrays'))
w(thm('C31_array_and_scalar','intersection_scalar'))
w('(** A tiny gap counts as overlap. *)')
w(thm('C31_disjoint_gives_nan_refuted','gap_x'))
w('''Example C31_case : good ex1 /\\ good ex2 /\\ size (shp exv) <> 0 /\\ ~ (exists r, member ex1 r /\\ member ex2 r).
Proof.
  split; [exact ex1_good|]. split; [exact ex2_good|]. split; [discriminate|]. intros (r & H1 & H2).
  apply member_x in H1. apply member_x in H2. destruct ex1_x as [E1 _], ex2_x as [_ E2]. rewrite E1 in H1. rewrite E2 in H2. simpl in *. lra.
Qed.

(** ** C48 *)''')
for n,l in [('C48_zeros','zeros_spec'),('C48_full','full_spec'),('C48_eye','eye_spec'),('C48_diag_of_vector','diag_vector'),('C48_diag_of_matrix','diag_matrix'),('C48_neumaier_system','neumaier_spec'),('C48_shary_system','shary_spec'),('C48_shary_rejects','shary_bad'),('C48_toft_system','toft_spec')]:
    w(thm(n,l))
w('''Example C48_case : param (PFlt (fl 1 (-2))) /\\ param (PFlt (fl 3 (-2))) /\\ num_le (PInt 0) (PFlt (fl 1 (-2))) = true /\\
  num_le (PFlt (fl 1 (-2))) (PFlt (fl 3 (-2))) = true /\\ num_le (PFlt (fl 3 (-2))) (PInt 1) = true /\\ (3 * 3 <> 0) /\\ small_num (PInt 4) /\\ num_lt (PInt 3) (PInt 2) = false.
Proof. repeat split; vm_compute; intuition congruence. Qed.

(** ** C49 *)''')
w(thm('C49_asinterval','asinterval_spec'))
w(thm('C49_idempotent','asinterval_idem'))
w('''Definition ex_ops : nested operand := NList [NLeaf (OItv ex1); NLeaf (ONum (PInt 4))].
Example C49_case : regular [2] ex_ops /\\ Forall medium_operand (leaves ex_ops).
Proof. split; [apply (reg_list [] [NLeaf (OItv ex1); NLeaf (ONum (PInt 4))]); [discriminate|repeat constructor]|]. constructor; [exact I|]. constructor; [|constructor]. split; [simpl; lia|reflexivity]. Qed.

(** ** C50 *)''')
w(thm('C50_history_keeps_shape_consistent','history_consistent'))
w(thm('C50_set_item','setitem_spec'))
w(thm('C50_delete_first_axis','delitem_first'))
w(thm('C50_delete_tuple','delitem_tuple'))
w(thm('C50_in_place_consistent_iff_not_enlarging','iop_consistent'))
w('(** In-place addition of a larger array leaves the old shape. *)')
w(thm('C50_in_place_broadcast_refuted','stale_x'))
w('''Example C50_case : consistent exv /\\ Forall scalar_update [USet [1%Z] (ONum (PInt 5)); UDel (KInt 0); UOp OpAdd (scalar (ONum (PInt 1)))] /\\
  exists y, history mode_NE exv [USet [1%Z] (ONum (PInt 5)); UDel (KInt 0)] y /\\ shp y = [1].
Proof.
  split; [split; reflexivity|]. split; [repeat constructor|]. eexists. split.
  - eapply h_set; [reflexivity|]. eapply h_del; [reflexivity|]. apply h_nil.
  - reflexivity.
Qed.

(** ** C51 *)''')
w(thm('C51_sign_is_hull_of_signs','sign_spec'))
w(thm('C51_comparison_matrix','compmat_spec').replace('(- num_val v)','(- num_val v)%R'))
w(thm('C51_utilities_of_numbers','u_number').replace('num_val v = 0','num_val v = 0%R'))
w('(** [wid] of a number is the number itself, not 0. *)')
w(thm('C51_wid_of_number_refuted','wid_number_x').replace('num_val v <> 0','num_val v <> 0%R'))
w('''Example C51_case : (exists r, member ex2 r) /\\ consistent exA /\\ Forall small_itv (adata (adat exA)) /\\ Forall proper_fin (adata (adat exA)).
Proof.
  split; [exists 1%R; apply ex2_member; lra|]. split; [split; reflexivity|].
  split; repeat apply Forall_cons; try apply Forall_nil; first [exact ex1_small | exact ex2_small | exact ex1_proper | exact ex2_proper].
Qed.

(** ** C59 *)''')
w(thm('C59_elementwise_with_broadcasting','arr_op_elementwise'))
w(thm('C59_array_operations_enclose','arr_op_encl').replace('v <> 0','v <> 0%R'))
w(thm('C59_reflected_operations_enclose','arr_rop_encl').replace('u <> 0','u <> 0%R'))
w(thm('C59_numpy_array_left_encloses','np_right_encl').replace('u <> 0','u <> 0%R'))
w(thm('C59_scalar_interval_encloses','arr_op_itv_encl').replace('member S 0','member S 0%R').replace('v <> 0','v <> 0%R'))
w('(** With a scalar interval divisor that contains 0 nothing is raised and the\n    quotient is wrong. *)')
w(thm('C59_divide_by_scalar_interval_with_zero_refuted','arr_div_itv_x').replace('member S 0 ','member S 0%R ').replace('v <> 0','v <> 0%R').replace('(u / v)','(u / v)%R'))
w('''Example C59_case : Forall good (adata (adat exA)) /\\ Forall good_operand (adata (op_arr exv)) /\\ broadcast_shape (ashape (adat exA)) (ashape (op_arr exv)) [2; 2] /\\
  consistent exA /\\ good ex1 /\\ ~ member ex1 0%R /\\ Forall num_operand [ONum (PInt 2); ONum (PInt 3)].
Proof.
  split; [apply exA_ok|]. split; [repeat apply Forall_cons; try apply Forall_nil; first [exact ex1_good | exact ex2_good]|]. split; [apply bcast_iff; reflexivity|].
  split; [apply exA_ok|]. split; [exact ex1_good|]. split; [exact ex1_no0|]. repeat constructor; simpl; lia.
Qed.

(** ** C60 *)''')
w(thm('C60_get_item','getitem_spec'))
w(thm('C60_transpose','arr_T_spec'))
w(thm('C60_transpose_involutive','arr_T_T'))
w(thm('C60_reshape','reshape_spec'))
w(thm('C60_contains_means_some_element','arr_contains_scalar_spec'))
w('(** So containment in an array is not containment in every element. *)')
w(thm('C60_contains_every_element_refuted','contains_any_x'))
w('''Example C60_case : consistent exA /\\ py_key (ashape (adat exA)) [1; -2]%Z [1; 0] /\\ size [4] = size (shp exA).
Proof. split; [split; reflexivity|]. split; [|reflexivity]. constructor; [split; [lia|left; reflexivity]|]. constructor; [split; [lia|right; reflexivity]|]. constructor. Qed.''')
print('\n'.join(o))
