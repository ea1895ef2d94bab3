(** Array operations, construction and the solvers leave the rounding mode as
    they found it. *)
From Coq Require Import ZArith List Bool Arith.
From Verif Require Import Base PyNum Kernel Expr Arrays Construct ArrayCmp ArrayElem Solvers RecogFl HbrFl RohnFl UssFl PssFl.
From Verif Require Import KernelProofs ExprProofs ArrayProofs ArrayMat ArrayMore ArrayCmpProofs ArrayElemProofs ArraySum ConstructProofs ConstructMore ConstructSys SolversProofs GSProofs NewtonProofs PssFlRest PssFlBoth.
Import ListNotations.

Ltac km := repeat first
  [ progress cbv zeta | apply keeps_ret | apply keeps_raise | apply keeps_prim | apply keeps_lift | apply keeps_with
  | apply keeps_py_op | apply (keeps_py_op OpAdd) | apply (keeps_py_op OpSub) | apply (keeps_py_op OpMul) | apply (keeps_py_op OpDiv)
  | apply keeps_single | apply keeps_intersect | apply keeps_mid | apply keeps_wid | apply keeps_rad | apply keeps_mig | apply keeps_mag
  | apply keeps_mapM; intro | apply keeps_lift_arr | apply keeps_vectorize; intro | apply keeps_vectorize_num; intro | apply keeps_binop_arr; intros
  | apply keeps_matmul | apply keeps_as_double | apply keeps_add | apply keeps_mul | apply keeps_radd | apply keeps_rmul
  | assumption | apply keeps_bind; [|intro]
  | match goal with
    | |- keeps_mode (match ?x with _ => _ end) => destruct x
    | |- keeps_mode (if ?b then _ else _) => destruct b
    end ].

Lemma km_amapM {A B} (f : A -> M B) a : (forall x, keeps_mode (f x)) -> keeps_mode (amapM f a).
Proof. intro H. unfold amapM. km. apply H. Qed.
Lemma km_radd_any s o : keeps_mode (radd_any s o). Proof. unfold radd_any. km. Qed.
Lemma km_rmul_any s o : keeps_mode (rmul_any s o). Proof. unfold rmul_any. km. Qed.
Lemma km_arr_op o x y : keeps_mode (arr_op o x y). Proof. unfold arr_op. km. Qed.
Lemma km_arr_rop o x y : keeps_mode (arr_rop o x y). Proof. unfold arr_rop. destruct o; km; apply km_arr_op. Qed.
Lemma km_arr_op_itv o x s : keeps_mode (arr_op_itv o x s).
Proof. unfold arr_op_itv. destruct o; km; first [apply km_radd_any | apply km_rmul_any]. Qed.
Lemma km_arr_iop o x y : keeps_mode (arr_iop o x y). Proof. unfold arr_iop. km. Qed.
Lemma km_arr_ufunc o x y : keeps_mode (arr_ufunc o x y). Proof. unfold arr_ufunc. destruct o; km; apply km_arr_op. Qed.
Lemma km_arr_neg x : keeps_mode (arr_neg x). Proof. unfold arr_neg. apply keeps_lift_arr, km_amapM. intro. km. Qed.
Lemma km_ends x : keeps_mode (arr_a x) /\ keeps_mode (arr_b x) /\ keeps_mode (arr_mid x) /\ keeps_mode (arr_wid x) /\ keeps_mode (arr_rad x) /\ keeps_mode (arr_mig x) /\ keeps_mode (arr_mag x).
Proof. repeat split; unfold arr_a, arr_b, arr_mid, arr_wid, arr_rad, arr_mig, arr_mag; km. Qed.
Lemma km_vertex x : keeps_mode (vertex x).
Proof. unfold vertex. destruct (km_ends x) as (Ha & Hb & _). km. Qed.
Lemma km_arr_pow L x n : keeps_mode (arr_pow L x n).
Proof. unfold arr_pow. km. apply keeps_pow. Qed.
Lemma km_arr_elem L f x : keeps_mode (arr_elem L f x).
Proof. unfold arr_elem, arr_map. destruct f; [| | | | | apply keeps_raise]; apply keeps_lift_arr, keeps_vectorize; intro; apply keeps_elem. Qed.
Lemma km_np_elem L f r : keeps_mode (np_elem L f r).
Proof. unfold np_elem. destruct r; (apply keeps_bind; [first [apply keeps_elem | apply km_arr_elem] | intro; apply keeps_ret]). Qed.
Lemma km_iv_elem L f a : keeps_mode (iv_elem L f a).
Proof. unfold iv_elem. apply keeps_bind; [apply keeps_asinterval | intro; apply km_np_elem]. Qed.
Lemma km_arr_cmp c x y : keeps_mode (arr_cmp c x y). Proof. unfold arr_cmp. km. Qed.
Lemma km_sum_from l : forall a, keeps_mode (ArrayCmp.sum_from a l).
Proof. induction l as [|e l IH]; intro a; cbn [ArrayCmp.sum_from]; km; [apply keeps_oadd | apply IH]. Qed.
Lemma km_arr_sum_nd x : keeps_mode (arr_sum_nd x).
Proof. unfold arr_sum_nd, arr_sum. km; try apply km_sum_from; apply keeps_sum_pieces. Qed.
Lemma km_interval2 a b s q : keeps_mode (interval2 a b s q).
Proof. unfold interval2. km; apply keeps_build. Qed.
Lemma km_intersection x y : keeps_mode (intersection x y).
Proof. unfold intersection. destruct x, y; km; apply keeps_vectorize2. Qed.
Lemma km_gs_bar n k A b x pre : keeps_mode (gs_bar n k A b x pre). Proof. apply keeps_gs_bar. Qed.

Lemma km_back n c : forall A b x, keeps_mode (gauss_back n c A b x).
Proof. induction c as [|c IH]; intros A b x; cbn [gauss_back]; km; [unfold gauss_back_row; km; apply keeps_py_sum | apply IH]. Qed.
Lemma km_gauss n A b : keeps_mode (gauss n A b).
Proof. unfold gauss. km; [apply keeps_gauss_forward | apply km_back]. Qed.
Lemma km_tab k n f old : (forall i, keeps_mode (f i)) -> keeps_mode (tab k n f old).
Proof. intro H. unfold tab. km. apply H. Qed.
Lemma km_tab2 k n f old : (forall i l, keeps_mode (f i l)) -> keeps_mode (tab2 k n f old).
Proof. intro H. unfold tab2. km. apply H. Qed.
Lemma km_gauss_seidel dist n A b x0 C h tol maxiter : keeps_mode (gauss_seidel dist n A b x0 C h tol maxiter).
Proof.
  unfold gauss_seidel. apply keeps_bind; [apply km_tab2; intros; apply keeps_mat_entry|]. intro.
  apply keeps_bind; [apply km_tab; intro; apply keeps_mat_entry|]. intro. destruct h; [|apply keeps_raise]. cbv zeta. apply keeps_gs_loop.
Qed.

Section User.
Variables (func J : itv -> M itv) (dist : itv -> itv -> pynum).
Hypothesis (Hf : forall X, keeps_mode (func X)) (HJ : forall X, keeps_mode (J X)).
Lemma km_newton op fuel tol x0 : (forall X c, keeps_mode (op X c)) -> keeps_mode (newton func dist op fuel tol x0).
Proof. intro Ho. unfold newton. km; try apply Hf; now apply keeps_newton_loop. Qed.
Lemma km_kraw X c : keeps_mode (kraw_op func J X c).
Proof. unfold kraw_op. km; try apply HJ; try apply Hf; apply keeps_slope. Qed.
Lemma km_hs X c : keeps_mode (hs_op func J X c).
Proof. unfold hs_op. km; try apply HJ; try apply Hf; apply keeps_slope. Qed.
Lemma km_krawczyk x0 k tol : keeps_mode (krawczyk func J dist x0 k tol).
Proof. apply km_newton, km_kraw. Qed.
Lemma km_hansen x0 k tol : keeps_mode (hansen_sengupta func J dist x0 k tol).
Proof. apply km_newton, km_hs. Qed.
End User.
Lemma km_glob_loop func tol : (forall Y, keeps_mode (func Y)) -> forall fuel L, keeps_mode (glob_loop func fuel tol L).
Proof.
  intros Hf. induction fuel as [|f IH]; intros [|[Y k] rest]; cbn [glob_loop]; km; try apply Hf; apply IH.
Qed.
Lemma km_globopt func x0 tol k : (forall Y, keeps_mode (func Y)) -> keeps_mode (globopt func x0 tol k).
Proof. intro Hf. unfold globopt. km; try apply Hf. now apply km_glob_loop. Qed.

Lemma km_f_bin f x y : keeps_mode (f_bin f x y). Proof. unfold f_bin. km; try (unfold f_op; km). Qed.
Lemma km_f_of a : keeps_mode (f_of a). Proof. unfold f_of. apply km_amapM. intro. km. Qed.
Lemma km_f_matmul C X : keeps_mode (f_matmul_itv C X).
Proof. unfold f_matmul_itv. km; try (unfold entry_itv; km). Qed.
Lemma km_f_interval l r : keeps_mode (f_interval l r). Proof. unfold f_interval. km. Qed.
Lemma km_compmat A : keeps_mode (compmat A).
Proof. unfold compmat. destruct (km_ends A) as (_ & _ & _ & _ & _ & Hi & Ha). km. Qed.

Lemma km_rohn inv fdot A b tol k : keeps_mode (rohn_fl inv fdot A b tol k).
Proof.
  assert (HL : forall f n G g r e, keeps_mode (f_loop fdot f n tol G g r e)).
  { induction f as [|f IH]; intros; cbn [f_loop]; km; try apply km_f_bin; apply IH. }
  unfold rohn_fl. destruct (shp A) as [|m [|n [|? ?]]]; try apply keeps_raise. destruct (shp b) as [|l [|? ?]]; try apply keeps_raise.
  destruct (negb _); [apply keeps_raise|].
  repeat first [apply km_f_of | apply km_f_bin | apply km_f_matmul | apply km_f_interval | apply HL | apply keeps_lift | apply (km_ends _) | progress cbv zeta | apply keeps_bind; [|intro]].
Qed.
Lemma km_neumaier fsum A b y : keeps_mode (neumaier_fl fsum A b y).
Proof.
  unfold neumaier_fl. km; try apply km_f_of; try apply km_f_bin; try apply (km_ends _); try apply km_arr_ufunc; try apply km_rmul_any.
  all: try (unfold entry_itv; km).
Qed.
Lemma km_mat_vec A x : keeps_mode (mat_vec A x).
Proof. unfold mat_vec. km; try (unfold entry_itv; km). Qed.
Lemma km_tol A b x w : keeps_mode (tol_value_fl A b x w).
Proof. unfold tol_value_fl, tol_constituent_fl, np_sub, np_mul. km; try apply (km_ends _); try apply km_mat_vec; try apply km_arr_ufunc; unfold sub_, mul_, entry_itv; km. Qed.
Lemma km_uni A b x w : keeps_mode (uni_value_fl A b x w).
Proof. unfold uni_value_fl, uni_constituent_fl, np_sub, np_mul. km; try apply (km_ends _); try apply km_mat_vec; try apply km_arr_ufunc; unfold sub_, mul_, entry_itv; km. Qed.
Lemma km_uss fdot A b x w : keeps_mode (uss_value_fl fdot A b x w).
Proof. unfold uss_value_fl, uss_constituent_fl, np_mul. km; try apply (km_ends _); try apply km_f_of; try apply km_f_bin; unfold mul_; km. Qed.
Lemma km_hbr inv fdot A b : keeps_mode (hbr_fl inv fdot A b).
Proof.
  unfold hbr_fl, hbr_ab. km; try apply (km_ends _); try apply km_f_of; try apply km_f_bin; try apply km_f_matmul; try apply km_f_interval; try apply km_compmat.
  all: unfold entry_itv, f_op, sub_, add_, mul_, div_; km.
Qed.
Lemma km_pss eo1 eo2 m n nu A b V1 V2 tol k : keeps_mode (pss_fl eo1 eo2 m n nu A b V1 V2 tol k).
Proof.
  unfold pss_fl. repeat first [apply keeps_scale | apply keeps_algo | apply keeps_single | apply keeps_bind; [|intro]]. unfold mul_. km.
Qed.
Lemma km_systems n t i s N al be r R : keeps_mode (neumaier_system n t i s) /\ keeps_mode (shary_system n N al be) /\ keeps_mode (toft_system n r R).
Proof.
  repeat split.
  - unfold neumaier_system. km; try apply keeps_interval1; try apply keeps_zeros; apply km_arr_op_itv.
  - unfold shary_system. km; try apply keeps_zeros; apply km_arr_op_itv.
  - unfold toft_system, toft_a. km; try apply keeps_zeros; apply km_arr_op_itv.
Qed.

Lemma arrays_restore L m :
  (forall o x y, snd (arr_op o x y m) = m) /\ (forall o x s, snd (arr_op_itv o x s m) = m) /\ (forall o y x, snd (arr_rop o y x m) = m) /\
  (forall o x y, snd (arr_iop o x y m) = m) /\ (forall o x y, snd (np_arr_left o x y m) = m) /\ (forall o y x, snd (np_arr_right o y x m) = m) /\
  (forall x y, snd (matmul x y m) = m) /\ (forall x n, snd (arr_pow L x n m) = m) /\ (forall f a, snd (iv_elem L f a m) = m) /\
  (forall f r, snd (np_elem L f r m) = m) /\ (forall c x y, snd (arr_cmp c x y m) = m) /\ (forall x, snd (arr_sum_nd x m) = m) /\
  (forall x, snd (arr_neg x m) = m) /\ (forall x, snd (arr_a x m) = m) /\ (forall x, snd (arr_b x m) = m) /\ (forall x, snd (arr_mid x m) = m) /\
  (forall x, snd (arr_wid x m) = m) /\ (forall x, snd (arr_rad x m) = m) /\ (forall x, snd (arr_mig x m) = m) /\ (forall x, snd (arr_mag x m) = m) /\
  (forall x, snd (vertex x m) = m) /\ (forall x, snd (compmat x m) = m) /\ (forall x y, snd (intersection x y m) = m) /\
  (forall a b s q, snd (interval2 a b s q m) = m) /\ (forall a s q, snd (interval1 a s q m) = m) /\ (forall a, snd (asinterval a m) = m) /\
  (forall n t i s, snd (neumaier_system n t i s m) = m) /\ (forall n N al be, snd (shary_system n N al be m) = m) /\ (forall n r R, snd (toft_system n r R m) = m).
Proof.
  repeat split; intros.
  - apply km_arr_op. - apply km_arr_op_itv. - apply km_arr_rop. - apply km_arr_iop. - apply km_arr_ufunc. - apply km_arr_ufunc.
  - apply keeps_matmul. - apply km_arr_pow. - apply km_iv_elem. - apply km_np_elem. - apply km_arr_cmp. - apply km_arr_sum_nd.
  - apply km_arr_neg. - apply (km_ends x). - apply (km_ends x). - apply (km_ends x). - apply (km_ends x). - apply (km_ends x). - apply (km_ends x). - apply (km_ends x).
  - apply km_vertex. - apply km_compmat. - apply km_intersection. - apply km_interval2. - apply keeps_interval1. - apply ArrayElemProofs.keeps_asinterval.
  - apply (km_systems n t i s None (PInt 0) (PInt 0) (PInt 0) (PInt 0)). - apply (km_systems n (PInt 0) None None N al be (PInt 0) (PInt 0)).
  - apply (km_systems n (PInt 0) None None None (PInt 0) (PInt 0) r R).
Qed.
Lemma solvers_restore m :
  (forall n A b, snd (gauss n A b m) = m) /\
  (forall dist n A b x0 C h tol k, snd (gauss_seidel dist n A b x0 C h tol k m) = m) /\
  (forall func J dist x0 k tol, (forall X m, snd (func X m) = m) -> (forall X m, snd (J X m) = m) ->
     snd (krawczyk func J dist x0 k tol m) = m /\ snd (hansen_sengupta func J dist x0 k tol m) = m) /\
  (forall func x0 tol k, (forall Y m, snd (func Y m) = m) -> snd (globopt func x0 tol k m) = m) /\
  (forall inv fdot A b, snd (hbr_fl inv fdot A b m) = m) /\
  (forall inv fdot A b tol k, snd (rohn_fl inv fdot A b tol k m) = m) /\
  (forall fsum A b y, snd (neumaier_fl fsum A b y m) = m) /\
  (forall eo1 eo2 r n nu A b V1 V2 tol k, snd (pss_fl eo1 eo2 r n nu A b V1 V2 tol k m) = m) /\
  (forall A b x w, snd (tol_value_fl A b x w m) = m) /\ (forall A b x w, snd (uni_value_fl A b x w m) = m) /\
  (forall fdot A b x w, snd (uss_value_fl fdot A b x w m) = m).
Proof.
  repeat split; intros.
  - apply km_gauss. - apply km_gauss_seidel. - now apply km_krawczyk. - now apply km_hansen. - now apply km_globopt. - apply km_hbr.
  - apply km_rohn. - apply km_neumaier. - apply km_pss. - apply km_tol. - apply km_uni. - apply km_uss.
Qed.
