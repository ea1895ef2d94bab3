(** C06 for arrays, constructors and solvers. *)
From Coq Require Import ZArith List Bool.
From Verif Require Import Base PyNum Kernel Expr Arrays Construct ArrayCmp ArrayElem Solvers RecogFl HbrFl RohnFl UssFl PssFl RoundMode.

Theorem C06_arrays_restore_rounding_mode : forall L m,
  (forall o x y, snd (arr_op o x y m) = m) /\ (forall o x s, snd (arr_op_itv o x s m) = m) /\ (forall o y x, snd (arr_rop o y x m) = m) /\
  (forall o x y, snd (arr_iop o x y m) = m) /\ (forall o x y, snd (np_arr_left o x y m) = m) /\ (forall o y x, snd (np_arr_right o y x m) = m) /\
  (forall x y, snd (matmul x y m) = m) /\ (forall x n, snd (arr_pow L x n m) = m) /\ (forall f a, snd (iv_elem L f a m) = m) /\
  (forall f r, snd (np_elem L f r m) = m) /\ (forall c x y, snd (arr_cmp c x y m) = m) /\ (forall x, snd (arr_sum_nd x m) = m) /\
  (forall x, snd (arr_neg x m) = m) /\ (forall x, snd (arr_a x m) = m) /\ (forall x, snd (arr_b x m) = m) /\ (forall x, snd (arr_mid x m) = m) /\
  (forall x, snd (arr_wid x m) = m) /\ (forall x, snd (arr_rad x m) = m) /\ (forall x, snd (arr_mig x m) = m) /\ (forall x, snd (arr_mag x m) = m) /\
  (forall x, snd (vertex x m) = m) /\ (forall x, snd (compmat x m) = m) /\ (forall x y, snd (intersection x y m) = m) /\
  (forall a b s q, snd (interval2 a b s q m) = m) /\ (forall a s q, snd (interval1 a s q m) = m) /\ (forall a, snd (asinterval a m) = m) /\
  (forall n t i s, snd (neumaier_system n t i s m) = m) /\ (forall n N al be, snd (shary_system n N al be m) = m) /\ (forall n r R, snd (toft_system n r R m) = m).
Proof. exact arrays_restore. Qed.
Print Assumptions C06_arrays_restore_rounding_mode.

(** Krawczyk, Hansen-Sengupta and globopt call functions of the user, which must restore the mode themselves. *)
Theorem C06_solvers_restore_rounding_mode : forall m,
  (forall n A b, snd (gauss n A b m) = m) /\
  (forall dist n A b x0 C h tol k, snd (gauss_seidel dist n A b x0 C h tol k m) = m) /\
  (forall func J dist x0 k tol, (forall X m, snd (func X m) = m) -> (forall X m, snd (J X m) = m) ->
     snd (krawczyk func J dist x0 k tol m) = m /\ snd (hansen_sengupta func J dist x0 k tol m) = m) /\
  (forall func x0 tol k, (forall Y m, snd (func Y m) = m) -> snd (globopt func x0 tol k m) = m) /\
  (forall inv fdot A b, snd (hbr_fl inv fdot A b m) = m) /\
  (forall inv fdot A b tol k, snd (rohn_fl inv fdot A b tol k m) = m) /\
  (forall fsum A b y, snd (neumaier_fl fsum A b y m) = m) /\
  (forall eo1 eo2 r n nu A b V1 V2 tol k, snd (pss_fl eo1 eo2 r n nu A b V1 V2 tol k m) = m) /\
  (forall A b x w, snd (tol_value_fl A b x w m) = m) /\ (forall A b x w, snd (uni_value_fl A b x w m) = m) /\
  (forall fdot A b x w, snd (uss_value_fl fdot A b x w m) = m).
Proof. exact solvers_restore. Qed.
Print Assumptions C06_solvers_restore_rounding_mode.

(** The hypothesis on the functions of the user is met by what is written with the operators. *)
Example C06_solvers_case : (forall X m, snd ((fun X => py_op OpSub (OItv X) (ONum (PInt 2))) X m) = m) /\
  (forall Y m, snd ((fun Y => match Y with X :: _ => py_op OpMul (OItv X) (OItv X) | nil => mraise IndexError end) Y m) = m).
Proof. split; [intros X m; apply ExprProofs.keeps_py_op | intros [|X Y] m; [reflexivity | apply ExprProofs.keeps_py_op]]. Qed.
