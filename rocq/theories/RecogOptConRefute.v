(** Runs of maximize in binary64 with a linear constraint. *)
From Coq Require Import ZArith Reals Lra Lia List Bool Floats.SpecFloat.
From Flocq Require Import Core IEEE754.BinarySingleNaN.
From Verif Require Import Base PyNum Kernel Spec Expr Arrays Construct SpecArray XReal XArith KernelProofs KernelAlg KernelRefute Witness ArrayProofs ArrayMore ArrayMat
  RecogFl SpecRecogFl RecogFlProofs RecogFlCor RecogFlRefute HbrFl RohnFl UssFl SpecUssFl UssFlProofs UssFlRefute Ralgb5 RecogOpt SpecRecogOpt RecogOptRefute RecogOptCon SpecRecogOptCon.
Import ListNotations.
Open Scope R_scope.

(** The constraint x <= 1. *)
Definition at_most_one : list (list flt * flt) := [([f1], f1)].
Definition f_ten : flt := fl 10 0.
Definition outside (x : list flt) (v : flt) : bool :=
  match x with [y] => inside (fneg f_big) y f_big && flt_ltb f1 y && flt_leb f0 v | _ => false end.
Lemma four_ok l y : (0 <= l <= 4)%Z -> is_finite y = true -> B2R (fneg f_big) <= B2R y <= B2R f_big ->
  system 1 1 (one_eq (PInt 1)) (one_rhs (PInt l) (PInt 4)) (point [y]) /\ moderate (one_eq (PInt 1)) (one_rhs (PInt l) (PInt 4)) (point [y]).
Proof.
  intros L F B. change (point [y]) with (one_pt (PFlt y)). rewrite b_big, b_nbig in B. assert (L1 : 0 <= IZR l <= 4) by (split; apply IZR_le; lia). split.
  - apply one_system; try exact I; try reflexivity; try (simpl; lia); [cbn [num_val]; lra | exact F].
  - apply one_moderate; try exact I; try (simpl; lia); cbn [num_val]; apply Rabs_le; lra.
Qed.
(** The automatic coefficient of this system and this constraint is 1. *)
Lemma con_outside : exists A b x0 x v, tol_maximize_con l_dot in_turn f1 at_most_one seq_dot flt_vops (default_params flt_vops) A b (np_ones 1) x0 = (x, v) /\
  system 1 1 A b (point x) /\ moderate A b (point x) /\ holds l_dot at_most_one x0 /\ flt_leb f0 v = true /\ exists y, x = [y] /\ 1 < B2R y.
Proof.
  destruct (ran (tol_maximize_con l_dot in_turn f1 at_most_one seq_dot flt_vops (default_params flt_vops) (one_eq (PInt 1)) (one_rhs (PInt 0) (PInt 4)) (np_ones 1) [f_half]) outside) as (x & v & E & T); [vm_compute; reflexivity|].
  exists (one_eq (PInt 1)), (one_rhs (PInt 0) (PInt 4)), [f_half], x, v. split; [exact E|]. destruct x as [|y [|]]; [discriminate T| |discriminate T]. unfold outside in T.
  apply andb_prop in T. destruct T as [T T3]. apply andb_prop in T. destruct T as [T1 T2]. apply inside_R in T1; [|vm_compute; reflexivity|vm_compute; reflexivity].
  destruct (four_ok 0 y ltac:(lia) (proj1 T1) (proj2 T1)) as (P1 & P2). split; [exact P1|]. split; [exact P2|].
  split. { constructor; [|constructor]. vm_compute. reflexivity. }
  split; [exact T3|]. exists y. split; [reflexivity|]. rewrite flt_ltb_x, (proj1 (is_finite_x y) (proj1 T1)) in T2.
  assert (E1 : xflt f1 = XFin 1). { assert (F : is_finite f1 = true) by (vm_compute; reflexivity). rewrite (proj1 (is_finite_x f1) F). f_equal. unfold f1. rewrite (B2R_sf _ false 4503599627370496 (-52)) by (vm_compute; reflexivity). feval. lra. }
  rewrite E1 in T2. now apply xltb_fin in T2.
Qed.
(** Runs that end at a point satisfying the constraint. *)
Definition kept (neg : bool) (x : list flt) (v : flt) : bool :=
  match x with [y] => inside (fneg f_big) y f_big && negb (beyond l_dot [y] ([f1], f1)) && (if neg then flt_ltb v f0 else flt_leb f0 v) | _ => false end.
Lemma kept_ok neg l x v : (0 <= l <= 4)%Z -> kept neg x v = true ->
  system 1 1 (one_eq (PInt 1)) (one_rhs (PInt l) (PInt 4)) (point x) /\ moderate (one_eq (PInt 1)) (one_rhs (PInt l) (PInt 4)) (point x) /\
  holds l_dot at_most_one x /\ (if neg then flt_ltb v f0 else flt_leb f0 v) = true.
Proof.
  intros L T. destruct x as [|y [|]]; [discriminate T| |discriminate T]. unfold kept in T.
  apply andb_prop in T. destruct T as [T T3]. apply andb_prop in T. destruct T as [T1 T2]. apply inside_R in T1; [|vm_compute; reflexivity|vm_compute; reflexivity].
  destruct (four_ok l y L (proj1 T1) (proj2 T1)) as (P1 & P2). split; [exact P1|]. split; [exact P2|]. split; [|exact T3]. constructor; [|constructor]. now apply negb_true_iff.
Qed.
