import sys; sys.path.insert(0,'/root')
from mkpa import thm
o=[]
def w(x): o.append(x)
w('''(** The regression models WILS and ISPAE over exact reals: C54, C55, C63, C64. *)
From Coq Require Import Reals ZArith List Bool Arith Lia Lra.
From Verif Require Import Exact Recog SpecExact ExactProofs Ralgb5 Models SpecModels WilsProofs IspaeProofs IspaeMore IspaeFit.
Import ListNotations.
Open Scope R_scope.

(** ** C54: weights *)''')
w(thm('C54_smoothing','smooth_closed'))
w(thm('C54_weights_kept','smooth_keep'))
w(thm('C54_weights_positive','smooth_pos'))
w(thm('C54_default_reproducible','fits_default'))
w(thm('C54_no_smoothing_reproducible','fits_keep'))
w(thm('C54_history','fits_given'))
w("(** The caller's array is overwritten, so a second fit uses other weights. *)")
w(thm('C54_caller_changed_refuted','fits_given_refuted'))
w('(** An integer array is truncated: unit weights become zero. *)')
w(thm('C54_integer_weights_refuted','smooth_int_zero'))
w('''Example C54_case : smooth (fun x => x) (1 / 2) 1 (fun i => match i with O => 2 | _ => 4 end) 1 = 5 / 2 /\\ to_int (IZR (-3)) = -3.
Proof. split; [simpl; lra | apply to_int_Z]. Qed.

(** ** C63: WILS *)''')
for a,b in [('tol_value','wils_tol_value'),('uni_value','wils_uni_value'),('tol_subgradient','wils_tol_subgradient'),('uss_subgradient_in_orthant','wils_uss_subgradient')]: w(thm('C63_'+a,b))
w('(** What fit returns. *)')
w(thm('C63_fit','wils_fit_spec'))
w(thm('C63_fit_recognizes','wils_tol_from'))
w(thm('C63_tol_predict','wils_tol_predict'))
w(thm('C63_uni_predict','wils_uni_predict'))
w("(** The 'l1' value is a sum: non-negative for every solution, but also elsewhere. *)")
w(thm('C63_l1_necessary','wils_l1_necessary'))
w(thm('C63_l1_sufficient_refuted','wils_l1_refuted'))
w('''Definition c63_A : imat := fun i j => match i, j with O, O => mkr 1 2 | O, _ => mkr 0 1 | _, O => mkr (-1) 1 | _, _ => mkr 1 1 end.
Definition c63_b : ivec := fun i => match i with O => mkr 0 4 | _ => mkr (-1) 3 end.
Example C63_case : proper_mat 2 2 c63_A /\\ positive 2 (fst (fit_weights (fun t => t) (1 / 2) 1 None)) /\\ tolerable 2 2 c63_A c63_b (fun _ => 1).
Proof.
  split; [intros i j _ _; unfold c63_A, proper; destruct i, j; simpl; lra|]. split; [intros i _; apply smooth_pos; intros; lra|].
  intros M H [|[|i]] Hi; try lia; unfold inI, times; simpl.
  - assert (H1 := H 0%nat 0%nat ltac:(lia) ltac:(lia)). assert (H2 := H 0%nat 1%nat ltac:(lia) ltac:(lia)). unfold inI, c63_A in *. simpl in *. lra.
  - assert (H1 := H 1%nat 0%nat ltac:(lia) ltac:(lia)). assert (H2 := H 1%nat 1%nat ltac:(lia) ltac:(lia)). unfold inI, c63_A in *. simpl in *. lra.
Qed.

(** ** C55: values of ISPAE *)''')
w('(** The bases. *)')
for a,b in [('monomials','monom_pow'),('chebyshev','chebyshev_cos'),('hermite','hermite_deriv'),('legendre','legendre_one'),('laguerre','laguerre_zero')]: w(thm('C55_'+a,b))
w(thm('C55_column_exact','column_range'))
w(thm('C55_column_inner','column_inner'))
w(thm('C55_roots_exist','roots_exist'))
w(thm('C55_row_exact','row_range'))
w(thm('C55_predict_encloses','predict_encloses'))
w(thm('C55_value_in_predict','value_in_predict'))
w(thm('C55_bias','bias_value'))
w('(** With Laguerre polynomials the bias column is zero: the bias has no effect. *)')
w(thm('C55_bias_laguerre_refuted','bias_laguerre'))
w('''Example C55_case : roots_ok Monom (map fst (iq_rows 0)) qroots /\\ basis_roots_ok Monom (map fst (iq_rows 0)) qroots /\\
  Forall (fun c => proper (snd c)) (iq_rows 0) /\\ exists Z, ispae_value Monom qroots [1; 1] (iq_rows 0) = Some Z /\\ rl Z = -1 / 4 /\\ rh Z = 2.
Proof.
  split; [exact (proj1 qroots_ok)|]. split; [exact (proj2 qroots_ok)|]. split; [exact (proj1 (iq_data 0%nat ltac:(lia)))|].
  rewrite iq_value by lra. eexists. split; [reflexivity|]. cbn [rl rh]. split; rr.
Qed.

(** ** C64: objectives and fits of ISPAE *)''')
w(thm('C64_tol_recognizes','ispae_tol_recognizes'))
w(thm('C64_uni_recognizes','ispae_uni_recognizes'))
w(thm('C64_fit','ispae_fit_spec'))
w(thm('C64_tol_fit','ispae_tol_fit'))
w('(** The predictions on the training data can leave the observed intervals. *)')
w(thm('C64_predict_refuted','predict_outside'))
w('(** The vector used by the optimizer is no subgradient in general. *)')
w(thm('C64_subgradient_refuted','ispae_gradient_refuted'))
w('''Example C64_case : data_ok Monom qroots 0 iq_rows /\\ fits_all Monom [1; 1] (iq_rows 0) (mkr (-1) 3) /\\ ~ fits_all Monom [1; 1] (iq_rows 0) (mkr 0 3) /\\ fits_some Monom [1; 1] (iq_rows 0) (mkr 0 3).
Proof.
  assert (V : forall x, additive (basis Monom) [1; 1] [2%nat] [x] = x + x * x) by (intro x; cbn [additive firstn combination]; rewrite !monom_pow; simpl; ring).
  split; [exact iq_data|]. split; [|split].
  - intros xs H. inversion H as [|? x ? xs' Hx Hxs]; subst. inversion Hxs; subst. change (map fst (iq_rows 0)) with [2%nat]. rewrite V. unfold inI in *. cbn [rl rh snd] in *. assert (Q := Rle_0_sqr (x + 1 / 2)). unfold Rsqr in Q. split; nra.
  - intro F. assert (Q := F [-1 / 2] ltac:(repeat constructor; unfold inI; simpl; lra)). change (map fst (iq_rows 0)) with [2%nat] in Q. rewrite V in Q. unfold inI in Q. cbn [rl rh] in Q. lra.
  - exists [1]. split; [repeat constructor; unfold inI; simpl; lra|]. change (map fst (iq_rows 0)) with [2%nat]. rewrite V. unfold inI. cbn [rl rh]. lra.
Qed.''')
open('/verif/rocq/theories/Props_Models.v','w').write('\n'.join(o))
