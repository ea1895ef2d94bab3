import sys; sys.path.insert(0,'/root')
from mkpa import thm
o=[]
def w(x): o.append(x)
w('''(** Rohn, Hansen-Bliek-Rohn, Neumaier and ChebNorm over exact reals:
    C42, C43, C44, C53, C56. *)
From Coq Require Import Reals ZArith List Bool Arith Lia Lra.
From Verif Require Import Exact Recog SpecExact Estim SpecEstim EstimProofs RohnProofs HbrProofs NmChebProofs EstimRefute.
Import ListNotations.
Open Scope R_scope.

(** ** C42 *)''')
w(thm('C42_exact_hull','rohn_tol_hull'))
w(thm('C42_returns_when_bounded','rohn_tol_returns'))
w(thm('C42_raises_when_empty','rohn_tol_empty'))
w('''Example C42_case : proper_mat 1 1 rt_exA /\\ lp_calls_ok rt_exlp 1 1 rt_exA rt_exb /\\ rohn_tol rt_exlp 1 1 rt_exA rt_exb 1 = Some [mkr (-1) 2].
Proof. split; [intros i j _ _; unfold proper; simpl; lra|]. exact (conj rt_ex_calls rt_ex_run). Qed.

(** ** C43 *)''')
w(thm('C43_encloses_when_settled','rohn_uni_encloses'))
w('(** The iteration limit can be reached first, and then a solution is missed. *)')
w(thm('C43_iteration_limit_refuted','rohn_uni_refuted'))
w('''Example C43_case : (forall i, (i < 1)%nat -> rohn_uni inv1 1 0 ru_exA ru_exb 1 (1 + 1) i = rohn_uni inv1 1 0 ru_exA ru_exb 1 1 i) /\\
  rohn_uni inv1 1 0 ru_exA ru_exb 1 1 O = mkr (-5 / 4) (13 / 4).
Proof. exact rohn_uni_case. Qed.

(** ** C44 *)''')
w(thm('C44_encloses','hbr_encloses'))
w('(** The check in the code does not ensure that the matrix is an H-matrix. *)')
w(thm('C44_h_check_refuted','hbr_h_check_refuted'))
w('''Example C44_case : inverse_of 2 (mids hy_A) hy_C /\\ inverse_of 2 (r_compmat (rimm 2 hy_C hy_A)) hy_B /\\ h_matrix 2 (rimm 2 hy_C hy_A).
Proof. exact hbr_case. Qed.

(** ** C53 *)''')
w(thm('C53_single_equation','neumaier_single_row'))
w(thm('C53_common_radius_partial','neumaier_min_cube'))
w(thm('C53_shape','neumaier_shape'))
w(thm('C53_inner_refuted','neumaier_refuted'))
w(thm('C53_weighted_refuted','neumaier_weighted_refuted'))
w('''Example C53_case : let A : imat := fun _ _ => mkr 1 2 in let b : ivec := fun _ => mkr (-4) 4 in
  proper_mat 1 2 A /\\ (exists j, (j < 2)%nat /\\ ~ (rl (A O j) = 0 /\\ rh (A O j) = 0)) /\\ tolerable 1 2 A b (fun j => if Nat.eqb j 0 then 1 else 0).
Proof.
  cbv zeta. split; [intros i j _ _; unfold proper; simpl; lra|]. split; [exists O; split; [lia|simpl; lra]|].
  intros M HM i Hi. assert (H0 := HM i O Hi ltac:(lia)). unfold inI, times in *. simpl in *. lra.
Qed.

(** ** C56 *)''')
w(thm('C56_value_attained','cheb_value_attained') if False else '')
w('''Theorem C56_value_attained : forall lpbox k n A b, lpbox_ok n lpbox -> proper_mat (S k) n A -> proper_vec (S k) b -> forall x w,
  exists M v i, in_imat (S k) n A M /\\ in_ivec (S k) b v /\\ (i < S k)%nat /\\ cheb_value lpbox k n A b x w = w i * Rabs (v i - times n M x i).
Proof. exact cheb_value_attained. Qed.
Print Assumptions C56_value_attained.
(** Exact at the points where the comparison picks the farther endpoint, in
    particular for a point matrix (lo = hi). *)
Theorem C56_value_exact : forall lpbox k n A b, lpbox_ok n lpbox -> proper_mat (S k) n A -> proper_vec (S k) b -> forall x w, non_negative (S k) w ->
  (forall i, (i < S k)%nat -> let lo := rl (imv n A x i) in let hi := rh (imv n A x i) in let c := r_mid (b i) in
     lo = hi \\/ (lo - hi <= 2 * c /\\ lo + hi <= 2 * c) \\/ (2 * c < lo - hi /\\ 2 * c <= lo + hi)) ->
  worst_deviation (S k) n A b w x (cheb_value lpbox k n A b x w).
Proof. exact cheb_value_exact. Qed.
Print Assumptions C56_value_exact.
(** calcfg: its value is the functional, and with unit weights value and vector
    give a linear lower bound of the true deviation at every other point. *)
Theorem C56_calcfg_value : forall lpbox k n A b x w, fst (cheb_fg lpbox k n A b w x) = cheb_value lpbox k n A b x w.
Proof. exact cheb_fg_value. Qed.
Print Assumptions C56_calcfg_value.
Theorem C56_calcfg_supports : forall lpbox k n A b, lpbox_ok n lpbox -> proper_mat (S k) n A -> proper_vec (S k) b -> forall x y t,
  worst_deviation (S k) n A b ones y t -> let fg := cheb_fg lpbox k n A b ones x in fst fg + dot n (snd fg) (minus y x) <= t.
Proof. exact cheb_fg_support. Qed.
Print Assumptions C56_calcfg_supports.''')
w(thm('C56_value_refuted','cheb_value_refuted'))
w(thm('C56_weighted_gradient_refuted','cheb_weights_refuted'))
w('''Example C56_case : lpbox_ok 1 vertex_lp /\\ (let A : imat := fun _ _ => mkr 1 2 in let b : ivec := fun _ => mkr 4 6 in let x : vec := fun _ => 1 in
  rl (imv 1 A x O) - rh (imv 1 A x O) <= 2 * r_mid (b O) /\\ rl (imv 1 A x O) + rh (imv 1 A x O) <= 2 * r_mid (b O)).
Proof. exact (conj (vertex_ok 1) cheb_case). Qed.''')
open('/verif/rocq/theories/Props_Estim.v','w').write('\n'.join(o)+'\n')
