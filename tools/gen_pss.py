import sys; sys.path.insert(0,'/root')
from mkpa import thm
o=[]
def w(x): o.append(x)
w('''(** The splitting method PSS over exact reals: C45. *)
From Coq Require Import Reals ZArith List Bool Arith Lia Lra.
From Verif Require Import Exact SpecExact Estim SpecEstim Pss SpecPss PssProofs PssLoop PssMore.
Import ListNotations.
Open Scope R_scope.

(** Whatever the tolerance and the iteration limit. *)''')
w(thm('C45_encloses','pss_sound'))
w(thm('C45_lower_bound','algo_sound'))
w('(** When no other component of the starting box contains zero, one step is exact. *)')
w('''Theorem C45_exact_in_orthant : forall lp m n nu A b V, (nu < n)%nat -> proper_mat m n A -> proper_vec m b -> zero_free n nu V ->
  rl (V nu) <> 0 -> rh (V nu) <= 10 ^ 15 -> lp_answers lp m n nu A b V ->
  forall tol maxiter q, (0 <= maxiter)%Z -> (exists j, (j < n)%nat /\\ j <> nu /\\ tol <= wid (V j)) ->
  algo lp m n nu A b V tol maxiter = Some q -> attained m n nu A b V q.
Proof. exact leaf_exact. Qed.
Print Assumptions C45_exact_in_orthant.
''')
w('(** With an initial box both passes start from it, the second one should start from its negative. *)')
w(thm('C45_initial_box_refuted','pss_x0_refuted'))
w('(** A starting box that is a point in the component: an exception although there are solutions. *)')
w(thm('C45_point_component_refuted','pss_point_refuted'))
w('(** One unknown: always an exception. *)')
w(thm('C45_one_unknown_raises','pss_one_unknown'))
w('''Example C45_case : lp_answers c45_lp 1 2 0 c45_A c45_b c45_V /\\ lp_answers c45_lp 1 2 0 c45_A (fun i => r_neg (c45_b i)) c45_V2 /\\
  pss c45_lp 1 2 c45_A c45_b c45_V c45_V2 1 0 0 = Some (mkr 1 2) /\\ (forall x, united 1 2 c45_A c45_b x <-> 1 <= x 0%nat <= 2).
Proof.
  split; [apply c45_answers; left; unfold c45_V; simpl; lra|]. split; [apply (c45_answers (- (2)) (- (1)) c45_V2); right; unfold c45_V2; simpl; lra|].
  split; [exact c45_run | exact c45_united].
Qed.
Example C45_orthant_case : zero_free 2 0 c45_V3 /\\ lp_answers c45_lp 1 2 0 c45_A c45_b c45_V3 /\\ algo c45_lp 1 2 0 c45_A c45_b c45_V3 1 0 = Some 1.
Proof.
  split; [intros [|j] _ N; [congruence|]; unfold c45_V3, proper, inI; simpl; lra|]. split; [apply c45_answers; left; unfold c45_V3; simpl; lra | exact c45_leaf_run].
Qed.''')
open('/verif/rocq/theories/Props_Pss.v','w').write('\n'.join(o)+'\n')
