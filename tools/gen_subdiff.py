import sys; sys.path.insert(0,'/root')
from mkpa import thm
o=[]
def w(x): o.append(x)
w('''(** The subdifferential Newton method over exact reals: C52. *)
From Coq Require Import Reals ZArith List Bool Arith Lia Lra.
From Verif Require Import Exact SpecExact ExactProofs Spec Subdiff SpecSubdiff SubdiffProofs SubdiffEx.
Import ListNotations.
Open Scope R_scope.

(** The matrix built at a point, times the point, is the Kaucher product. *)''')
w(thm('C52_linearization','linearization'))
w('(** Not so for an improper coefficient times an improper unknown around zero. *)')
w(thm('C52_improper_refuted','linearization_refuted'))
w('(** What is returned: formal solutions. *)')
w(thm('C52_point_matrix','subdiff_point_matrix'))
w(thm('C52_settled','subdiff_settled'))
w(thm('C52_same_matrix','subdiff_same_matrix'))
w('(** What formal solutions are good for. *)')
w(thm('C52_box_tolerable','formal_tolerable'))
w(thm('C52_box_united','formal_united'))
w('''(** A solver, and a run of the method on [1,2] x = [2,6] that returns [2,3]. *)
Example C52_case : solver_ok solve2 /\\ proper_mat 1 1 sx_A /\\ (exists X, subdiff solve2 1 sx_A sx_b 0 1 0 0 = Some X /\\ X 0%nat = mkr 2 3 /\\ formal_solution 1 sx_A sx_b X).
Proof. split; [exact solve2_ok|]. split; [intros i j _ _; unfold proper, sx_A; simpl; lra | exact subdiff_case]. Qed.
(** The step from (2,3) keeps the matrix; [2,1] x = [6,2] is solved by [2,3] too. *)
Example C52_case_step : exists y r q, sd_step solve2 1 sx_A sx_b 1 0 (v2 2 3) = Some (y, r, q) /\\ y 0%nat = 2 /\\ y 1%nat = 3.
Proof. destruct (sx_step 2 3 ltac:(lra) ltac:(lra)) as (y & r & q & H1 & H2 & H3 & _). exists y, r, q. auto. Qed.''')
open('/verif/rocq/theories/Props_Subdiff.v','w').write('\n'.join(o))
