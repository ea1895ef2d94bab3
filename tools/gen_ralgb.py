import sys; sys.path.insert(0,'/root')
from mkpa import thm
o=[]
def w(x): o.append(x)
w('''(** The optimizer ralgb5 and the maximize methods built on it: C36.  [ralgb5]
    returns the result and, beside it, the list of all points at which calcfg was
    called. *)
From Coq Require Import ZArith Reals List Bool Arith Lia Lra.
From Verif Require Import PyNum Exact Recog SpecExact Ralgb5 RalgbProofs RalgbMore.
Import ListNotations.
''')
w(thm('C36_returns_evaluated_point','ralgb5_best'))
w('(** No evaluated point is better; the two conditions on < hold for reals and for\n    binary64 including NaN (see the example). *)')
w(thm('C36_no_evaluated_point_is_better','ralgb5_no_better'))
w(thm('C36_counts_and_codes','ralgb5_counts'))
w('(** The documented limit nit <= maxiter is exceeded by one. *)')
w(thm('C36_nit_at_most_maxiter_refuted','nit_x'))
w('Open Scope R_scope.')
w('(** Tol.maximize and Uni.maximize over exact reals, from any starting point. *)')
w(thm('C36_tol_maximize','tol_maximize_spec'))
w(thm('C36_tol_maximize_recognizes','tol_maximize_sound'))
w(thm('C36_uni_maximize','uni_maximize_sound'))
w('''Example C36_case : (forall a, n_lt flt_ops a a = false) /\\
  (forall a b c, n_lt flt_ops a b = true -> n_lt flt_ops c b = false -> n_lt flt_ops c a = false) /\\
  (let r := fst (ralgb5 flt_ops abs_params abs_fg 1 [f1]) in (r_nit _ r, r_code _ r, r_ncalls _ r) = (1, 4, 2)%nat).
Proof. exact (conj (proj1 flt_order) (conj (proj2 flt_order) abs_run)). Qed.
Example C36_real_case : proper_mat 1 1 (fun _ _ => mkr 1 2) /\\ positive 1 ones.
Proof. split; [intros i j _ _; unfold proper; simpl; lra | intros i _; unfold ones; lra]. Qed.''')
open('/verif/rocq/theories/Props_Ralgb.v','w').write('\n'.join(o)+'\n')
