import sys; sys.path.insert(0,'/root')
from mkpa import thm,src
o=[]
def w(x): o.append(x)
w('''(** Solvers running on interval arithmetic: C38-C41.  Vectors and matrices are
    functions of the index, of which the first n values are used. *)
From Coq Require Import ZArith Reals List Bool Arith Lia Lra.
From Flocq Require Import Core IEEE754.BinarySingleNaN.
From Verif Require Import Base PyNum Kernel Spec Expr SpecArray Construct Solvers SpecSolvers SolversProofs GSProofs SolversRefute NewtonProofs GlobProofs.
Import ListNotations.
Open Scope R_scope.
''')
w('(** ** C38 Gauss *)')
w('(** All solutions, up to two unknowns. *)')
w(thm('C38_gauss_encloses_small','gauss_sound_small'))
w('(** Any number of unknowns: systems whose real matrix is zero below the diagonal\n    except in the last two columns. *)')
w(thm('C38_gauss_encloses_nearly_triangular','gauss_sound'))
w('(** With three unknowns a solution can be lost. *)')
w(thm('C38_gauss_encloses_refuted','gauss_3_x'))
w('''Example C38_case : (forall i l, (i < 2)%nat -> (l < 2)%nat -> good (e2A i l)) /\\ (forall i, (i < 2)%nat -> good (e2b i)) /\\
  exists Z, returns (gauss 2 e2A e2b) mode_NE Z /\\ ~ nan_itv (Z 0%nat).
Proof. exact (conj (proj1 e2_good) (conj (proj1 (proj2 e2_good)) (proj1 e2_runs))). Qed.
''')
w('(** ** C39 Gauss_Seidel *)')
w('(** For every distance function and every preconditioner C. *)')
w(thm('C39_gauss_seidel_keeps_solutions','gauss_seidel_keeps'))
w('(** The default starting box loses solutions outside it. *)')
w(thm('C39_default_box_refuted','gs_default_x'))
w('(** A negative iteration limit returns the zero vector. *)')
w(thm('C39_negative_maxiter_refuted','gs_maxiter_x'))
w('''Example C39_case : (forall i l, (i < 2)%nat -> (l < 2)%nat -> good (e2A i l)) /\\ (forall i, (i < 2)%nat -> good (e2b i)) /\\
  (forall i, (i < 2)%nat -> good (e2x i)) /\\ (forall i l, (i < 2)%nat -> (l < 2)%nat -> num_ok (e2C i l)) /\\
  exists Z, returns (gauss_seidel dist0 2 e2A e2b (Some e2x) e2C true (PInt 1) 3) mode_NE Z.
Proof. destruct e2_good as (H1 & H2 & H3 & H4). exact (conj H1 (conj H2 (conj H3 (conj H4 (proj2 e2_runs))))). Qed.
''')
w('(** ** C40 Krawczyk and HansenSengupta, one unknown *)')
w(thm('C40_krawczyk_keeps_zeros','krawczyk_keeps'))
w(thm('C40_hansen_sengupta_keeps_zeros','hansen_sengupta_keeps'))
w('''Example C40_case : modest x12 /\\ encloses_on x12 sq2 (fun x => x * x - 2) /\\ encloses_on x12 j24 (fun x => 2 * x) /\\
  (forall r, member x12 r -> derivable_pt_lim (fun x => x * x - 2) r (2 * r)) /\\
  (forall X L la, good X -> (forall r, member X r -> member x12 r) -> returns (j24 X) mode_NE L -> returns (slope_recip L) mode_NE la -> finite_num la) /\\
  (exists Z, returns (krawczyk sq2 j24 sdist x12 3 (PFlt f0)) mode_NE Z /\\ isnan_itv Z = false) /\\
  exists Z, returns (hansen_sengupta sq2 j24 sdist x12 3 (PFlt f0)) mode_NE Z /\\ isnan_itv Z = false.
Proof.
  split; [exact x12_modest|]. split; [exact sq2_encloses|]. split; [exact j24_encloses|]. split; [intros; apply sq2_derivable|].
  split; [exact j24_slope | exact sq2_runs].
Qed.
''')
w('(** ** C41 globopt *)')
hyp='forall (func : list itv -> M itv) (f : list R -> R) x0 m, Forall modest x0 -> encloses_box x0 func f -> '
w('''Theorem C41_globopt_bounds : forall (func : list itv -> M itv) (f : list R -> R) x0 m, Forall modest x0 -> encloses_box x0 func f ->
  forall tol maxiter Y V, returns (globopt func x0 tol maxiter) m (Y, V) ->
  returns (func Y) m V /\\ (exists xs, in_box Y xs) /\\ (forall xs, in_box Y xs -> in_box x0 xs) /\\
  (forall xs, in_box x0 xs -> num_le_R (lo V) (f xs)) /\\
  (forall xs, in_box x0 xs -> (forall ys, in_box x0 ys -> f xs <= f ys) -> member V (f xs)).
Proof. exact globopt_bounds. Qed.
Print Assumptions C41_globopt_bounds.
(** A result narrower than the tolerance is final: a larger limit changes nothing. *)
Theorem C41_stops_below_tolerance : forall (func : list itv -> M itv) (f : list R -> R) x0 m, encloses_box x0 func f ->
  forall tol maxiter maxiter' Y V w, (maxiter <= maxiter')%Z -> returns (globopt func x0 tol maxiter) m (Y, V) -> returns (wid V) m w -> num_le tol w = false ->
  returns (globopt func x0 tol maxiter') m (Y, V).
Proof. exact globopt_stops. Qed.
Print Assumptions C41_stops_below_tolerance.
Theorem C41_negative_limit : forall (func : list itv -> M itv) (f : list R -> R) x0 m, encloses_box x0 func f ->
  forall tol maxiter Y V, (maxiter < 0)%Z -> returns (globopt func x0 tol maxiter) m (Y, V) -> Y = x0.
Proof. exact globopt_no_budget. Qed.
Print Assumptions C41_negative_limit.
(** maxiter = 0 does bisect. *)
Theorem C41_at_most_maxiter_bisections_refuted : exists Y V, returns (globopt par [x12; x12] (PFlt f0) 0) mode_NE (Y, V) /\\ Y <> [x12; x12].
Proof. exact par_off_by_one. Qed.
Print Assumptions C41_at_most_maxiter_bisections_refuted.
Example C41_case : Forall modest [x12; x12] /\\ encloses_box [x12; x12] par parR /\\
  (exists Y V, returns (globopt par [x12; x12] (PFlt f0) 3) mode_NE (Y, V)) /\\
  exists Y V w, returns (globopt par [x12; x12] (PInt 10) 3) mode_NE (Y, V) /\\ returns (wid V) mode_NE w /\\ num_le (PInt 10) w = false.
Proof. split; [repeat (apply Forall_cons; [exact x12_modest|]); constructor|]. split; [exact par_encloses | exact par_runs]. Qed.
''')
open('/verif/rocq/theories/Props_Solvers.v','w').write('\n'.join(o)+'\n')
