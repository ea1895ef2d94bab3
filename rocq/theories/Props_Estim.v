(** Rohn, Hansen-Bliek-Rohn, Neumaier and ChebNorm over exact reals:
    C42, C43, C44, C53, C56. *)
From Coq Require Import Reals ZArith List Bool Arith Lia Lra.
From Verif Require Import Exact Recog SpecExact Estim SpecEstim EstimProofs RohnProofs HbrProofs NmChebProofs EstimRefute EstimMore.
Import ListNotations.
Open Scope R_scope.

(** ** C42 *)
Theorem C42_exact_hull : forall lp m n A b tolval r, proper_mat m n A -> lp_calls_ok lp m n A b -> rohn_tol lp m n A b tolval = Some r ->
  length r = n /\ forall j, (j < n)%nat -> coordinate_range (tolerable m n A b) j (nth j r (mkr 0 0)).
Proof. exact rohn_tol_hull. Qed.
Print Assumptions C42_exact_hull.

Theorem C42_returns_when_bounded : forall lp m n A b tolval, proper_mat m n A -> lp_calls_ok lp m n A b -> 0 <= tolval ->
  (exists x, tolerable m n A b x) -> (exists t, forall x j, tolerable m n A b x -> (j < n)%nat -> Rabs (x j) <= t) ->
  exists r, rohn_tol lp m n A b tolval = Some r.
Proof. exact rohn_tol_returns. Qed.
Print Assumptions C42_returns_when_bounded.

Theorem C42_raises_when_empty : forall lp m n A b tolval, (0 < n)%nat -> proper_mat m n A -> lp_calls_ok lp m n A b -> (forall x, ~ tolerable m n A b x) ->
  rohn_tol lp m n A b tolval = None.
Proof. exact rohn_tol_empty. Qed.
Print Assumptions C42_raises_when_empty.

Example C42_case : proper_mat 1 1 rt_exA /\ lp_calls_ok rt_exlp 1 1 rt_exA rt_exb /\ rohn_tol rt_exlp 1 1 rt_exA rt_exb 1 = Some [mkr (-1) 2].
Proof. split; [intros i j _ _; unfold proper; simpl; lra|]. exact (conj rt_ex_calls rt_ex_run). Qed.

(** ** C43 *)
Theorem C43_encloses_when_settled : forall inv m k A b tol maxiter, 0 < tol -> (0 <= maxiter)%Z ->
  (forall i, (i < S k)%nat -> rohn_uni inv m k A b tol (maxiter + 1) i = rohn_uni inv m k A b tol maxiter i) ->
  forall x, united m (S k) A b x -> forall i, (i < S k)%nat -> inI (rohn_uni inv m k A b tol maxiter i) (x i).
Proof. exact rohn_uni_encloses. Qed.
Print Assumptions C43_encloses_when_settled.

(** The answer settles, and so is an enclosure, whenever the matrix is strongly
    regular: |P| rad(A) d < d for a positive d, P the computed preconditioner. *)
Theorem C43_encloses_strongly_regular : forall inv m k A b tol, let n := S k in let Ac := mids A in let P := pinv inv m n Ac in let Pc := mids (rimm m P A) in
  0 < tol -> proper_mat m n A -> inverse_of n (mm m (tr Ac) Ac) (inv n (mm m (tr Ac) Ac)) -> inverse_of n (mm n (tr Pc) Pc) (inv n (mm n (tr Pc) Pc)) ->
  (exists d, positive n d /\ forall i, (i < n)%nat -> total n (fun j => total m (fun l => Rabs (P i l) * r_rad (A l j)) * d j) < d i) ->
  exists N, forall maxiter, (N <= maxiter)%Z -> forall x, united m n A b x -> forall i, (i < n)%nat -> inI (rohn_uni inv m k A b tol maxiter i) (x i).
Proof. exact rohn_uni_regular. Qed.
Print Assumptions C43_encloses_strongly_regular.

Example C43_regular_case : let P := pinv inv1 1 1 (mids ru_exA) in let Pc := mids (rimm 1 P ru_exA) in
  proper_mat 1 1 ru_exA /\ inverse_of 1 (mm 1 (tr (mids ru_exA)) (mids ru_exA)) (inv1 1%nat (mm 1 (tr (mids ru_exA)) (mids ru_exA))) /\
  inverse_of 1 (mm 1 (tr Pc) Pc) (inv1 1%nat (mm 1 (tr Pc) Pc)) /\
  positive 1 (fun _ => 1) /\ forall i, (i < 1)%nat -> total 1 (fun j => total 1 (fun l => Rabs (P i l) * r_rad (ru_exA l j)) * 1) < 1.
Proof. exact rohn_uni_regular_case. Qed.

(** The iteration limit can be reached first, and then a solution is missed. *)
Theorem C43_iteration_limit_refuted : exists inv A b tol maxiter x, inverse_of 1 (mm 1 (tr (mids A)) (mids A)) (inv 1%nat (mm 1 (tr (mids A)) (mids A))) /\
  0 < tol /\ (0 <= maxiter)%Z /\ united 1 1 A b x /\ ~ inI (rohn_uni inv 1 0 A b tol maxiter O) (x O).
Proof. exact rohn_uni_refuted. Qed.
Print Assumptions C43_iteration_limit_refuted.

Example C43_case : (forall i, (i < 1)%nat -> rohn_uni inv1 1 0 ru_exA ru_exb 1 (1 + 1) i = rohn_uni inv1 1 0 ru_exA ru_exb 1 1 i) /\
  rohn_uni inv1 1 0 ru_exA ru_exb 1 1 O = mkr (-5 / 4) (13 / 4).
Proof. exact rohn_uni_case. Qed.

(** ** C44 *)
Theorem C44_encloses : forall k A b C B, inverse_of (S k) (r_compmat (rimm (S k) C A)) B -> h_matrix (S k) (rimm (S k) C A) ->
  exists r, hbr k A b C B = Some r /\ length r = S k /\
    forall x, united (S k) (S k) A b x -> forall i, (i < S k)%nat -> inI (nth i r (mkr 0 0)) (x i).
Proof. exact hbr_encloses. Qed.
Print Assumptions C44_encloses.

(** The check in the code does not ensure that the matrix is an H-matrix. *)
Theorem C44_h_check_refuted : exists k A b C B r x, inverse_of (S k) (mids A) C /\ inverse_of (S k) (r_compmat (rimm (S k) C A)) B /\
  hbr k A b C B = Some r /\ united (S k) (S k) A b x /\ exists i, (i < S k)%nat /\ ~ inI (nth i r (mkr 0 0)) (x i).
Proof. exact hbr_h_check_refuted. Qed.
Print Assumptions C44_h_check_refuted.

(** The code asks whether any component of <CA> |<CA>^-1 e| is positive; asking
    for all components would decide the H-matrix property exactly. *)
Theorem C44_all_check : forall k A C B, let n := S k in let A1 := rimm n C A in inverse_of n (r_compmat A1) B ->
  (h_matrix n A1 <-> forall i, (i < n)%nat -> 0 < times n (r_compmat A1) (fun l => Rabs (total n (fun j => B l j))) i).
Proof. exact hbr_all_check. Qed.
Print Assumptions C44_all_check.

Example C44_case : inverse_of 2 (mids hy_A) hy_C /\ inverse_of 2 (r_compmat (rimm 2 hy_C hy_A)) hy_B /\ h_matrix 2 (rimm 2 hy_C hy_A).
Proof. exact hbr_case. Qed.

(** ** C53 *)
Theorem C53_single_equation : forall n A b y, (0 < n)%nat -> proper_mat 1 n A -> (exists j, (j < n)%nat /\ ~ (rl (A O j) = 0 /\ rh (A O j) = 0)) ->
  tolerable 1 n A b y ->
  exists box, neumaier 1 n A b y None = Some (n, box) /\ in_ivec n box y /\ forall x, in_ivec n box x -> tolerable 1 n A b x.
Proof. exact neumaier_single_row. Qed.
Print Assumptions C53_single_equation.

Theorem C53_common_radius : forall m n A b y x, (forall i, (i < m)%nat -> 0 < total n (fun j => r_mag (A i j))) ->
  (forall i j, (i < m)%nat -> (j < n)%nat -> Rabs (x j - y j) <= nm_r n A b y i) -> tolerable m n A b x.
Proof. exact neumaier_min_cube. Qed.
Print Assumptions C53_common_radius.

Theorem C53_shape : forall m n A b y w, neumaier m n A b y w = None <-> (n <> m /\ n <> 1 /\ m <> 1)%nat.
Proof. exact neumaier_shape. Qed.
Print Assumptions C53_shape.

Theorem C53_inner_refuted : exists A b y box x, tolerable 2 2 A b y /\ proper_mat 2 2 A /\ neumaier 2 2 A b y None = Some (2%nat, box) /\ in_ivec 2 box x /\ ~ tolerable 2 2 A b x.
Proof. exact neumaier_refuted. Qed.
Print Assumptions C53_inner_refuted.

Theorem C53_weighted_refuted : exists A b y w box x, tolerable 1 1 A b y /\ proper_mat 1 1 A /\ positive 1 w /\ neumaier 1 1 A b y (Some w) = Some (1%nat, box) /\ in_ivec 1 box x /\ ~ tolerable 1 1 A b x.
Proof. exact neumaier_weighted_refuted. Qed.
Print Assumptions C53_weighted_refuted.

Example C53_case : let A : imat := fun _ _ => mkr 1 2 in let b : ivec := fun _ => mkr (-4) 4 in
  proper_mat 1 2 A /\ (exists j, (j < 2)%nat /\ ~ (rl (A O j) = 0 /\ rh (A O j) = 0)) /\ tolerable 1 2 A b (fun j => if Nat.eqb j 0 then 1 else 0).
Proof.
  cbv zeta. split; [intros i j _ _; unfold proper; simpl; lra|]. split; [exists O; split; [lia|simpl; lra]|].
  intros M HM i Hi. assert (H0 := HM i O Hi ltac:(lia)). unfold inI, times in *. simpl in *. lra.
Qed.

(** ** C56 *)

Theorem C56_value_attained : forall lpbox k n A b, lpbox_ok n lpbox -> proper_mat (S k) n A -> proper_vec (S k) b -> forall x w,
  exists M v i, in_imat (S k) n A M /\ in_ivec (S k) b v /\ (i < S k)%nat /\ cheb_value lpbox k n A b x w = w i * Rabs (v i - times n M x i).
Proof. exact cheb_value_attained. Qed.
Print Assumptions C56_value_attained.
(** Exact at the points where the comparison picks the farther endpoint, in
    particular for a point matrix (lo = hi). *)
Theorem C56_value_exact : forall lpbox k n A b, lpbox_ok n lpbox -> proper_mat (S k) n A -> proper_vec (S k) b -> forall x w, non_negative (S k) w ->
  (forall i, (i < S k)%nat -> let lo := rl (imv n A x i) in let hi := rh (imv n A x i) in let c := r_mid (b i) in
     lo = hi \/ (lo - hi <= 2 * c /\ lo + hi <= 2 * c) \/ (2 * c < lo - hi /\ 2 * c <= lo + hi)) ->
  worst_deviation (S k) n A b w x (cheb_value lpbox k n A b x w).
Proof. exact cheb_value_exact. Qed.
Print Assumptions C56_value_exact.
(** calcfg: its value is the functional, and with unit weights value and vector
    give a linear lower bound of the true deviation at every other point. *)
Theorem C56_calcfg_value : forall lpbox k n A b x w, fst (cheb_fg lpbox k n A b w x) = cheb_value lpbox k n A b x w.
Proof. exact cheb_fg_value. Qed.
Print Assumptions C56_calcfg_value.
Theorem C56_calcfg_supports : forall lpbox k n A b, lpbox_ok n lpbox -> proper_mat (S k) n A -> proper_vec (S k) b -> forall x y t,
  worst_deviation (S k) n A b ones y t -> let fg := cheb_fg lpbox k n A b ones x in fst fg + dot n (snd fg) (minus y x) <= t.
Proof. exact cheb_fg_support. Qed.
Print Assumptions C56_calcfg_supports.
Theorem C56_value_refuted : exists lpbox A b x M v, lpbox_ok 1 lpbox /\ proper_mat 1 1 A /\ proper_vec 1 b /\ in_imat 1 1 A M /\ in_ivec 1 b v /\
  cheb_value lpbox 0 1 A b x ones < Rabs (v O - times 1 M x O).
Proof. exact cheb_value_refuted. Qed.
Print Assumptions C56_value_refuted.

Theorem C56_weighted_gradient_refuted : exists lpbox A b w x y t, lpbox_ok 1 lpbox /\ proper_mat 1 1 A /\ proper_vec 1 b /\ positive 1 w /\ worst_deviation 1 1 A b w y t /\
  let fg := cheb_fg lpbox 0 1 A b w x in t < fst fg + dot 1 (snd fg) (minus y x).
Proof. exact cheb_weights_refuted. Qed.
Print Assumptions C56_weighted_gradient_refuted.

Example C56_case : lpbox_ok 1 vertex_lp /\ (let A : imat := fun _ _ => mkr 1 2 in let b : ivec := fun _ => mkr 4 6 in let x : vec := fun _ => 1 in
  rl (imv 1 A x O) - rh (imv 1 A x O) <= 2 * r_mid (b O) /\ rl (imv 1 A x O) + rh (imv 1 A x O) <= 2 * r_mid (b O)).
Proof. exact (conj (vertex_ok 1) cheb_case). Qed.
