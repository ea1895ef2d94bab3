(** C91: maximization (for ChebNorm, minimization) under linear constraints. *)
From Coq Require Import ZArith Reals List Bool Arith Lia Lra.
From Flocq Require Import IEEE754.BinarySingleNaN.
From Verif Require Import PyNum Exact Recog SpecExact Ralgb5 Estim SysProps Constrained SpecConstrained RecogMore ConstrainedProofs ConstrainedPenalty ConstrainedRefute.
Import ListNotations.
Open Scope R_scope.

(** The reported value is the functional at the reported point minus mu times the
    violation there, and not below the same quantity at the starting point. *)
Theorem C91_tol_reported : forall k n big P A b w mu r C lb ub rows x0 x v,
  proper_mat (S k) n A -> linear_constraint r n C lb ub = Some rows -> 0 < mu ->
  maximize_c n big P (tol_fg k n A b w) mu rows x0 = (x, v) ->
  v = tol_value k n A b x w - mu * violation n rows x /\ (v = tol_value k n A b x w <-> satisfies r n C lb ub x) /\
  tol_value k n A b x0 w - mu * violation n rows x0 <= v /\
  (positive (S k) w -> (0 <= v -> tolerable (S k) n A b x) /\ (satisfies r n C lb ub x0 -> tolerable (S k) n A b x0 -> 0 <= v)).
Proof. exact tol_c. Qed.
Print Assumptions C91_tol_reported.

Theorem C91_uni_reported : forall k n big P A b w mu r C lb ub rows x0 x v,
  proper_mat (S k) n A -> linear_constraint r n C lb ub = Some rows -> 0 < mu ->
  maximize_c n big P (uni_fg k n A b w) mu rows x0 = (x, v) ->
  v = uni_value k n A b x w - mu * violation n rows x /\ (v = uni_value k n A b x w <-> satisfies r n C lb ub x) /\
  uni_value k n A b x0 w - mu * violation n rows x0 <= v /\
  (positive (S k) w -> (0 <= v -> united (S k) n A b x) /\ (satisfies r n C lb ub x0 -> united (S k) n A b x0 -> 0 <= v)).
Proof. exact uni_c. Qed.
Print Assumptions C91_uni_reported.

Theorem C91_uss_reported : forall k n big P A b w mu r C lb ub rows x0 x v,
  proper_mat (S k) n A -> proper_vec (S k) b -> linear_constraint r n C lb ub = Some rows -> 0 < mu ->
  maximize_c n big P (uss_fg k n A b w) mu rows x0 = (x, v) ->
  v = uss_value k n A b x w - mu * violation n rows x /\ (v = uss_value k n A b x w <-> satisfies r n C lb ub x) /\
  uss_value k n A b x0 w - mu * violation n rows x0 <= v /\
  (positive (S k) w -> (0 <= v -> united (S k) n A b x) /\ (satisfies r n C lb ub x0 -> united (S k) n A b x0 -> 0 <= v)).
Proof. exact uss_c. Qed.
Print Assumptions C91_uss_reported.

Theorem C91_cheb_reported : forall lpbox k n big P A b w mu r C lb ub rows x0 x v,
  linear_constraint r n C lb ub = Some rows -> 0 < mu ->
  minimize_c n big P (cheb_fg lpbox k n A b w) mu rows x0 = (x, v) ->
  v = cheb_value lpbox k n A b x w + mu * violation n rows x /\ (v = cheb_value lpbox k n A b x w <-> satisfies r n C lb ub x) /\
  v <= cheb_value lpbox k n A b x0 w + mu * violation n rows x0.
Proof. exact cheb_c. Qed.
Print Assumptions C91_cheb_reported.

(** When every constraint row has a variable of its own and no weight exceeds 1,
    the automatic coefficient is large enough: nothing outside the constraints has
    a better penalized value than the best point inside.  With a larger coefficient
    every point outside is strictly worse than some point inside. *)
Theorem C91_tol_feasible_optimum : forall k n A b w r C lb ub rows mu, proper_mat (S k) n A -> at_most_one (S k) w ->
  linear_constraint r n C lb ub = Some rows -> own_variables n rows -> auto_mu n rows (max_mag k n A) = Some (Num mu) ->
  forall x mu', mu <= mu' -> exists y, satisfies r n C lb ub y /\
    tol_value k n A b x w - mu' * violation n rows x <= tol_value k n A b y w /\
    (mu < mu' -> ~ satisfies r n C lb ub x -> tol_value k n A b x w - mu' * violation n rows x < tol_value k n A b y w).
Proof. exact tol_exact_penalty. Qed.
Print Assumptions C91_tol_feasible_optimum.

Theorem C91_uni_feasible_optimum : forall k n A b w r C lb ub rows mu, proper_mat (S k) n A -> at_most_one (S k) w ->
  linear_constraint r n C lb ub = Some rows -> own_variables n rows -> auto_mu n rows (max_mag k n A) = Some (Num mu) ->
  forall x mu', mu <= mu' -> exists y, satisfies r n C lb ub y /\
    uni_value k n A b x w - mu' * violation n rows x <= uni_value k n A b y w /\
    (mu < mu' -> ~ satisfies r n C lb ub x -> uni_value k n A b x w - mu' * violation n rows x < uni_value k n A b y w).
Proof. exact uni_exact_penalty. Qed.
Print Assumptions C91_uni_feasible_optimum.

Theorem C91_uss_feasible_optimum : forall k n A b w r C lb ub rows mu, proper_mat (S k) n A -> at_most_one (S k) w ->
  linear_constraint r n C lb ub = Some rows -> own_variables n rows -> auto_mu n rows (max_mag k n A) = Some (Num mu) ->
  forall x mu', mu <= mu' -> exists y, satisfies r n C lb ub y /\
    uss_value k n A b x w - mu' * violation n rows x <= uss_value k n A b y w /\
    (mu < mu' -> ~ satisfies r n C lb ub x -> uss_value k n A b x w - mu' * violation n rows x < uss_value k n A b y w).
Proof. exact uss_exact_penalty. Qed.
Print Assumptions C91_uss_feasible_optimum.

(** Refuted: the returned point satisfies the constraints.  From the default
    starting point (the solution of the midpoint system) the run for [x = 2] under
    [x <= 1] returns [x = 2], whatever the parameters of the optimizer. *)
Theorem C91_default_start_refuted : exists A b C ub rows x0 z, proper_mat 1 1 A /\ linear_constraint 1 1 C None (Some ub) = Some rows /\ own_variables 1 rows /\
  auto_mu 1 rows (max_mag 0 1 A) = Some (Num 1) /\ solves 1 1 (mids A) (fun i => r_mid (b i)) x0 /\
  ~ satisfies 1 1 C None (Some ub) x0 /\ satisfies 1 1 C None (Some ub) z /\ tol_value 0 1 A b z ones = -1 /\
  forall big P, maximize_c 1 big P (tol_fg 0 1 A b ones) 1 rows x0 = (x0, -1).
Proof. exact default_start_x. Qed.
Print Assumptions C91_default_start_refuted.

(** Without a variable of its own for each row, with a weight above 1, or with the
    coefficient of an earlier system, a point outside the constraints can have a
    strictly better penalized value than every point inside. *)
Theorem C91_shared_variables_refuted : exists A b C ub rows x mu, proper_mat 1 2 A /\ linear_constraint 2 2 C None (Some ub) = Some rows /\
  auto_mu 2 rows (max_mag 0 2 A) = Some (Num mu) /\ ~ satisfies 2 2 C None (Some ub) x /\ (exists y, satisfies 2 2 C None (Some ub) y) /\
  forall y, satisfies 2 2 C None (Some ub) y -> tol_value 0 2 A b y ones < tol_value 0 2 A b x ones - mu * violation 2 rows x.
Proof. exact shared_variables_x. Qed.
Print Assumptions C91_shared_variables_refuted.

Theorem C91_weight_refuted : exists A b w C ub rows x mu, proper_mat 1 1 A /\ positive 1 w /\ linear_constraint 1 1 C None (Some ub) = Some rows /\ own_variables 1 rows /\
  auto_mu 1 rows (max_mag 0 1 A) = Some (Num mu) /\ ~ satisfies 1 1 C None (Some ub) x /\ (exists y, satisfies 1 1 C None (Some ub) y) /\
  forall y, satisfies 1 1 C None (Some ub) y -> tol_value 0 1 A b y w < tol_value 0 1 A b x w - mu * violation 1 rows x.
Proof. exact weight_x. Qed.
Print Assumptions C91_weight_refuted.

(** The coefficient is the one of the first system, for every sequence of calls
    with the same constraint object; one given by the user is never changed. *)
Theorem C91_mu_kept : forall k n A As rows, after_calls k n (A :: As) (mklc rows None) =
  match auto_mu n rows (max_mag k n A) with Some mu => Some (mklc rows (Some mu)) | None => None end.
Proof. exact mu_first. Qed.
Print Assumptions C91_mu_kept.
Theorem C91_mu_given : forall k n As c mu, c_mu c = Some mu -> after_calls k n As c = Some c.
Proof. exact mu_kept. Qed.
Print Assumptions C91_mu_given.
Theorem C91_reuse_refuted : exists A1 A2 b2 C ub rows x mu, proper_mat 1 1 A1 /\ proper_mat 1 1 A2 /\ linear_constraint 1 1 C None (Some ub) = Some rows /\ own_variables 1 rows /\
  after_calls 0 1 [A1; A2] (mklc rows None) = Some (mklc rows (Some (Num mu))) /\ ~ satisfies 1 1 C None (Some ub) x /\ (exists y, satisfies 1 1 C None (Some ub) y) /\
  forall y, satisfies 1 1 C None (Some ub) y -> tol_value 0 1 A2 b2 y ones < tol_value 0 1 A2 b2 x ones - mu * violation 1 rows x.
Proof. exact used_again_x. Qed.
Print Assumptions C91_reuse_refuted.

(** Both a lower and an upper bound on one row: the automatic coefficient is
    infinite, and the penalty is NaN at every point that satisfies the constraints. *)
Theorem C91_two_sided : forall r n C lb ub rows i j l u num, linear_constraint r n C (Some lb) (Some ub) = Some rows ->
  (i < r)%nat -> (j < n)%nat -> C i j <> 0 -> lb i = BFin l -> ub i = BFin u -> 0 <= num ->
  auto_mu n rows num = Some (if Req_EM_T num 0 then NaN else Infty true).
Proof. exact two_sided_mu. Qed.
Print Assumptions C91_two_sided.
Theorem C91_infinite_penalty : forall r n C lb ub rows x, linear_constraint r n C lb ub = Some rows ->
  (satisfies r n C lb ub x -> penalty_ext n (Infty true) rows x = NaN) /\ (~ satisfies r n C lb ub x -> penalty_ext n (Infty true) rows x = Infty true).
Proof. exact infinite_penalty. Qed.
Print Assumptions C91_infinite_penalty.
(** In binary64: a run with this coefficient from a point that satisfies the
    constraints returns this point with the value NaN, whatever the functional and
    the parameters. *)
Theorem C91_infinite_run : forall (P : params flt_ops) fg rows m x0, (forall row, In row rows -> flt_ltb (snd row) (l_dot (fst row) x0) = false) ->
  r_x _ (fst (ralgb5 flt_ops P (fl_with_penalty finf rows fg) m x0)) = x0 /\
  r_f _ (fst (ralgb5 flt_ops P (fl_with_penalty finf rows fg) m x0)) = B754_nan.
Proof. exact infinite_mu. Qed.
Print Assumptions C91_infinite_run.

(** The hypotheses hold together: [x <= 1] with the system [x = 2]. *)
Example C91_case : exists A b C ub rows, proper_mat 1 1 A /\ proper_vec 1 b /\ at_most_one 1 ones /\ linear_constraint 1 1 C None (Some ub) = Some rows /\
  own_variables 1 rows /\ auto_mu 1 rows (max_mag 0 1 A) = Some (Num 1) /\ (exists x, ~ satisfies 1 1 C None (Some ub) x) /\ (exists y, satisfies 1 1 C None (Some ub) y).
Proof. exact constrained_case. Qed.
Example C91_two_sided_case : exists rows, linear_constraint 1 1 (fun _ _ => 1) (Some (fun _ => BFin 0)) (Some (fun _ => BFin 1)) = Some rows /\ auto_mu 1 rows 3 = Some (Infty true).
Proof. exact two_sided_case. Qed.
Example C91_infinite_case : forall row, In row [([fl 1 0], f1); ([fl (-1) 0], f0)] -> flt_ltb (snd row) (l_dot (fst row) [fl 1 (-1)]) = false.
Proof. intros row [<- | [<- | []]]; reflexivity. Qed.
