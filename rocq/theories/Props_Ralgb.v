(** The optimizer ralgb5 and the maximize methods built on it: C36.  [ralgb5]
    returns the result and, beside it, the list of all points at which calcfg was
    called. *)
From Coq Require Import ZArith Reals List Bool Arith Lia Lra.
From Verif Require Import PyNum Exact Recog SpecExact Ralgb5 SpecRalgb RalgbProofs RalgbMore RalgbCodes SpecShor ShorProofs ConstrainedProofs ConstrainedRefute.
Import ListNotations.

Theorem C36_returns_evaluated_point : forall (OP : ops) (P : params OP) calcfg m x0 r t, ralgb5 OP P calcfg m x0 = (r, t) ->
  In (r_x _ r) t /\ r_f _ r = fst (calcfg (r_x _ r)) /\ In x0 t /\ r_ncalls _ r = length t.
Proof. exact ralgb5_best. Qed.
Print Assumptions C36_returns_evaluated_point.

(** No evaluated point is better; the two conditions on < hold for reals and for
    binary64 including NaN (see the example). *)
Theorem C36_no_evaluated_point_is_better : forall (OP : ops) (P : params OP) calcfg m x0 r t, (forall a, n_lt OP a a = false) -> (forall a b c, n_lt OP a b = true -> n_lt OP c b = false -> n_lt OP c a = false) ->
  ralgb5 OP P calcfg m x0 = (r, t) -> forall y, In y t -> n_lt OP (fst (calcfg y)) (r_f _ r) = false.
Proof. exact ralgb5_no_better. Qed.
Print Assumptions C36_no_evaluated_point_is_better.

Theorem C36_counts_and_codes : forall (OP : ops) (P : params OP) calcfg m x0 r t, ralgb5 OP P calcfg m x0 = (r, t) ->
  In (r_code _ r) [1; 2; 3; 4; 5]%nat /\
  (r_code _ r = 2%nat -> exists y, In y t /\ n_lt OP (v_norm OP (snd (calcfg y))) (tolg _ P) = true) /\
  (r_code _ r = 4%nat -> (Z.of_nat (r_nit _ r) > maxiter _ P)%Z) /\
  (Z.of_nat (r_nit _ r) <= Z.max 0 (maxiter _ P + 1))%Z /\
  (r_ncalls _ r <= 1 + (r_nit _ r + 1) * 501)%nat.
Proof. exact ralgb5_counts. Qed.
Print Assumptions C36_counts_and_codes.

(** What each code says about the points at which calcfg was evaluated (see
    SpecRalgb.v): 2 exactly when one of them has a subgradient below tolg; 5 after
    501 steps against one direction, the derivative positive after each but the
    last; 3 after an iteration shorter than tolx; 1 when the best value changed
    by less than tolf over the last nsims iterations. *)
Theorem C36_codes : forall (OP : ops) (P : params OP) calcfg m x0 r t, ralgb5 OP P calcfg m x0 = (r, t) ->
  (r_code _ r = 2%nat <-> exists y, In y t /\ n_lt OP (v_norm OP (snd (calcfg y))) (tolg _ P) = true) /\
  (r_code _ r = 5%nat -> exists dx len t0, steps OP calcfg dx 501 len t0 t) /\
  (r_code _ r = 3%nat -> exists dx k len t0, steps OP calcfg dx k len t0 t /\ n_lt OP len (tolx _ P) = true) /\
  (r_code _ r = 1%nat -> exists u ends, t = u ++ [x0] /\ iterations OP calcfg x0 (u :: ends) /\ length ends = S (r_nit _ r) /\
     n_lt OP (relative_to OP (record OP calcfg u x0) (total_change OP calcfg (S (k_sims _ P)) x0 (u :: ends))) (tolf _ P) = true).
Proof. exact (fun OP P calcfg m x0 r t => ralgb5_codes OP P calcfg x0 m r t). Qed.
Print Assumptions C36_codes.
(** In binary64 the code 1 is not returned before nsims iterations. *)
Theorem C36_tolf_needs_nsims : forall (P : params flt_ops) calcfg m x0 r t, ralgb5 flt_ops P calcfg m x0 = (r, t) ->
  r_code _ r = 1%nat -> (S (k_sims _ P) <= r_nit _ r + 1)%nat.
Proof. exact code1_flt. Qed.
Print Assumptions C36_tolf_needs_nsims.
Example C36_codes_case : let two := fl 2 0 in let four := fl 4 0 in
  (code_of (code_params f0 two f0) abs_fg, code_of (code_params four f0 f0) abs_fg,
   code_of (code_params f0 f0 four) abs_fg, code_of (code_params f0 f0 f0) lin_fg) = ((2, 0), (3, 0), (1, 1), (5, 0))%nat.
Proof. vm_compute. reflexivity. Qed.

(** The documented limit nit <= maxiter is exceeded by one. *)
Theorem C36_nit_at_most_maxiter_refuted : exists OP P calcfg m x0, (0 <= maxiter OP P)%Z /\ (Z.of_nat (r_nit _ (fst (ralgb5 OP P calcfg m x0))) > maxiter OP P)%Z.
Proof. exact nit_x. Qed.
Print Assumptions C36_nit_at_most_maxiter_refuted.

Open Scope R_scope.
(** Tol.maximize and Uni.maximize over exact reals, from any starting point. *)
Theorem C36_tol_maximize : forall k n big P A b w x0 x v, proper_mat (S k) n A -> tol_maximize k n big P A b w x0 = (x, v) ->
  v = tol_value k n A b x w /\ tol_value k n A b x0 w <= v.
Proof. exact tol_maximize_spec. Qed.
Print Assumptions C36_tol_maximize.

(** A starting point that no point beats is what is returned; in binary64 a
    starting point with the value NaN is never left. *)
Theorem C36_start_kept : forall (OP : ops) (P : params OP) calcfg x0, (forall y, n_lt OP (fst (calcfg y)) (fst (calcfg x0)) = false) ->
  forall m, r_x _ (fst (ralgb5 OP P calcfg m x0)) = x0 /\ r_f _ (fst (ralgb5 OP P calcfg m x0)) = fst (calcfg x0).
Proof. exact ralgb5_stays. Qed.
Print Assumptions C36_start_kept.
Theorem C36_nan_start : forall (P : params flt_ops) fg m x0, fst (fg x0) = fnan ->
  r_x _ (fst (ralgb5 flt_ops P fg m x0)) = x0 /\ r_f _ (fst (ralgb5 flt_ops P fg m x0)) = fnan.
Proof. exact nan_start. Qed.
Print Assumptions C36_nan_start.

Theorem C36_tol_maximize_recognizes : forall k n big P A b w x0 x v, proper_mat (S k) n A -> positive (S k) w -> tol_maximize k n big P A b w x0 = (x, v) ->
  (0 <= v <-> tolerable (S k) n A b x) /\ (tolerable (S k) n A b x0 -> tolerable (S k) n A b x).
Proof. exact tol_maximize_sound. Qed.
Print Assumptions C36_tol_maximize_recognizes.

Theorem C36_uni_maximize : forall k n big P A b w x0 x v, proper_mat (S k) n A -> positive (S k) w -> uni_maximize k n big P A b w x0 = (x, v) ->
  v = uni_value k n A b x w /\ uni_value k n A b x0 w <= v /\ (0 <= v <-> united (S k) n A b x).
Proof. exact uni_maximize_sound. Qed.
Print Assumptions C36_uni_maximize.

Example C36_case : (forall a, n_lt flt_ops a a = false) /\
  (forall a b c, n_lt flt_ops a b = true -> n_lt flt_ops c b = false -> n_lt flt_ops c a = false) /\
  (let r := fst (ralgb5 flt_ops abs_params abs_fg 1 [f1]) in (r_nit _ r, r_code _ r, r_ncalls _ r) = (1, 4, 2)%nat).
Proof. exact (conj (proj1 flt_order) (conj (proj2 flt_order) abs_run)). Qed.
Example C36_real_case : proper_mat 1 1 (fun _ _ => mkr 1 2) /\ positive 1 ones.
Proof. split; [intros i j _ _; unfold proper; simpl; lra | intros i _; unfold ones; lra]. Qed.

(** C82: over exact reals, calcfg is evaluated exactly at the points of Shor's
    method (SpecShor.v), in that order, whatever calcfg is and whatever the values
    of x / 0 are: no step of the program divides by zero.  All directions are
    against the subgradient at the beginning of the line. *)
Theorem C82_moves : forall n big ndiv vdiv P calcfg x0 r t,
  (forall a b, b <> 0 -> ndiv a b = a / b) -> (forall v c, c <> 0 -> agree n (vdiv v c) (fun i => v i / c)) ->
  let OP := real_ops_with n big ndiv vdiv in
  (forall x y, agree n x y -> agree n (snd (calcfg x)) (snd (calcfg y))) -> 0 < (tolg OP P : R) -> (alpha OP P : R) <> 0 ->
  ralgb5 OP P calcfg n x0 = (r, t) ->
  let shor := after n (fun x => snd (calcfg x)) (alpha OP P) (h0 OP P) (q1 OP P) (q2 OP P) (nh OP P) x0 in
  (forall k y, nth_error (rev t) k = Some y -> agree n y (at_ (shor k))) /\
  (forall k, (S k < length t)%nat -> positive_definite n (metric (shor k)) /\ non_zero n (since (shor k)) /\ 0 < dot n (direction n (shor k)) (since (shor k))).
Proof. exact ralgb5_moves. Qed.
Print Assumptions C82_moves.
(** The objectives of Tol, Uni and Uss meet the condition on calcfg. *)
Theorem C82_applies : forall k n A b w x y, agree n x y ->
  agree n (snd (tol_fg k n A b w x)) (snd (tol_fg k n A b w y)) /\ agree n (snd (uni_fg k n A b w x)) (snd (uni_fg k n A b w y)) /\
  agree n (snd (uss_fg k n A b w x)) (snd (uss_fg k n A b w y)).
Proof. exact (fun k n A b w x y E => conj (tol_agree k n A b w x y E) (conj (uni_agree k n A b w x y E) (uss_agree k n A b w x y E))). Qed.
Print Assumptions C82_applies.
(** With tolg = 0 the condition fails and the program divides by zero: at a
    minimum with gradient 0 the result depends on the value of 0 / 0. *)
Theorem C82_tolg_zero_refuted : forall c : R, exists P : params (real_ops_with 1 0 Rdiv (div_or c)),
  tolg _ P = 0 /\ alpha _ P = 2 /\ exists y t, snd (ralgb5 _ P (fun _ => (0, fun _ => 0)) 1 (fun _ => 5)) = y :: t /\ y O = 5 - c.
Proof. exact tolg_zero_x. Qed.
Print Assumptions C82_tolg_zero_refuted.
(** The minimum of |x| from 1 with step 3. *)
Example C82_case : let OP := real_ops_with 1 0 Rdiv (fun v c i => v i / c) in let P := one_params 0 10 (1 / 2) 2 3 Rdiv (fun v c i => v i / c) in
  (forall a b, b <> 0 -> a / b = a / b) /\ (forall (v : vec) c, c <> 0 -> agree 1 (fun i => v i / c) (fun i => v i / c)) /\
  (forall x y, agree 1 x y -> agree 1 (snd (abs1 x)) (snd (abs1 y))) /\ 0 < (tolg OP P : R) /\ (alpha OP P : R) <> 0 /\
  exists y, rev (snd (ralgb5 OP P abs1 1 (fun _ => 1))) = [(fun _ => 1); y] /\ y O = -2.
Proof. split; [reflexivity|]. split; [intros v c _ i _; reflexivity|]. exact abs1_run. Qed.
