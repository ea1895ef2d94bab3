(** The regression models WILS and ISPAE over exact reals: C54, C55, C63, C64. *)
From Coq Require Import Reals ZArith List Bool Arith Lia Lra.
From Verif Require Import Exact Recog SpecExact ExactProofs Ralgb5 Models SpecModels WilsProofs IspaeProofs IspaeMore IspaeBases IspaeFit IspaeLinear.
Import ListNotations.
Open Scope R_scope.

(** ** C54: weights *)
Theorem C54_smoothing : forall alpha beta w k, smooth (fun x => x) alpha beta w k = (1 - alpha) * total (S k) (fun i => beta ^ (k - i + 1) * alpha ^ (k - i) * w i).
Proof. exact smooth_closed. Qed.
Print Assumptions C54_smoothing.

Theorem C54_weights_kept : forall store w k, (forall i, (i <= k)%nat -> store (w i) = w i) -> smooth store 0 1 w k = w k.
Proof. exact smooth_keep. Qed.
Print Assumptions C54_weights_kept.

Theorem C54_weights_positive : forall alpha beta w k, 0 <= alpha < 1 -> 0 < beta -> (forall i, (i <= k)%nat -> 0 < w i) -> 0 < smooth (fun x => x) alpha beta w k.
Proof. exact smooth_pos. Qed.
Print Assumptions C54_weights_positive.

Theorem C54_default_reproducible : forall store alpha beta h, fits store alpha beta h None = repeat (smooth (fun x => x) alpha beta ones) h.
Proof. exact fits_default. Qed.
Print Assumptions C54_default_reproducible.

Theorem C54_no_smoothing_reproducible : forall store h w, (forall k, store (w k) = w k) -> fits store 0 1 h (Some w) = repeat w h.
Proof. exact fits_keep. Qed.
Print Assumptions C54_no_smoothing_reproducible.

Theorem C54_history : forall store alpha beta h w i, (i < h)%nat ->
  nth_error (fits store alpha beta h (Some w)) i = Some (Nat.iter (S i) (smooth store alpha beta) w).
Proof. exact fits_given. Qed.
Print Assumptions C54_history.

(** The caller's array is overwritten, so a second fit uses other weights. *)
Theorem C54_caller_changed_refuted : exists alpha beta w u v, 0 <= alpha < 1 /\ 0 < beta /\ fits (fun x => x) alpha beta 2 (Some w) = [u; v] /\
  fst (fit_weights (fun x => x) alpha beta (Some w)) = u /\ u 0%nat <> v 0%nat /\ snd (fit_weights (fun x => x) alpha beta (Some w)) <> Some w.
Proof. exact fits_given_refuted. Qed.
Print Assumptions C54_caller_changed_refuted.

(** An integer array is truncated: unit weights become zero. *)
Theorem C54_integer_weights_refuted : forall k, smooth to_int (1 / 2) 1 ones k = 0.
Proof. exact smooth_int_zero. Qed.
Print Assumptions C54_integer_weights_refuted.

Example C54_case : smooth (fun x => x) (1 / 2) 1 (fun i => match i with O => 2 | _ => 4 end) 1 = 5 / 2 /\ to_int (IZR (-3)) = -3.
Proof. split; [simpl; lra | apply to_int_Z]. Qed.

(** ** C63: WILS *)
Theorem C63_tol_value : forall k n A b w x, proper_mat (S k) n A -> exists s : vec, (forall i, (i < S k)%nat -> tol_slack_of n A b x i (s i)) /\
  least (S k) (fun i => w i * s i) (- fst (wils_calcfg OTol NInf k n A b w x)) /\ - fst (wils_calcfg OTol NL1 k n A b w x) = total (S k) (fun i => w i * s i).
Proof. exact wils_tol_value. Qed.
Print Assumptions C63_tol_value.

Theorem C63_uni_value : forall k n A b w x, proper_mat (S k) n A -> exists s : vec, (forall i, (i < S k)%nat -> uni_slack_of n A b x i (s i)) /\
  least (S k) (fun i => w i * s i) (- fst (wils_calcfg OUni NInf k n A b w x)) /\ - fst (wils_calcfg OUni NL1 k n A b w x) = total (S k) (fun i => w i * s i).
Proof. exact wils_uni_value. Qed.
Print Assumptions C63_uni_value.

Theorem C63_tol_subgradient : forall nm k n A b w x, proper_mat (S k) n A -> non_negative (S k) w ->
  subgradient n (fun y => fst (wils_calcfg OTol nm k n A b w y)) x (snd (wils_calcfg OTol nm k n A b w x)).
Proof. exact wils_tol_subgradient. Qed.
Print Assumptions C63_tol_subgradient.

Theorem C63_uss_subgradient_in_orthant : forall nm k n A b w x y, proper_mat (S k) n A -> non_negative (S k) w -> same_orthant n x y ->
  fst (wils_calcfg OUss nm k n A b w x) + dot n (snd (wils_calcfg OUss nm k n A b w x)) (minus y x) <= fst (wils_calcfg OUss nm k n A b w y).
Proof. exact wils_uss_subgradient. Qed.
Print Assumptions C63_uss_subgradient_in_orthant.

(** Uni, in the orthant of the point: when no row that attains the value ('inf') or no row
    at all ('l1') has the midpoint of its right-hand side strictly inside its range; without
    that it fails. *)
Theorem C63_uni_subgradient_in_orthant : forall k n A b w x, proper_mat (S k) n A -> non_negative (S k) w ->
  (forall i s, (i < S k)%nat -> uni_slack_of n A b x i s -> w i * s = - fst (wils_calcfg OUni NInf k n A b w x) -> ~ (rl (imv n A x i) < r_mid (b i) < rh (imv n A x i))) ->
  forall y, same_orthant n x y ->
  fst (wils_calcfg OUni NInf k n A b w x) + dot n (snd (wils_calcfg OUni NInf k n A b w x)) (minus y x) <= fst (wils_calcfg OUni NInf k n A b w y).
Proof. exact wils_uni_subgradient_slack. Qed.
Print Assumptions C63_uni_subgradient_in_orthant.
Theorem C63_uni_l1_subgradient_in_orthant : forall k n A b w x, proper_mat (S k) n A -> non_negative (S k) w ->
  (forall i, (i < S k)%nat -> ~ (rl (imv n A x i) < r_mid (b i) < rh (imv n A x i))) ->
  forall y, same_orthant n x y ->
  fst (wils_calcfg OUni NL1 k n A b w x) + dot n (snd (wils_calcfg OUni NL1 k n A b w x)) (minus y x) <= fst (wils_calcfg OUni NL1 k n A b w y).
Proof. exact wils_uni_subgradient_l1. Qed.
Print Assumptions C63_uni_l1_subgradient_in_orthant.
Theorem C63_uni_subgradient_refuted : forall nm, exists k n A b x y, proper_mat (S k) n A /\ proper_vec (S k) b /\ same_orthant n x y /\
  fst (wils_calcfg OUni nm k n A b ones y) < fst (wils_calcfg OUni nm k n A b ones x) + dot n (snd (wils_calcfg OUni nm k n A b ones x)) (minus y x).
Proof. exact wils_uni_grad_x. Qed.
Print Assumptions C63_uni_subgradient_refuted.
(** Two rows [[1,2] x = [5,7]] and [[1,3] x = [-1,0]] at 1. *)
Example C63_uni_case : let A : imat := fun i _ => if (i =? 0)%nat then mkr 1 2 else mkr 1 3 in let b : ivec := fun i => if (i =? 0)%nat then mkr 5 7 else mkr (-1) 0 in
  proper_mat 2 1 A /\ same_orthant 1 (fun _ => 1) (fun _ => 3) /\ forall i, (i < 2)%nat -> ~ (rl (imv 1 A (fun _ => 1) i) < r_mid (b i) < rh (imv 1 A (fun _ => 1) i)).
Proof.
  cbv zeta. split; [intros i j _ _; unfold proper; destruct (i =? 0)%nat; simpl; lra|]. split; [intros j _; split; lra|].
  intros i Hi. assert (C : i = 0%nat \/ i = 1%nat) by lia. destruct C as [-> | ->]; cbv [imv isum r_point r_add r_scale r_mid rl rh Nat.eqb]; rewrite !Rmult_1_l, ?(Rmin_left 1 2), ?(Rmax_right 1 2), ?(Rmin_left 1 3), ?(Rmax_right 1 3) by lra; lra.
Qed.

(** What fit returns. *)
Theorem C63_fit : forall o nm alpha beta con k n big P A b weight x0 x v w', wils_fit o nm alpha beta con k n big P A b weight x0 = (x, v, w') ->
  let w := fst (fit_weights (fun t => t) alpha beta weight) in
  v = fit_value o nm con k n A b w x /\ fit_value o nm con k n A b w x0 <= v.
Proof. exact wils_fit_spec. Qed.
Print Assumptions C63_fit.

Theorem C63_fit_recognizes : forall alpha beta k n big P A b weight x0 x v w', proper_mat (S k) n A ->
  positive (S k) (fst (fit_weights (fun t => t) alpha beta weight)) -> wils_fit OTol NInf alpha beta None k n big P A b weight x0 = (x, v, w') ->
  (0 <= v <-> tolerable (S k) n A b x) /\ (tolerable (S k) n A b x0 -> tolerable (S k) n A b x).
Proof. exact wils_tol_from. Qed.
Print Assumptions C63_fit_recognizes.

Theorem C63_tol_predict : forall alpha beta k n big P A b weight x0 x v w' i, proper_mat (S k) n A ->
  positive (S k) (fst (fit_weights (fun t => t) alpha beta weight)) -> wils_fit OTol NInf alpha beta None k n big P A b weight x0 = (x, v, w') ->
  0 <= v -> (i < S k)%nat -> rl (b i) <= rl (wils_predict n A x i) /\ rh (wils_predict n A x i) <= rh (b i).
Proof. exact wils_tol_predict. Qed.
Print Assumptions C63_tol_predict.

Theorem C63_uni_predict : forall alpha beta k n big P A b weight x0 x v w' i, proper_mat (S k) n A ->
  positive (S k) (fst (fit_weights (fun t => t) alpha beta weight)) -> wils_fit OUni NInf alpha beta None k n big P A b weight x0 = (x, v, w') ->
  0 <= v -> (i < S k)%nat -> exists r, inI (b i) r /\ inI (wils_predict n A x i) r.
Proof. exact wils_uni_predict. Qed.
Print Assumptions C63_uni_predict.

(** The 'l1' value is a sum: non-negative for every solution, but also elsewhere. *)
Theorem C63_l1_necessary : forall k n A b w x, proper_mat (S k) n A -> positive (S k) w -> tolerable (S k) n A b x -> 0 <= - fst (wils_calcfg OTol NL1 k n A b w x).
Proof. exact wils_l1_necessary. Qed.
Print Assumptions C63_l1_necessary.

Theorem C63_l1_sufficient_refuted : exists k n A b w x, proper_mat (S k) n A /\ positive (S k) w /\ 0 <= - fst (wils_calcfg OTol NL1 k n A b w x) /\ ~ tolerable (S k) n A b x.
Proof. exact wils_l1_refuted. Qed.
Print Assumptions C63_l1_sufficient_refuted.

Definition c63_A : imat := fun i j => match i, j with O, O => mkr 1 2 | O, _ => mkr 0 1 | _, O => mkr (-1) 1 | _, _ => mkr 1 1 end.
Definition c63_b : ivec := fun i => match i with O => mkr 0 4 | _ => mkr (-1) 3 end.
Example C63_case : proper_mat 2 2 c63_A /\ positive 2 (fst (fit_weights (fun t => t) (1 / 2) 1 None)) /\ tolerable 2 2 c63_A c63_b (fun _ => 1).
Proof.
  split; [intros i j _ _; unfold c63_A, proper; destruct i, j; simpl; lra|]. split; [intros i _; apply smooth_pos; intros; lra|].
  intros M H [|[|i]] Hi; try lia; unfold inI, times; simpl.
  - assert (H1 := H 0%nat 0%nat ltac:(lia) ltac:(lia)). assert (H2 := H 0%nat 1%nat ltac:(lia) ltac:(lia)). unfold inI, c63_A in *. simpl in *. lra.
  - assert (H1 := H 1%nat 0%nat ltac:(lia) ltac:(lia)). assert (H2 := H 1%nat 1%nat ltac:(lia) ltac:(lia)). unfold inI, c63_A in *. simpl in *. lra.
Qed.

(** ** C55: values of ISPAE *)
(** The bases. *)
Theorem C55_monomials : forall d x, basis Monom d x = x ^ d.
Proof. exact monom_pow. Qed.
Print Assumptions C55_monomials.

Theorem C55_chebyshev : forall d t, basis Chebyshev d (cos t) = cos (INR d * t).
Proof. exact chebyshev_cos. Qed.
Print Assumptions C55_chebyshev.

(** H_0 = 1, H' = 2 d H_{d-1} and H'' = 2 x H' - 2 d H. *)
Theorem C55_hermite : forall d, (forall x, basis Hermite 0 x = 1) /\
  exists g, (forall x, derivable_pt_lim (basis Hermite (S d)) x (g x)) /\ (forall x, g x = 2 * INR (S d) * basis Hermite d x) /\
    forall x, derivable_pt_lim g x (2 * x * g x - 2 * INR (S d) * basis Hermite (S d) x).
Proof. exact hermite_equation. Qed.
Print Assumptions C55_hermite.

(** P(1) = 1 and ((1 - x^2) P')' = - d (d + 1) P. *)
Theorem C55_legendre : forall d, basis Legendre d 1 = 1 /\
  exists g, (forall x, derivable_pt_lim (basis Legendre d) x (g x)) /\
    forall x, derivable_pt_lim (fun y => (1 - y * y) * g y) x (- (INR d * (INR d + 1)) * basis Legendre d x).
Proof. exact legendre_equation. Qed.
Print Assumptions C55_legendre.

(** L(0) = 1 and (x L')' = x L' - d L. *)
Theorem C55_laguerre : forall d, basis Laguerre d 0 = 1 /\
  exists g, (forall x, derivable_pt_lim (basis Laguerre d) x (g x)) /\
    forall x, derivable_pt_lim (fun y => y * g y) x (x * g x - INR d * basis Laguerre d x).
Proof. exact laguerre_equation. Qed.
Print Assumptions C55_laguerre.

Theorem C55_column_exact : forall bk roots beta degs X, proper X -> lists_roots (poly bk beta degs) (roots beta degs) ->
  exists Z, value_of_one_col bk roots beta degs X = Some Z /\ exact_range (poly bk beta degs) X Z.
Proof. exact column_range. Qed.
Print Assumptions C55_column_exact.

Theorem C55_column_inner : forall bk roots beta degs X Z, value_of_one_col bk roots beta degs X = Some Z ->
  (exists x, inI X x /\ poly bk beta degs x = rl Z) /\ (exists x, inI X x /\ poly bk beta degs x = rh Z).
Proof. exact column_inner. Qed.
Print Assumptions C55_column_inner.

Theorem C55_roots_exist : forall bk beta degs, exists l, lists_roots (poly bk beta degs) l.
Proof. exact roots_exist. Qed.
Print Assumptions C55_roots_exist.

Theorem C55_row_exact : forall bk roots cols, forall beta, Forall (fun c => proper (snd c)) cols -> roots_ok bk (map fst cols) roots ->
  exists Z, ispae_value bk roots beta cols = Some Z /\ exact_range_box (additive (basis bk) beta (map fst cols)) (map snd cols) Z.
Proof. exact row_range. Qed.
Print Assumptions C55_row_exact.

Theorem C55_predict_encloses : forall bk roots beta cols, Forall (fun c => proper (snd c)) cols -> basis_roots_ok bk (map fst cols) roots ->
  exists Z, ispae_predict bk roots beta cols = Some Z /\ forall xs, in_box (map snd cols) xs -> inI Z (additive (basis bk) beta (map fst cols) xs).
Proof. exact predict_encloses. Qed.
Print Assumptions C55_predict_encloses.

Theorem C55_value_in_predict : forall bk roots beta cols V Z, Forall (fun c => proper (snd c)) cols -> roots_ok bk (map fst cols) roots -> basis_roots_ok bk (map fst cols) roots ->
  ispae_value bk roots beta cols = Some V -> ispae_predict bk roots beta cols = Some Z -> rl Z <= rl V /\ rh V <= rh Z.
Proof. exact value_in_predict. Qed.
Print Assumptions C55_value_in_predict.

Theorem C55_bias : forall bk roots c beta cols, ispae_value bk roots (c :: beta) (bias_col :: cols) =
  match ispae_value bk roots beta cols with Some Z => Some (r_add (r_point (c * bias_factor bk)) Z) | None => None end.
Proof. exact bias_value. Qed.
Print Assumptions C55_bias.

(** With Laguerre polynomials the bias column is zero: the bias has no effect. *)
Theorem C55_bias_laguerre_refuted : forall roots c c' beta cols, ispae_value Laguerre roots (c :: beta) (bias_col :: cols) = ispae_value Laguerre roots (c' :: beta) (bias_col :: cols).
Proof. exact bias_laguerre. Qed.
Print Assumptions C55_bias_laguerre_refuted.

Example C55_case : roots_ok Monom (map fst (iq_rows 0)) qroots /\ basis_roots_ok Monom (map fst (iq_rows 0)) qroots /\
  Forall (fun c => proper (snd c)) (iq_rows 0) /\ exists Z, ispae_value Monom qroots [1; 1] (iq_rows 0) = Some Z /\ rl Z = -1 / 4 /\ rh Z = 2.
Proof.
  split; [exact (proj1 qroots_ok)|]. split; [exact (proj2 qroots_ok)|]. split; [exact (proj1 (iq_data 0%nat ltac:(lia)))|].
  rewrite iq_value by lra. eexists. split; [reflexivity|]. cbn [rl rh]. split; rr.
Qed.

(** ** C64: objectives and fits of ISPAE *)
Theorem C64_tol_recognizes : forall bk roots k N rows y w x, data_ok bk roots k rows -> positive (S k) w ->
  (0 <= - fst (ispae_calcfg false NInf bk roots k N rows y w x) <-> forall i, (i < S k)%nat -> fits_all bk (map x (seq 0 N)) (rows i) (y i)).
Proof. exact ispae_tol_recognizes. Qed.
Print Assumptions C64_tol_recognizes.

Theorem C64_uni_recognizes : forall bk roots k N rows y w x, data_ok bk roots k rows -> positive (S k) w -> proper_vec (S k) y ->
  (0 <= - fst (ispae_calcfg true NInf bk roots k N rows y w x) <-> forall i, (i < S k)%nat -> fits_some bk (map x (seq 0 N)) (rows i) (y i)).
Proof. exact ispae_uni_recognizes. Qed.
Print Assumptions C64_uni_recognizes.

Theorem C64_fit : forall uni nm bk roots alpha beta k N big P rows y weight x0 x v w', ispae_fit uni nm bk roots alpha beta k N big P rows y weight x0 = (x, v, w') ->
  let w := fst (fit_weights (fun t => t) alpha beta weight) in
  v = - fst (ispae_calcfg uni nm bk roots k N rows y w x) /\ - fst (ispae_calcfg uni nm bk roots k N rows y w x0) <= v.
Proof. exact ispae_fit_spec. Qed.
Print Assumptions C64_fit.

Theorem C64_tol_fit : forall bk roots alpha beta k N big P rows y weight x0 x v w', data_ok bk roots k rows -> positive (S k) (fst (fit_weights (fun t => t) alpha beta weight)) ->
  ispae_fit false NInf bk roots alpha beta k N big P rows y weight x0 = (x, v, w') ->
  (0 <= v <-> forall i, (i < S k)%nat -> fits_all bk (map x (seq 0 N)) (rows i) (y i)).
Proof. exact ispae_tol_fit. Qed.
Print Assumptions C64_tol_fit.

(** The predictions on the training data can leave the observed intervals. *)
Theorem C64_predict_refuted : exists bk roots k N rows y w x Z, data_ok bk roots k rows /\ basis_roots_ok bk (map fst (rows 0%nat)) roots /\ positive (S k) w /\
  0 <= - fst (ispae_calcfg false NInf bk roots k N rows y w x) /\ ispae_predict bk roots (map x (seq 0 N)) (rows 0%nat) = Some Z /\ ~ (rl (y 0%nat) <= rl Z /\ rh Z <= rh (y 0%nat)).
Proof. exact predict_outside. Qed.
Print Assumptions C64_predict_refuted.

(** The vector used by the optimizer is no subgradient in general. *)
Theorem C64_subgradient_refuted : exists bk roots k N rows y x, data_ok bk roots k rows /\ basis_roots_ok bk (map fst (rows 0%nat)) roots /\
  exists z, fst (ispae_calcfg false NInf bk roots k N rows y ones z) <
    fst (ispae_calcfg false NInf bk roots k N rows y ones x) + dot N (snd (ispae_calcfg false NInf bk roots k N rows y ones x)) (minus z x).
Proof. exact ispae_gradient_refuted. Qed.
Print Assumptions C64_subgradient_refuted.

(** With columns of order one (any basis, any root finder) ISPAE computes what
    WILS computes for the matrix of the first basis polynomials, and the vector
    used for Tol is a subgradient. *)
Theorem C64_first_order_is_wils : forall uni nm bk roots k N rows y w x, first_order k N rows ->
  fst (ispae_calcfg uni nm bk roots k N rows y w x) = fst (wils_calcfg (if uni then OUni else OTol) nm k N (column_matrix bk rows) y w x) /\
  forall j, (j < N)%nat -> snd (ispae_calcfg uni nm bk roots k N rows y w x) j = snd (wils_calcfg (if uni then OUni else OTol) nm k N (column_matrix bk rows) y w x) j.
Proof. exact ispae_first_order. Qed.
Print Assumptions C64_first_order_is_wils.

Theorem C64_first_order_subgradient : forall nm bk roots k N rows y w x, first_order k N rows -> non_negative (S k) w ->
  subgradient N (fun z => fst (ispae_calcfg false nm bk roots k N rows y w z)) x (snd (ispae_calcfg false nm bk roots k N rows y w x)).
Proof. exact ispae_first_order_subgradient. Qed.
Print Assumptions C64_first_order_subgradient.

Example C64_first_order_case : first_order 1 2 (fun i => [(1%nat, mkr 1 (2 + INR i)); bias_col]).
Proof. intros i Hi. split; [reflexivity|]. assert (P := pos_INR i). repeat constructor; unfold proper; cbn; lra. Qed.

Example C64_case : data_ok Monom qroots 0 iq_rows /\ fits_all Monom [1; 1] (iq_rows 0) (mkr (-1) 3) /\ ~ fits_all Monom [1; 1] (iq_rows 0) (mkr 0 3) /\ fits_some Monom [1; 1] (iq_rows 0) (mkr 0 3).
Proof.
  assert (V : forall x, additive (basis Monom) [1; 1] [2%nat] [x] = x + x * x) by (intro x; cbn [additive firstn combination]; rewrite !monom_pow; simpl; ring).
  split; [exact iq_data|]. split; [|split].
  - intros xs H. inversion H as [|? x ? xs' Hx Hxs]; subst. inversion Hxs; subst. change (map fst (iq_rows 0)) with [2%nat]. rewrite V. unfold inI in *. cbn [rl rh snd] in *. assert (Q := Rle_0_sqr (x + 1 / 2)). unfold Rsqr in Q. split; nra.
  - intro F. assert (Q := F [-1 / 2] ltac:(repeat constructor; unfold inI; simpl; lra)). change (map fst (iq_rows 0)) with [2%nat] in Q. rewrite V in Q. unfold inI in Q. cbn [rl rh] in Q. lra.
  - exists [1]. split; [repeat constructor; unfold inI; simpl; lra|]. change (map fst (iq_rows 0)) with [2%nat]. rewrite V. unfold inI. cbn [rl rh]. lra.
Qed.