(** C97: what WILS.fit and WILS.predict return in binary64. *)
From Coq Require Import ZArith Reals Lra Lia List Bool.
From Flocq Require Import Core IEEE754.BinarySingleNaN.
From Verif Require Models.
From Verif Require Import Base PyNum Kernel Spec Expr Arrays Construct SpecArray Witness RecogFl SpecRecogFl RecogFlRefute UssFl SpecUssFl UssFlRefute
  Ralgb5 RecogOpt SpecRecogOpt RecogOptRefute RecogOptCon SpecRecogOptCon RecogOptConProofs RecogOptConRefute Props_RecogFl Props_RecogOpt WilsFl SpecWilsFl WilsFlMain WilsFlFit WilsFlSmooth WilsFlRefute.
Import ListNotations.
Open Scope R_scope.

(** The data and the observations must have the same number of rows; then, with
    a weight for some row, fit does not fail. *)
Theorem C97_inconsistent_dimensions : forall fdot cdot csum alpha beta o nm constraint W P X y weight x0 r k n,
  shp X = [r; n] -> shp y = [k] -> r <> k ->
  wils_fit_fl fdot cdot csum alpha beta o nm constraint W P X y weight x0 = Err AssertionError.
Proof. exact fit_shape. Qed.
Print Assumptions C97_inconsistent_dimensions.
Theorem C97_fit_returns : forall fdot cdot csum alpha beta o nm constraint W P X y weight x0 r n,
  shp X = [r; n] -> shp y = [r] -> weight <> [] ->
  exists x v w, wils_fit_fl fdot cdot csum alpha beta o nm constraint W P X y weight x0 = Ok (x, v, w) /\ length w = length weight.
Proof. exact fit_total. Qed.
Print Assumptions C97_fit_returns.

(** The reported value, unless it is NaN, is the least weighted slack (or the
    sum of all) at the reported coefficients less the penalty, with the smoothed
    weights; and no less than at the starting point. *)
Theorem C97_reported_value : forall fdot cdot csum alpha beta o nm constraint W P X y weight x0 x v w,
  wils_fit_fl fdot cdot csum alpha beta o nm constraint W P X y weight x0 = Ok (x, v, w) -> is_nan v = false ->
  (exists T t, returns (slacks fdot o X y w x) mode_NE T /\ norm_of csum nm T t /\ less_penalty cdot csum constraint x t v) /\
  exists T0 t0 v0, returns (slacks fdot o X y w x0) mode_NE T0 /\ norm_of csum nm T0 t0 /\ less_penalty cdot csum constraint x0 t0 v0 /\ flt_leb v0 v = true.
Proof. exact fit_value. Qed.
Print Assumptions C97_reported_value.

(** The smoothed weights stay positive and do not grow beyond the bound of the
    given ones; without smoothing (alpha = 0, beta = 1) they are the given ones. *)
Theorem C97_smoothed_weights : forall fdot cdot csum alpha beta o nm constraint W P r X y weight x0 x v w,
  is_finite alpha = true -> 0 <= B2R alpha < 1 -> is_finite beta = true -> bpow radix2 (-100) <= B2R beta <= 1 ->
  length weight = r -> between (bpow radix2 (-300)) (bpow radix2 300) weight ->
  wils_fit_fl fdot cdot csum alpha beta o nm constraint W P X y weight x0 = Ok (x, v, w) ->
  length w = r /\ between (bpow radix2 (-453)) (bpow radix2 300) w.
Proof. exact fit_weights. Qed.
Print Assumptions C97_smoothed_weights.
Theorem C97_smoothing_rule : forall alpha beta, is_finite alpha = true -> 0 <= B2R alpha < 1 -> is_finite beta = true -> bpow radix2 (-100) <= B2R beta <= 1 ->
  forall fdot cdot csum o nm constraint W P X y weight x0 x v w, between (bpow radix2 (-300)) (bpow radix2 300) weight ->
  wils_fit_fl fdot cdot csum alpha beta o nm constraint W P X y weight x0 = Ok (x, v, w) -> smoothed (B2R alpha) (B2R beta) weight w.
Proof. exact fit_smoothed. Qed.
Print Assumptions C97_smoothing_rule.
Theorem C97_no_smoothing : forall alpha beta, is_finite alpha = true -> B2R alpha = 0 -> is_finite beta = true -> B2R beta = 1 ->
  forall fdot cdot csum o nm constraint W P X y weight x0 x v w, Forall (fun a => is_finite a = true) weight ->
  wils_fit_fl fdot cdot csum alpha beta o nm constraint W P X y weight x0 = Ok (x, v, w) ->
  Forall2 (fun a b => is_finite b = true /\ B2R b = B2R a) weight w.
Proof. exact fit_plain. Qed.
Print Assumptions C97_no_smoothing.
(** With smoothing the array of the caller changes: fitting again with it
    smooths again and reports something else. *)
Theorem C97_repeated_fit_refuted : exists alpha beta weight X y x0 x v w x2 v2 w2, is_finite alpha = true /\ 0 <= B2R alpha < 1 /\ B2R beta = 1 /\
  wils_fit_fl seq_dot l_dot in_turn alpha beta Models.OTol Models.NInf None flt_vops (default_params flt_vops) X y weight x0 = Ok (x, v, w) /\
  wils_fit_fl seq_dot l_dot in_turn alpha beta Models.OTol Models.NInf None flt_vops (default_params flt_vops) X y w x0 = Ok (x2, v2, w2) /\
  exists a a2, nth_error w 0 = Some a /\ nth_error w2 0 = Some a2 /\ flt_ltb a2 a = true /\ flt_ltb v2 v = true.
Proof. exact again_run. Qed.
Print Assumptions C97_repeated_fit_refuted.

(** norm='inf': a non-negative value means that the reported coefficients explain
    every observation, up to rounding; under either norm a negative one, at
    coefficients that satisfy the constraint, means that they do not. *)
Theorem C97_nonnegative : forall fdot cdot csum alpha beta o nm constraint W P g h r n X y weight x0 x v w,
  is_finite alpha = true -> 0 <= B2R alpha < 1 -> is_finite beta = true -> bpow radix2 (-100) <= B2R beta <= 1 ->
  length weight = r -> between (bpow radix2 (-300)) (bpow radix2 300) weight ->
  wils_fit_fl fdot cdot csum alpha beta o nm constraint W P X y weight x0 = Ok (x, v, w) ->
  adds_up csum -> dot_within fdot n g h -> 0 <= g <= 1 -> 0 <= h <= 1 -> (Z.of_nat n <= 2 ^ 100)%Z ->
  system r n X y (point x) -> moderate X y (point x) -> nm = Models.NInf -> penalises constraint -> flt_leb f0 v = true ->
  explains o n X y (fun i => 2 * uss_margin g h n X y (point x) i + bpow radix2 (-535)) x.
Proof. exact fit_nn. Qed.
Print Assumptions C97_nonnegative.
Theorem C97_negative : forall fdot cdot csum alpha beta o nm constraint W P g h r n X y weight x0 x v w,
  is_finite alpha = true -> 0 <= B2R alpha < 1 -> is_finite beta = true -> bpow radix2 (-100) <= B2R beta <= 1 ->
  length weight = r -> between (bpow radix2 (-300)) (bpow radix2 300) weight ->
  wils_fit_fl fdot cdot csum alpha beta o nm constraint W P X y weight x0 = Ok (x, v, w) ->
  adds_up csum -> dot_within fdot n g h -> 0 <= g <= 1 -> 0 <= h <= 1 -> (Z.of_nat n <= 2 ^ 100)%Z ->
  system r n X y (point x) -> moderate X y (point x) -> satisfied cdot constraint x -> flt_ltb v f0 = true ->
  ~ explains o n X y (fun i => - (2 * uss_margin g h n X y (point x) i)) x.
Proof. exact fit_neg. Qed.
Print Assumptions C97_negative.
(** norm='l1': a non-negative value says nothing of the kind, with any of the
    three objectives. *)
Theorem C97_sum_refuted : forall o, exists X y x0 x v w,
  wils_fit_fl seq_dot l_dot in_turn f0 f1 o Models.NL1 None flt_vops (default_params flt_vops) X y (default_weight 2) x0 = Ok (x, v, w) /\
  flt_leb f0 v = true /\ ~ explains o 1 X y (fun _ => 1) x.
Proof. exact l1_run. Qed.
Print Assumptions C97_sum_refuted.

(** Predictions contain what every matrix of the data gives. *)
Theorem C97_predictions : forall r n X x m, (0 < n)%nat -> consistent X -> shp X = [r; n] -> Forall good (adata (adat X)) ->
  length x = n -> Forall (fun a => is_finite a = true) x ->
  exists Z, returns (wils_predict_fl X x) m Z /\ ashape Z = [r] /\
    forall Q, in_matrix X Q -> forall i, (i < r)%nat -> exists e, aget Z [i] = Some (OItv e) /\ member_or_nan e (row_value n Q (point x) i).
Proof. exact predict_encloses. Qed.
Print Assumptions C97_predictions.

(** Runs with smoothing that meet the hypotheses: one for each objective that
    ends with a non-negative value, and one with a constraint that ends with a
    negative value. *)
Lemma plain_between n : between (bpow radix2 (-300)) (bpow radix2 300) (default_weight n).
Proof.
  apply Forall_forall. intros a H. apply repeat_spec in H. subst a. split; [reflexivity|]. rewrite one_val. change 1 with (bpow radix2 0). split; apply bpow_le; lia.
Qed.
Lemma half_ok : is_finite f_half = true /\ 0 <= B2R f_half < 1.
Proof. split; [vm_compute; reflexivity|]. unfold f_half. rewrite (B2R_sf _ false 4503599627370496 (-53)) by (vm_compute; reflexivity). feval. lra. Qed.
Lemma one_ok : is_finite f1 = true /\ bpow radix2 (-100) <= B2R f1 <= 1.
Proof. split; [reflexivity|]. rewrite one_val. split; [|lra]. change 1 with (bpow radix2 0). apply bpow_le; lia. Qed.
Example C97_case : between (bpow radix2 (-300)) (bpow radix2 300) (default_weight 2) /\ (is_finite f_half = true /\ 0 <= B2R f_half < 1) /\ (is_finite f1 = true /\ bpow radix2 (-100) <= B2R f1 <= 1) /\
  adds_up in_turn /\
  (forall o, exists x v w, wils_fit_fl seq_dot l_dot in_turn f_half f1 o Models.NInf None flt_vops (default_params flt_vops) fA fb (default_weight 2) start = Ok (x, v, w) /\
     system 2 2 fA fb (point x) /\ moderate fA fb (point x) /\ flt_leb f0 v = true) /\
  (exists x v w, wils_fit_fl seq_dot l_dot in_turn f_half f1 Models.OTol Models.NL1 (Some (f_ten, at_most_one)) flt_vops (default_params flt_vops)
       (one_eq (PInt 1)) (one_rhs (PInt 3) (PInt 4)) (default_weight 1) [f_half] = Ok (x, v, w) /\
     system 1 1 (one_eq (PInt 1)) (one_rhs (PInt 3) (PInt 4)) (point x) /\ moderate (one_eq (PInt 1)) (one_rhs (PInt 3) (PInt 4)) (point x) /\
     satisfied l_dot (Some (f_ten, at_most_one)) x /\ flt_ltb v f0 = true).
Proof.
  split; [apply plain_between|]. split; [exact half_ok|]. split; [exact one_ok|]. split; [exact in_turn_adds|]. split.
  - intro o. destruct (ran_fit (wils_fit_fl seq_dot l_dot in_turn f_half f1 o Models.NInf None flt_vops (default_params flt_vops) fA fb (default_weight 2) start) found) as (x & v & w & E & T);
      [destruct o; vm_compute; reflexivity|]. exists x, v, w. split; [exact E | now apply f_ready].
  - destruct (ran_fit (wils_fit_fl seq_dot l_dot in_turn f_half f1 Models.OTol Models.NL1 (Some (f_ten, at_most_one)) flt_vops (default_params flt_vops)
       (one_eq (PInt 1)) (one_rhs (PInt 3) (PInt 4)) (default_weight 1) [f_half]) (kept true)) as (x & v & w & E & T); [vm_compute; reflexivity|].
    exists x, v, w. split; [exact E|]. destruct (kept_ok true 3 x v ltac:(lia) T) as (H1 & H2 & H3 & H4). split; [exact H1|]. split; [exact H2|]. split; [|exact H4]. split; [vm_compute; reflexivity | exact H3].
Qed.
Example C97_predictions_case : (0 < 2)%nat /\ consistent fA /\ shp fA = [2; 2]%nat /\ Forall good (adata (adat fA)) /\ length start = 2%nat /\ Forall (fun a => is_finite a = true) start.
Proof.
  destruct (f_ready start f1) as ((N & C & S & G & _) & _); [vm_compute; reflexivity|].
  split; [exact N|]. split; [exact C|]. split; [exact S|]. split; [exact G|]. split; [reflexivity|]. repeat constructor.
Qed.
