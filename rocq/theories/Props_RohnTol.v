(** C95: Rohn as a whole, with the value Tol.maximize reports on doubles. *)
From Coq Require Import ZArith Reals Lra Lia List Bool String.
From Flocq Require Import Core IEEE754.BinarySingleNaN.
From Verif Require Import Base PyNum Kernel Spec Expr Arrays Construct SpecArray Exact SpecExact Estim SpecEstim EstimProofs EstimRefute RecogFl SpecRecogFl UssFl SpecUssFl UssFlProofs RohnFl
  Ralgb5 RecogOpt SpecRecogOpt RohnTol RohnTolProofs.
Import ListNotations.
Open Scope R_scope.
Open Scope string_scope.

(** Any other word than 'uni' and 'tol' is an exception. *)
Theorem C95_unknown_consistency_raises : forall inv fdot W P lp A b tol maxiter x0 c, c <> "uni" -> c <> "tol" ->
  rohn inv fdot W P lp A b tol maxiter c x0 = None.
Proof. exact rohn_other. Qed.
Print Assumptions C95_unknown_consistency_raises.

(** What Rohn returns for 'tol' is, coordinate by coordinate, the exact range of
    the tolerable solution set; whatever Tol.maximize reported. *)
Theorem C95_tol_hull : forall inv fdot W P lp r n A b tol maxiter x0, shp A = [r; n] -> Forall proper_fin (adata (adat A)) ->
  lp_calls_ok lp r n (end_mat A) (end_vec b) -> forall R, rohn inv fdot W P lp A b tol maxiter "tol" x0 = Some R ->
  exists l, R = inr l /\ List.length l = n /\ forall j, (j < n)%nat -> coordinate_range (tolerable r n (end_mat A) (end_vec b)) j (nth j l (mkr 0 0)).
Proof. exact rohn_hull. Qed.
Print Assumptions C95_tol_hull.

(** It raises for an empty set. *)
Theorem C95_tol_empty_raises : forall inv fdot W P lp r n A b tol maxiter x0, shp A = [r; n] -> Forall proper_fin (adata (adat A)) ->
  lp_calls_ok lp r n (end_mat A) (end_vec b) -> (0 < n)%nat -> (forall x, ~ tolerable r n (end_mat A) (end_vec b) x) ->
  rohn inv fdot W P lp A b tol maxiter "tol" x0 = None.
Proof. exact rohn_empty. Qed.
Print Assumptions C95_tol_empty_raises.

(** For a non-empty bounded set it raises exactly when the reported value is
    negative, so it returns when the value at the starting point is not. *)
Theorem C95_tol_raises_iff_negative : forall inv fdot W P lp r n A b tol maxiter x0, shp A = [r; n] -> Forall proper_fin (adata (adat A)) ->
  lp_calls_ok lp r n (end_mat A) (end_vec b) -> (exists x, tolerable r n (end_mat A) (end_vec b) x) ->
  (exists t, forall x j, tolerable r n (end_mat A) (end_vec b) x -> (j < n)%nat -> Rabs (x j) <= t) ->
  rohn inv fdot W P lp A b tol maxiter "tol" x0 = None <-> flt_ltb (snd (tol_maximize_fl fdot W P A b (np_ones r) x0)) f0 = true.
Proof. exact rohn_raises. Qed.
Print Assumptions C95_tol_raises_iff_negative.
Theorem C95_tol_returns : forall inv fdot W P lp r n A b tol maxiter x0, shp A = [r; n] -> Forall proper_fin (adata (adat A)) ->
  lp_calls_ok lp r n (end_mat A) (end_vec b) -> (exists x, tolerable r n (end_mat A) (end_vec b) x) ->
  (exists t, forall x j, tolerable r n (end_mat A) (end_vec b) x -> (j < n)%nat -> Rabs (x j) <= t) ->
  (forall T v0, returns (tol_calc fdot A b (point x0) (np_ones r)) mode_NE T -> least T v0 -> flt_leb f0 v0 = true) ->
  exists l, rohn inv fdot W P lp A b tol maxiter "tol" x0 = Some (inr l).
Proof. exact rohn_returns. Qed.
Print Assumptions C95_tol_returns.

(** That it raises only for an empty set is false: for 3 x = 3 + 2^-51, whose
    solution is not a double, it raises from every starting point, with every
    parameter and vector operation of the optimizer and every linear solver. *)
Theorem C95_raises_only_if_empty_refuted : exists A b, (exists x, tolerable 1 1 (end_mat A) (end_vec b) x) /\
  forall inv fdot g h W P lp tol maxiter y, dot_within fdot 1 g h -> 0 <= g <= 1 -> 0 <= h <= 1 -> one_term fdot -> is_finite y = true -> Rabs (B2R y) <= 1024 ->
  rohn inv fdot W P lp A b tol maxiter "tol" [y] = None.
Proof. exact rohn_denies_x. Qed.
Print Assumptions C95_raises_only_if_empty_refuted.
Example C95_refuted_case : dot_within seq_dot 1 (INR 1 * bpow radix2 (-51)) (INR 1 * bpow radix2 (-1073)) /\ one_term seq_dot /\
  0 <= INR 1 * bpow radix2 (-51) <= 1 /\ 0 <= INR 1 * bpow radix2 (-1073) <= 1.
Proof.
  split; [apply seq_dot_within; simpl; lia|]. split; [exact seq_one_term|].
  assert (B1 : bpow radix2 (-51) <= 1) by (change 1 with (bpow radix2 0); apply bpow_le; lia). assert (B2 : bpow radix2 (-1073) <= 1) by (change 1 with (bpow radix2 0); apply bpow_le; lia).
  assert (P1 := bpow_gt_0 radix2 (-51)). assert (P2 := bpow_gt_0 radix2 (-1073)). change (INR 1) with 1. lra.
Qed.

(** [1, 2] x = [-2, 4] started at 0: the set is [-1, 2]. *)
Example C95_case : shp exA = [1%nat; 1%nat] /\ Forall proper_fin (adata (adat exA)) /\ lp_calls_ok rt_exlp 1 1 (end_mat exA) (end_vec exb) /\
  (exists x, tolerable 1 1 (end_mat exA) (end_vec exb) x) /\
  (exists t, forall x j, tolerable 1 1 (end_mat exA) (end_vec exb) x -> (j < 1)%nat -> Rabs (x j) <= t) /\
  (forall T v0, returns (tol_calc seq_dot exA exb (point [f0]) (np_ones 1)) mode_NE T -> least T v0 -> flt_leb f0 v0 = true).
Proof.
  split; [reflexivity|]. split; [constructor; [split; [split; reflexivity | simpl; lra] | constructor]|]. split; [exact ex_calls|].
  split; [exists (fun _ => 0); apply ex_tolerable; lra|].
  split; [exists 2; intros x j H Hj; apply ex_tolerable in H; replace j with 0%nat by lia; apply Rabs_le; lra | exact ex_start].
Qed.
