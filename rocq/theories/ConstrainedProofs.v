(** Proofs about maximization under linear constraints. *)
From Coq Require Import ZArith List Bool Arith Lia Reals Lra.
From Flocq Require Import IEEE754.BinarySingleNaN.
From Verif Require Import PyNum Exact Recog SpecExact ExactProofs RecogProofs RecogMore RecogFinal Ralgb5 RalgbProofs RalgbMore SysProps Constrained SpecConstrained.
Import ListNotations.
Open Scope R_scope.

(** ** The optimizer keeps a starting point nothing is better than *)
Section Stay.
Variable OP : ops.
Variable P : params OP.
Variable calcfg : vct OP -> num OP * vct OP.
Variable x0 : vct OP.
Hypothesis opt : forall y, n_lt OP (fst (calcfg y)) (fst (calcfg x0)) = false.
Definition at0 (st : state OP) : Prop := s_xr _ st = x0 /\ s_fr _ st = fst (calcfg x0).
Definition ends0 (r : result OP) : Prop := r_x _ r = x0 /\ r_f _ r = fst (calcfg x0).
Lemma line_stays fuel : forall nit dx normdx st g1 d cal deltax, at0 st ->
  match line_search OP P calcfg fuel nit dx normdx st g1 d cal deltax with
  | inl r => ends0 (fst r)
  | inr (st', _, _, _) => at0 st'
  end.
Proof.
  induction fuel as [|fuel IH]; intros nit dx normdx st g1 d cal deltax H; cbn [line_search]; [exact H|].
  destruct (n_lt OP (n_zero OP) d && Nat.leb cal 500); [|exact H].
  destruct (calcfg (v_sub OP (s_x OP st) (v_scale OP (s_hs OP st) dx))) as [f g] eqn:E. destruct H as [H1 H2].
  assert (B : n_lt OP f (s_fr OP st) = false) by (rewrite H2; generalize (opt (v_sub OP (s_x OP st) (v_scale OP (s_hs OP st) dx))); now rewrite E).
  rewrite B. destruct (n_lt OP (v_norm OP g) (tolg OP P)); [split; assumption|]. apply IH. split; assumption.
Qed.
Lemma main_stays fuel : forall nit st B g0 vf, at0 st -> ends0 (fst (main_loop OP P calcfg fuel nit st B g0 vf)).
Proof.
  induction fuel as [|fuel IH]; intros nit st B g0 vf H; [exact H|]. cbn [main_loop]. destruct (Z.leb _ _); [|exact H].
  match goal with |- context [line_search OP P calcfg ?fu ?a ?b ?c st ?d ?e ?f ?g] => generalize (line_stays fu a b c st d e f g H); destruct (line_search OP P calcfg fu a b c st d e f g) as [r | [[[st' g1] cal] deltax]] end; [auto|].
  intro H'. destruct (Nat.ltb 500 cal); [exact H'|]. destruct (n_lt OP deltax (tolx OP P)); [exact H'|].
  match goal with |- ends0 (fst (if ?c then _ else _)) => destruct c end; [exact H'|]. apply IH. exact H'.
Qed.
Lemma ralgb5_stays m : ends0 (fst (ralgb5 OP P calcfg m x0)).
Proof.
  unfold ralgb5. destruct (calcfg x0) as [fr g0] eqn:E in |- *.
  assert (F : fr = fst (calcfg x0)) by now rewrite E.
  destruct (n_lt OP (v_norm OP g0) (tolg OP P)); [split; [reflexivity | exact F]|]. apply main_stays. split; [reflexivity | exact F].
Qed.
End Stay.

(** ** What is reported *)
Lemma maximize_c_spec n big P fg mu rows x0 x v : maximize_c n big P fg mu rows x0 = (x, v) ->
  v = - fst (fg x) - fst (linear_penalty n mu rows x) /\ - fst (fg x0) - fst (linear_penalty n mu rows x0) <= v.
Proof.
  intro E. unfold maximize_c in E. destruct (ralgb5 (real_ops n big) P (with_penalty n mu rows fg) n x0) as [r t] eqn:R.
  cbn [fst] in E. assert (Ex : x = r_x _ r) by congruence. assert (Ev : v = - r_f _ r) by congruence. clear E.
  destruct (ralgb5_best _ _ _ _ _ _ _ R) as (_ & F & I & _). destruct (real_order n big) as [O1 O2].
  assert (B := ralgb5_no_better _ _ _ _ _ _ _ O1 O2 R x0 I). cbn [n_lt real_ops real_ops_with] in B.
  rewrite with_penalty_val in F, B. rewrite Ev, Ex, F. split; [ring|]. destruct Rlt_dec as [|N]; [discriminate|]. rewrite F in N. cbn [vct real_ops real_ops_with] in *. lra.
Qed.
Lemma minimize_c_spec n big P fg mu rows x0 x v : minimize_c n big P fg mu rows x0 = (x, v) ->
  v = fst (fg x) + fst (linear_penalty n mu rows x) /\ v <= fst (fg x0) + fst (linear_penalty n mu rows x0).
Proof.
  intro E. assert (M := maximize_c_spec n big P fg mu rows x0 x (- v)). unfold maximize_c, minimize_c in *. 
  assert (E1 : (r_x (real_ops n big) (fst (ralgb5 (real_ops n big) P (with_penalty n mu rows fg) n x0)), - r_f (real_ops n big) (fst (ralgb5 (real_ops n big) P (with_penalty n mu rows fg) n x0))) = (x, - v)) by (inversion E; reflexivity).
  destruct (M E1) as [M1 M2]. split; lra.
Qed.

Lemma satisfies_zero r n C lb ub rows mu x : linear_constraint r n C lb ub = Some rows -> 0 < mu ->
  0 <= fst (linear_penalty n mu rows x) /\ (fst (linear_penalty n mu rows x) = 0 <-> satisfies r n C lb ub x).
Proof. exact (penalty_spec r n C lb ub rows mu x). Qed.
Lemma rows_satisfied r n C lb ub rows x : linear_constraint r n C lb ub = Some rows -> (Forall (row_ok n x) rows <-> satisfies r n C lb ub x).
Proof.
  intro L. destruct (satisfies_zero r n C lb ub rows 1 x L ltac:(lra)) as [_ S]. rewrite <- S, <- penalty_zero.
  unfold linear_penalty. cbv zeta. cbn [fst]. rewrite Rmult_1_l. reflexivity.
Qed.
Lemma pen_violation n mu rows x : fst (linear_penalty n mu rows x) = mu * violation n rows x.
Proof.
  unfold linear_penalty, violation. cbv zeta. cbn [fst]. f_equal. rewrite map_map. unfold lsum. f_equal. apply map_ext. intro row.
  unfold penalty_row, excess, dot. change vsum with total. destruct Rlt_dec; cbn [fst]; [rewrite Rmax_right; lra | rewrite Rmax_left; lra].
Qed.
Lemma violation_nn n rows x : 0 <= violation n rows x.
Proof. generalize (penalty_nn n rows x) (pen_violation n 1 rows x). unfold linear_penalty. cbv zeta. cbn [fst]. lra. Qed.

(** The three functionals. *)
Lemma tol_c k n big P A b w mu r C lb ub rows x0 x v : proper_mat (S k) n A -> linear_constraint r n C lb ub = Some rows -> 0 < mu ->
  maximize_c n big P (tol_fg k n A b w) mu rows x0 = (x, v) ->
  v = tol_value k n A b x w - mu * violation n rows x /\ (v = tol_value k n A b x w <-> satisfies r n C lb ub x) /\
  tol_value k n A b x0 w - mu * violation n rows x0 <= v /\
  (positive (S k) w -> (0 <= v -> tolerable (S k) n A b x) /\ (satisfies r n C lb ub x0 -> tolerable (S k) n A b x0 -> 0 <= v)).
Proof.
  intros PM L M E. apply maximize_c_spec in E. rewrite !tol_fg_value, !pen_violation in E by assumption. destruct E as [V1 V2].
  destruct (satisfies_zero _ _ _ _ _ _ mu x L M) as [N Z]. destruct (satisfies_zero _ _ _ _ _ _ mu x0 L M) as [_ Z0]. rewrite pen_violation in N, Z, Z0.
  assert (V3 : v = tol_value k n A b x w - mu * violation n rows x) by lra. assert (V4 : tol_value k n A b x0 w - mu * violation n rows x0 <= v) by lra. clear V1 V2.
  split; [exact V3|]. split; [rewrite <- Z; lra|]. split; [exact V4|]. intro W. split.
  - intro Hv. apply (tol_recognizes k n A b x w PM W). lra.
  - intros S0 T0. apply (tol_recognizes k n A b x0 w PM W) in T0. apply Z0 in S0. lra.
Qed.
Lemma uni_c k n big P A b w mu r C lb ub rows x0 x v : proper_mat (S k) n A -> linear_constraint r n C lb ub = Some rows -> 0 < mu ->
  maximize_c n big P (uni_fg k n A b w) mu rows x0 = (x, v) ->
  v = uni_value k n A b x w - mu * violation n rows x /\ (v = uni_value k n A b x w <-> satisfies r n C lb ub x) /\
  uni_value k n A b x0 w - mu * violation n rows x0 <= v /\
  (positive (S k) w -> (0 <= v -> united (S k) n A b x) /\ (satisfies r n C lb ub x0 -> united (S k) n A b x0 -> 0 <= v)).
Proof.
  intros PM L M E. apply maximize_c_spec in E. rewrite !uni_fg_value, !pen_violation in E by assumption. destruct E as [V1 V2].
  destruct (satisfies_zero _ _ _ _ _ _ mu x L M) as [N Z]. destruct (satisfies_zero _ _ _ _ _ _ mu x0 L M) as [_ Z0]. rewrite pen_violation in N, Z, Z0.
  assert (V3 : v = uni_value k n A b x w - mu * violation n rows x) by lra. assert (V4 : uni_value k n A b x0 w - mu * violation n rows x0 <= v) by lra. clear V1 V2.
  split; [exact V3|]. split; [rewrite <- Z; lra|]. split; [exact V4|]. intro W. split.
  - intro Hv. apply (uni_recognizes k n A b x w PM W). lra.
  - intros S0 T0. apply (uni_recognizes k n A b x0 w PM W) in T0. apply Z0 in S0. lra.
Qed.
Lemma uss_c k n big P A b w mu r C lb ub rows x0 x v : proper_mat (S k) n A -> proper_vec (S k) b -> linear_constraint r n C lb ub = Some rows -> 0 < mu ->
  maximize_c n big P (uss_fg k n A b w) mu rows x0 = (x, v) ->
  v = uss_value k n A b x w - mu * violation n rows x /\ (v = uss_value k n A b x w <-> satisfies r n C lb ub x) /\
  uss_value k n A b x0 w - mu * violation n rows x0 <= v /\
  (positive (S k) w -> (0 <= v -> united (S k) n A b x) /\ (satisfies r n C lb ub x0 -> united (S k) n A b x0 -> 0 <= v)).
Proof.
  intros PM PV L M E. apply maximize_c_spec in E. rewrite !uss_fg_value, !pen_violation in E. destruct E as [V1 V2].
  destruct (satisfies_zero _ _ _ _ _ _ mu x L M) as [N Z]. destruct (satisfies_zero _ _ _ _ _ _ mu x0 L M) as [_ Z0]. rewrite pen_violation in N, Z, Z0.
  assert (V3 : v = uss_value k n A b x w - mu * violation n rows x) by lra. assert (V4 : uss_value k n A b x0 w - mu * violation n rows x0 <= v) by lra. clear V1 V2.
  split; [exact V3|]. split; [rewrite <- Z; lra|]. split; [exact V4|]. intro W. split.
  - intro Hv. apply (uss_recognizes k n A b x w PM PV W). lra.
  - intros S0 T0. apply (uss_recognizes k n A b x0 w PM PV W) in T0. apply Z0 in S0. lra.
Qed.
From Verif Require Import Estim.
Lemma cheb_c lpbox k n big P A b w mu r C lb ub rows x0 x v : linear_constraint r n C lb ub = Some rows -> 0 < mu ->
  minimize_c n big P (cheb_fg lpbox k n A b w) mu rows x0 = (x, v) ->
  v = cheb_value lpbox k n A b x w + mu * violation n rows x /\ (v = cheb_value lpbox k n A b x w <-> satisfies r n C lb ub x) /\
  v <= cheb_value lpbox k n A b x0 w + mu * violation n rows x0.
Proof.
  intros L M E. apply minimize_c_spec in E. rewrite !pen_violation in E. destruct E as [V1 V2].
  change (fst (cheb_fg lpbox k n A b w x)) with (cheb_value lpbox k n A b x w) in *. change (fst (cheb_fg lpbox k n A b w x0)) with (cheb_value lpbox k n A b x0 w) in *.
  destruct (satisfies_zero _ _ _ _ _ _ mu x L M) as [N Z]. rewrite pen_violation in N, Z. split; [exact V1|]. split; [rewrite <- Z; lra | exact V2].
Qed.
