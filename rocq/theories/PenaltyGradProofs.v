(** The direction of the penalty in binary64. *)
From Coq Require Import ZArith Reals List Bool Arith Lia Lra.
From Flocq Require Import Core IEEE754.BinarySingleNaN.
From Verif Require Import Base PyNum Kernel Spec Expr Arrays SpecArray XReal XArith Exact SpecExact KernelProofs KernelMore KernelAlg ExprProofs ArrayProofs ArrayMore RecogFlProofs UssFlProofs HbrFlProofs Ralgb5 RecogOpt SpecRecogOpt RecogOptProofs RecogOptMargin RecogOptSign RecogOptRun RecogOptTotal RecogOptFinal RecogOptCon SpecRecogOptCon RecogOptConProofs SpecRecogGrad RecogGradProofs SpecPenaltyGrad.
Import ListNotations.
Open Scope R_scope.

Lemma total_ext n f g : (forall k, (k < n)%nat -> f k = g k) -> total n f = total n g.
Proof. induction n as [|n IH]; intro H; cbn [total]; [reflexivity|]. rewrite IH by (intros; apply H; lia). rewrite H by lia. reflexivity. Qed.
Lemma total_minus n f g : total n f - total n g = total n (fun k => f k - g k).
Proof. induction n as [|n IH]; cbn [total]; [lra|]. rewrite <- IH. ring. Qed.
Lemma total_0 n : total n (fun _ => 0) = 0.
Proof. induction n as [|n IH]; cbn [total]; lra. Qed.
Lemma excess_sub cdot x rows : decided cdot x rows -> subgradient (length x) (excess (length x) rows) (coords x) (fun k => real_sum (violated_column cdot x rows k)).
Proof.
  intros D y. induction rows as [|[C b] rows IH].
  - cbn [excess violated_column map real_sum fold_right]. unfold dot. rewrite (total_ext _ _ (fun _ => 0)) by (intros; ring). rewrite total_0. lra.
  - assert (DR : decided cdot x rows) by (intros C' b' I; apply D; now right). specialize (IH DR). cbn [excess]. specialize (D C b (or_introl eq_refl)). fold (coords x) in D.
    assert (E : dot (length x) (fun k => real_sum (violated_column cdot x ((C, b) :: rows) k)) (minus y (coords x)) =
      (if flt_ltb b (cdot C x) then left_side (length x) C y - left_side (length x) C (coords x) else 0) + dot (length x) (fun k => real_sum (violated_column cdot x rows k)) (minus y (coords x))).
    { unfold dot, left_side. rewrite total_minus. destruct (flt_ltb b (cdot C x)) eqn:V.
      - rewrite total_plus. apply total_ext. intros k _. unfold violated_column, real_sum, minus. cbn [map fst snd fold_right]. rewrite V. ring.
      - rewrite Rplus_0_l. apply total_ext. intros k _. unfold violated_column, real_sum, minus. cbn [map fst snd fold_right]. rewrite V. change (B2R f0) with 0. ring. }
    rewrite E. destruct (flt_ltb b (cdot C x)).
    + rewrite (Rmax_right 0 (left_side (length x) C (coords x) - B2R b)) by lra. assert (Q := Rmax_r 0 (left_side (length x) C y - B2R b)). lra.
    + rewrite (Rmax_left 0 (left_side (length x) C (coords x) - B2R b)) by lra. assert (Q := Rmax_l 0 (left_side (length x) C y - B2R b)). lra.
Qed.
Theorem penalty_direction cdot csum mu rows x E : is_finite mu = true -> decided cdot x rows ->
  (forall k, (k < length x)%nat -> is_finite (csum (violated_column cdot x rows k)) = true /\ Rabs (B2R (csum (violated_column cdot x rows k)) - real_sum (violated_column cdot x rows k)) <= E k /\
     Rabs (B2R mu * B2R (csum (violated_column cdot x rows k))) <= bpow radix2 1000) ->
  let g := snd (penalty_fl cdot csum mu rows x) in
  exists h, length g = length x /\ subgradient (length x) (excess (length x) rows) (coords x) h /\
    forall k, (k < length x)%nat -> exists s, Rabs (s - h k) <= E k /\ rounded_once (nth k g f0) (B2R mu * s).
Proof.
  intros FM D H g. exists (fun k => real_sum (violated_column cdot x rows k)). unfold g, penalty_fl. cbn [snd]. split; [now rewrite map_length, seq_length|]. split; [now apply excess_sub|].
  intros k Hk. destruct (H k Hk) as (F & B & L). exists (B2R (csum (violated_column cdot x rows k))). split; [exact B|].
  set (G := fun k => fmul mode_NE mu (csum (map (part_fl cdot x k) rows))). rewrite (nth_indep _ f0 (G 0%nat)) by (now rewrite map_length, seq_length). rewrite map_nth, seq_nth by exact Hk. cbn [Nat.add].
  change (G k) with (fmul mode_NE mu (csum (violated_column cdot x rows k))). apply once; [now apply is_finite_x | now apply is_finite_x | exact L].
Qed.

Lemma nth_map2 (f : flt -> flt -> flt) a c k : length a = length c -> (k < length a)%nat -> nth k (l_map2 f a c) f0 = f (nth k a f0) (nth k c f0).
Proof.
  revert c k. induction a as [|x a IH]; intros [|y c] k L K; try discriminate; cbn [length] in *; [lia|]. destruct k as [|k]; [reflexivity|]. unfold l_map2. cbn [combine map nth]. apply IH; lia.
Qed.
Lemma con_given cdot csum mu rows con grad : (forall x, keeps_mode (con x)) -> (forall mc x, keeps_mode (grad mc x)) -> (forall x T v, returns (con x) mode_NE T -> In v (adata T) -> is_double v) ->
  given_con cdot csum mu rows con grad (objective_con cdot csum mu rows con grad).
Proof.
  intros KC KG DBL y. unfold objective_con. destruct (penalty_fl cdot csum mu rows y) as [p dp] eqn:Ep. destruct (objective con grad y) as [f gr] eqn:Eo. cbn [fst snd]. intro N.
  assert (Nf : is_nan f = false). { destruct (is_nan f) eqn:Q; [|reflexivity]. apply is_nan_x in Q. rewrite <- N. symmetry. apply is_nan_x. rewrite fadd_x, Q. reflexivity. }
  destruct (given_spec con grad KC KG DBL y) as (T & mc & d & H1 & H2 & H3 & H4 & H5); [rewrite Eo; exact Nf|]. rewrite Eo in H2, H3, H5. cbn [fst snd] in H2, H3, H5.
  exists T, mc, (fneg f), d. split; [exact H1|]. split; [exact H2|]. split; [exact H3|]. split.
  { unfold penalised. rewrite neg_neg. injection Ep as <- _. reflexivity. }
  split; [exact H4|]. intro L. assert (LP : length dp = length y) by (injection Ep as _ <-; now rewrite map_length, seq_length). subst gr. split.
  - unfold l_map2. rewrite map_length, combine_length, map_length. lia.
  - intros k Hk. rewrite nth_map2 by (rewrite map_length; lia). f_equal. rewrite (nth_indep _ f0 (fneg f0)) by (rewrite map_length; lia). now rewrite map_nth.
Qed.
Lemma con_directions_given cdot csum mu rows fdot W P A b w x0 :
  (exists fg, tol_maximize_con cdot csum mu rows fdot W P A b w x0 = ran_on W P fg x0 /\ given_con cdot csum mu rows (fun x => tol_calc fdot A b x w) (ends_grad fdot true A b w) fg) /\
  (exists fg, uni_maximize_con cdot csum mu rows fdot W P A b w x0 = ran_on W P fg x0 /\ given_con cdot csum mu rows (fun x => uni_calc fdot A b x w) (ends_grad fdot false A b w) fg) /\
  (exists fg, uss_maximize_con cdot csum mu rows fdot W P A b w x0 = ran_on W P fg x0 /\ given_con cdot csum mu rows (fun x => uss_calc fdot A b x w) (uss_grad fdot A b w) fg).
Proof.
  split; [|split].
  - eexists. split; [reflexivity|]. exact (con_given _ _ _ _ _ _ (keeps_tol fdot A b w) (keeps_ends fdot A b w true) (tol_double fdot A b w)).
  - eexists. split; [reflexivity|]. exact (con_given _ _ _ _ _ _ (keeps_uni fdot A b w) (keeps_ends fdot A b w false) (uni_double fdot A b w)).
  - eexists. split; [reflexivity|]. exact (con_given _ _ _ _ _ _ (fun x => keeps_uss fdot A b x w) (keeps_uss_grad fdot A b w) (uss_double fdot A b w)).
Qed.
