(** The search directions of WILS in binary64. *)
From Coq Require Import ZArith Reals List Bool Arith Lia Lra.
From Flocq Require Import Core IEEE754.BinarySingleNaN.
From Verif Require Models.
From Verif Require Import Base PyNum Kernel Spec Expr Arrays Construct SpecArray XReal XArith KernelProofs KernelMore KernelAlg ExprProofs ArrayProofs ArrayMore RecogFlProofs HbrFl HbrFlProofs UssFlProofs Ralgb5 RecogOpt SpecRecogOpt RecogOptProofs RecogOptMargin RecogOptSign RecogOptRun RecogOptTotal RecogOptFinal
  RecogOptCon SpecRecogOptCon RecogOptConProofs WilsFl SpecWilsFl WilsFlProofs SpecRecogGrad RecogGradProofs SpecPenaltyGrad PenaltyGradProofs SpecWilsGrad.
Import ListNotations.
Open Scope R_scope.

Lemma sum_spec (diff : nat -> M (list flt)) n : (forall mc, keeps_mode (diff mc)) -> forall mcs acc s, returns (sum_diffs diff acc mcs) mode_NE s ->
  exists ds, Forall2 (fun mc d => returns (diff mc) mode_NE d) mcs ds /\
    (length acc = n -> Forall (fun d => length d = n) ds -> length s = n /\ forall k, (k < n)%nat -> nth k s f0 = fold_left (fadd mode_NE) (map (fun d => nth k d f0) ds) (nth k acc f0)).
Proof.
  intros K. induction mcs as [|mc mcs IH]; intros acc s R; cbn [sum_diffs] in R.
  - unfold returns, outcome, mret in R. cbn [fst] in R. injection R as <-. exists []. split; [constructor|]. intros L _. split; [exact L|]. reflexivity.
  - rewrite keeps_returns in R by apply K. destruct R as (d & Rd & R). destruct (IH _ _ R) as (ds & F & E). exists (d :: ds). split; [now constructor|].
    intros L FL. inversion FL as [|? ? L1 L2]; subst. destruct E as [E1 E2]; [unfold l_map2; rewrite map_length, combine_length; lia | exact L2|]. split; [exact E1|].
    intros k Hk. rewrite (E2 k Hk). cbn [map fold_left]. now rewrite nth_map2 by lia.
Qed.
Section Wils.
Variables (fdot : list (flt * flt) -> flt) (cdot : list flt -> list flt -> flt) (csum : list flt -> flt).
Variables (o : Models.objective) (nm : Models.norm) (constraint : option (flt * list (list flt * flt))) (X y : aitv) (w : arr pynum).
Theorem wils_given x : is_nan (fst (wils_objective fdot cdot csum o nm constraint X y w x)) = false ->
  exists T mcs ds, returns (residual_fl fdot o X y w (point x)) mode_NE T /\ chosen nm T mcs /\ Forall2 (fun mc d => returns (diff_fl fdot o X y w mc x) mode_NE d) mcs ds /\
    (Forall (fun d => length d = length x) ds -> length (snd (wils_objective fdot cdot csum o nm constraint X y w x)) = length x /\
       forall k, (k < length x)%nat -> nth k (snd (wils_objective fdot cdot csum o nm constraint X y w x)) f0 =
         fadd mode_NE (fneg (fold_left (fadd mode_NE) (map (fun d => nth k d f0) ds) f0)) (penalty_part cdot csum constraint x k)).
Proof.
  unfold wils_objective. destruct (wils_calc_fl fdot csum o nm X y w x) as [f g] eqn:EC. intro N.
  assert (Nf : is_nan f = false).
  { destruct (is_nan f) eqn:Q; [|reflexivity]. apply is_nan_x in Q. rewrite <- N. symmetry. apply is_nan_x. destruct constraint as [[mu rows]|]; [destruct (penalty_fl cdot csum mu rows x)|]; cbn [fst]; rewrite fadd_x, Q; reflexivity. }
  revert EC. unfold wils_calc_fl. fold (point x). set (c := T <- _ ;; _). destruct (fst (c mode_NE)) as [[t gl]|] eqn:E; intro H; inversion H; subst; [|discriminate].
  assert (RC : returns c mode_NE (t, gl)) by exact E. unfold c in RC. clear c E H.
  rewrite keeps_returns in RC by apply keeps_res. destruct RC as (T & HT & RC).
  rewrite keeps_returns in RC by apply keeps_lift. destruct RC as ([t' mcs] & Hp & RC). unfold returns, outcome, mlift in Hp. cbn [fst] in Hp. cbn [fst snd] in RC.
  rewrite keeps_returns in RC by (apply keeps_sum; intro; apply keeps_diff). destruct RC as (s & RS & RC). unfold returns, outcome, mret in RC. cbn [fst] in RC. inversion RC; subst t' s. clear RC.
  destruct (sum_spec _ (length x) (fun mc => keeps_diff fdot o X y w mc x) _ _ _ RS) as (ds & FD & ED). exists T, mcs, ds. split; [exact HT|]. split.
  { unfold wrap_norm_fl in Hp. unfold chosen. destruct nm.
    - destruct (np_argmin T) as [mc|] eqn:Hm; [|discriminate]. cbn [rbind] in Hp. destruct (argmin_spec T mc Hm) as (v & Hv & MN). rewrite Hv in Hp.
      assert (It := nth_error_In _ _ Hv). destruct (res_double fdot o X y w _ T v HT It) as [ft ->]. cbn [to_double rbind] in Hp. inversion Hp; subst ft mcs.
      assert (Nt : is_nan_num (PFlt t) = false) by (cbn [is_nan_num]; destruct t; auto). exists mc, t. split; [reflexivity|]. split; [exact Hv|]. split; [exact It|]. intros u Hu. now apply MN.
    - destruct (all_doubles (adata T)) as (d & Ed & Er); [intros v Hv; exact (res_double fdot o X y w _ T v HT Hv)|]. rewrite Er in Hp. cbn [rbind] in Hp. inversion Hp. rewrite Ed, map_length. reflexivity. }
  split; [exact FD|]. intro L. destruct (ED (repeat_length _ _) L) as [LS ES]. 
  assert (GK : forall k, (k < length x)%nat -> nth k (map fneg gl) f0 = fneg (fold_left (fadd mode_NE) (map (fun d => nth k d f0) ds) f0)).
  { intros k Hk. rewrite (nth_indep _ f0 (fneg f0)) by (rewrite map_length; lia). rewrite map_nth, (ES k Hk). do 2 f_equal. apply nth_repeat. }
  unfold penalty_part. destruct constraint as [[mu rows]|].
  - destruct (penalty_fl cdot csum mu rows x) as [p dp] eqn:Ep. cbn [snd]. assert (LP : length dp = length x) by (injection Ep as _ <-; now rewrite map_length, seq_length). split.
    + unfold l_map2. rewrite map_length, combine_length, map_length. lia.
    + intros k Hk. rewrite nth_map2 by (rewrite map_length; lia). now rewrite (GK k Hk).
  - cbn [snd]. split; [now rewrite !map_length|]. intros k Hk. rewrite (nth_indep _ f0 ((fun a => fadd mode_NE a f0) f0)) by (rewrite !map_length; lia).
    rewrite (map_nth (fun a => fadd mode_NE a f0)). now rewrite (GK k Hk).
Qed.
End Wils.
