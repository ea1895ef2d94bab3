(** A prediction contains the values of the model up to the errors of the powers. *)
From Coq Require Import ZArith Reals List Bool Arith Lia Lra.
From Flocq Require Import Core IEEE754.BinarySingleNaN.
From Verif Require Import Base PyNum Kernel Spec Expr Arrays Construct SpecArray XReal XArith KernelProofs KernelMore KernelAlg ExprProofs ArrayProofs ArrayMore ArrayMat RecogFlProofs Solvers SolversProofs SpecModels
  IspaeProofs IspaeFl SpecIspaeFl IspaeFlProofs IspaeFlRange IspaeFlCase IspaeFlPred SpecIspaeFlPred.
Import ListNotations.
Open Scope R_scope.

Lemma comb_monomial x : forall k d, combination (fun d x => x ^ d) d (reals (repeat f0 k ++ [f1])) x = x ^ (d + k).
Proof.
  induction k as [|k IH]; intro d; unfold reals in *; cbn [repeat app map combination].
  - rewrite one_val, Nat.add_0_r. ring.
  - rewrite IH. change (B2R f0) with 0. replace (S d + k)%nat with (d + S k)%nat by lia. ring.
Qed.
Lemma monomial_pow d x : (1 <= d)%nat -> polynomial (monomial d) x = x ^ d.
Proof. intro H. unfold polynomial, monomial. rewrite comb_monomial. f_equal. lia. Qed.
Lemma critical_ext f g l u delta roots : (forall x, g x = f x) -> critical_near f l u delta roots -> critical_near g l u delta roots.
Proof.
  intros E [H|H].
  - left. intros x Hx D. destruct (H x Hx) as (r & R1 & R2 & R3 & R4).
    + intros e He. destruct (D e He) as [dl Hd]. exists dl. intros h h0 hs. rewrite <- !E. now apply Hd.
    + exists r. rewrite !E. auto.
  - right. intros x y. rewrite !E. apply H.
Qed.
Lemma range_mem f l u e1 e2 Z : range_within f l u e1 e2 Z -> 0 <= e1 -> B2R l <= B2R u ->
  good Z /\ forall x, B2R l <= x <= B2R u -> exists s, member Z s /\ Rabs (s - f x) <= e1.
Proof.
  intros R E LU. assert (R' := R). destruct R' as (a & b & -> & Fa & Fb & AB & _).
  assert (NN : ~ nan_itv (mkitv Classical (PFlt a) (PFlt b))) by (intros [N _]; cbn [lo is_nan_num] in N; destruct a; discriminate).
  split.
  - destruct (range_enc _ _ _ _ _ _ (B2R l) R E ltac:(lra)) as (s & [G _] & _). exact G.
  - intros x Hx. destruct (range_enc _ _ _ _ _ _ x R E Hx) as (s & [_ [N|Me]] & B); [contradiction|]. exists s. auto.
Qed.
Section Column.
Variables (M delta : R) (roots : list flt -> list flt) (l u : flt) (m : rmode).
Hypothesis D : 0 <= delta.
Lemma keeps_col r b : keeps_mode (col_fl r b l u). Proof. unfold col_fl. destruct (map _ _); intro; reflexivity. Qed.
Lemma col_powers : forall bs d, (1 <= d)%nat -> (forall k, (d <= k < d + length bs)%nat -> tame M (monomial k) l u /\ critical_near (fun x => x ^ k) l u delta (roots (monomial k))) ->
  exists vs, returns (mapM (fun k => col_fl (roots (monomial k)) (monomial k) l u) (seq d (length bs))) m vs /\ length vs = length bs /\ Forall good vs /\
    forall x, B2R l <= x <= B2R u -> exists ss, Forall2 member vs ss /\
      Rabs (dotR (combine ss (reals bs)) - combination (fun d x => x ^ d) d (reals bs) x) <= power_error M delta d bs.
Proof.
  induction bs as [|b bs IH]; intros d Hd H.
  - exists []. split; [reflexivity|]. split; [reflexivity|]. split; [constructor|]. intros x _. exists []. split; [constructor|]. cbn [combine dotR reals map combination power_error]. rewrite Rminus_eq_0, Rabs_R0. lra.
  - cbn [length] in H. destruct (H d ltac:(lia)) as [T C]. assert (P := rounding_pos _ _ _ _ T).
    destruct (column_within M delta (monomial d) l u (roots (monomial d)) m T D (critical_ext _ _ _ _ _ _ (fun x => monomial_pow d x Hd) C)) as (Z & RZ & WZ).
    destruct (range_mem _ _ _ _ _ _ WZ ltac:(lra) ltac:(apply T)) as [GZ MZ].
    destruct (IH (S d) ltac:(lia) ltac:(intros k Hk; apply H; lia)) as (vs & RV & LV & GV & MV).
    exists (Z :: vs). split; [|split; [cbn; lia|split; [now constructor|]]].
    + cbn [length seq]. apply mapM_returns; [intro; apply keeps_col|]. constructor; [exact RZ|]. apply mapM_returns in RV; [exact RV | intro; apply keeps_col].
    + intros x Hx. destruct (MZ x Hx) as (s & Ms & Es). destruct (MV x Hx) as (ss & Mss & Ess). exists (s :: ss). split; [now constructor|].
      unfold reals in *. cbn [map combine dotR combination power_error]. rewrite monomial_pow in Es by exact Hd.
      replace (s * B2R b + dotR (combine ss (map (fun f => B2R f) bs)) - (B2R b * x ^ d + combination (fun d x => x ^ d) (S d) (map (fun f => B2R f) bs) x))
        with (B2R b * (s - x ^ d) + (dotR (combine ss (map (fun f => B2R f) bs)) - combination (fun d x => x ^ d) (S d) (map (fun f => B2R f) bs) x)) by ring.
      eapply Rle_trans; [apply Rabs_triang|]. rewrite Rabs_mult. apply Rplus_le_compat; [|exact Ess]. apply Rmult_le_compat_l; [apply Rabs_pos | exact Es].
Qed.
End Column.
Lemma f2_length {A B} (P : A -> B -> Prop) l k : Forall2 P l k -> length l = length k.
Proof. induction 1; cbn; congruence. Qed.
Lemma combine_app {A B} (a a' : list A) (b b' : list B) : length a = length b -> combine (a ++ a') (b ++ b') = combine a b ++ combine a' b'.
Proof. revert b. induction a as [|x a IH]; intros [|y b] H; try discriminate; [reflexivity|]. cbn [app combine]. f_equal. apply IH. now injection H. Qed.
Lemma keeps_expand roots cols : keeps_mode (expand_fl roots cols).
Proof.
  induction cols as [|[o [l u]] cols IH]; [apply keeps_ret|]. cbn [expand_fl]. apply keeps_bind; [apply keeps_mapM; intro; apply keeps_col|]. intro. apply keeps_bind; [exact IH|]. intro. apply keeps_ret.
Qed.
Lemma expand_run M delta roots m : 0 <= delta -> forall cols beta, tame_powers M delta roots cols -> length beta = orders cols ->
  exists vs, returns (expand_fl roots cols) m vs /\ length vs = length beta /\ Forall good vs /\ forall xs, in_row cols xs -> exists ss, Forall2 member vs ss /\
    Rabs (dotR (combine ss (reals beta)) - model beta cols xs) <= over_row (power_error M delta 1) beta cols.
Proof.
  intro D. induction cols as [|[o [l u]] cols IH]; intros beta T HL; cbn [orders] in HL.
  - destruct beta; [|discriminate]. exists []. split; [reflexivity|]. split; [reflexivity|]. split; [constructor|]. intros xs Hx. exists []. split; [constructor|].
    unfold model. cbn. rewrite Rminus_eq_0, Rabs_R0. lra.
  - assert (Lo : length (firstn o beta) = o) by (apply firstn_length_le; lia).
    destruct (col_powers M delta roots l u m D (firstn o beta) 1 ltac:(lia)) as (vs & RV & LV & GV & MV).
    { intros k Hk. apply (T o l u (or_introl eq_refl)). lia. }
    destruct (IH (skipn o beta)) as (ws & RW & LW & GW & MW); [intros o' l' u' I; apply (T o' l' u'); now right | rewrite skipn_length; lia|].
    exists (vs ++ ws). split; [|split; [|split; [apply Forall_app; now split|]]].
    + cbn [expand_fl]. apply keeps_returns; [apply keeps_mapM; intro; apply keeps_col|]. rewrite Lo in RV. exists vs. split; [exact RV|]. apply keeps_returns; [apply keeps_expand|]. exists ws. split; [exact RW | reflexivity].
    + rewrite app_length, LV, LW, Lo, skipn_length. lia.
    + intros xs Hx. inversion Hx as [|? x ? xs' X1 X2]; subst. cbn [fst snd] in X1. destruct (MV x X1) as (ss & S1 & S2). destruct (MW xs' X2) as (ts & T1 & T2).
      exists (ss ++ ts). split; [now apply Forall2_app|]. unfold model in *. cbn [map fst additive over_row]. rewrite <- reals_firstn, <- reals_skipn.
      assert (E : reals beta = reals (firstn o beta) ++ reals (skipn o beta)) by (unfold reals; rewrite <- map_app, firstn_skipn; reflexivity).
      rewrite E at 1. rewrite combine_app, dotR_app by (unfold reals; rewrite map_length; rewrite <- (f2_length _ _ _ S1); exact LV).
      match goal with |- Rabs (?a + ?b - (?c + ?d)) <= _ => replace (a + b - (c + d)) with ((a - c) + (b - d)) by ring end.
      eapply Rle_trans; [apply Rabs_triang|]. apply Rplus_le_compat; assumption.
Qed.
Theorem predict_contains M delta roots beta cols m : 0 <= delta -> tame_powers M delta roots cols -> length beta = orders cols -> beta <> [] -> Forall (fun f => is_finite f = true) beta ->
  exists Z, returns (predict_fl roots beta cols) m (OItv Z) /\
    forall xs, in_row cols xs -> exists s, member_or_nan Z s /\ Rabs (s - model beta cols xs) <= over_row (power_error M delta 1) beta cols.
Proof.
  intros D T HL N F. destruct (expand_run M delta roots m D cols beta T HL) as (vs & RV & LV & GV & MV).
  assert (OK : Forall dot_ok (combine (map OItv vs) (map (fun c => ONum (PFlt c)) beta))).
  { apply Forall_forall. intros [x y] I. assert (I1 := in_combine_l _ _ _ _ I). assert (I2 := in_combine_r _ _ _ _ I). apply in_map_iff in I1, I2. destruct I1 as (v & <- & Iv). destruct I2 as (c & <- & Ic).
    rewrite Forall_forall in GV, F. split; [now left|]. split; cbn [fst snd good_operand]; [now apply GV|]. split; [exact Logic.I | exact (F c Ic)]. }
  destruct (dot_sound _ m OK) as (z & Rz & Wz & Ez). destruct Wz as (W & -> & _).
  { destruct beta; [congruence|]. destruct vs; [discriminate|]. discriminate. }
  exists W. split.
  - unfold predict_fl. apply keeps_returns; [apply keeps_expand|]. exists vs. split; [exact RV|]. rewrite LV, Nat.eqb_refl. exact Rz.
  - intros xs Hx. destruct (MV xs Hx) as (ss & S1 & S2). exists (dotR (combine ss (reals beta))). split; [|exact S2]. apply Ez.
    clear - S1 LV. revert beta LV. induction S1 as [|v s vs ss H S IH]; intros [|b beta] LV; try discriminate; cbn [map combine reals]; constructor.
    + split; cbn [fst snd in_operand]; [exact H | reflexivity].
    + apply IH. now injection LV.
Qed.
