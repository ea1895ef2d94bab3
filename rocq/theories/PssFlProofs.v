(** Proofs about PSS on doubles: quotients and their intersections. *)
From Coq Require Import ZArith Reals List Bool Arith Lia Lra Psatz.
From Flocq Require Import Core IEEE754.BinarySingleNaN.
From Verif Require Import Base PyNum Kernel Spec Expr XReal XArith KernelProofs ExprProofs KernelAlg KernelMore Witness Arrays Construct SpecArray ArrayProofs ArrayMore ArrayMat
  ConstructProofs ConstructMore SpecIso IsoProofs SpecSolvers NewtonProofs GSProofs ArrIso PssFl SpecPssFl.
Import ListNotations.
Open Scope R_scope.

Definition dbl (X : itv) : Prop := is_double (lo X) /\ is_double (hi X).
(** A classical interval with doubles as ends that contains [t]. *)
Definition okm (X : itv) (t : R) : Prop := kd X = Classical /\ dbl X /\ member X t.
Lemma dbl_small X : dbl X -> small_itv X.
Proof. intros [(f & E) (g & F)]. unfold small_itv. rewrite E, F. split; exact I. Qed.
Lemma okm_good X t : okm X t -> good X.
Proof. intros (K & D & M). split; [exact K|]. split; [now apply dbl_small | right; eauto]. Qed.
Lemma single_same l r s m Z Z' : returns (single_interval l r s false) m Z -> returns (single_interval l r s false) m Z' -> Z = Z'.
Proof. apply same_result. Qed.
Lemma single_okm l r m Z t : is_double l -> is_double r -> xle_R (xval l) t -> R_xle t (xval r) -> returns (single_interval l r false false) m Z -> okm Z t.
Proof.
  intros Dl Dr L U H. destruct (single_unsorted l r m) as (Z' & HZ & El & Er & K). assert (Z' = Z) by exact (same_result _ _ _ _ HZ H). subst Z'.
  split; [apply K; rewrite num_le_x; now apply member_order with t|]. split; [unfold dbl; rewrite El, Er; auto|]. apply member_x. rewrite El, Er. auto.
Qed.
Lemma single_dbl l r m Z : is_double l -> is_double r -> returns (single_interval l r false false) m Z -> dbl Z.
Proof.
  intros Dl Dr H. destruct (single_unsorted l r m) as (Z' & HZ & El & Er & K). assert (Z' = Z) by exact (same_result _ _ _ _ HZ H). subst Z'.
  unfold dbl. rewrite El, Er. auto.
Qed.

(** ** Intersections *)
Lemma keeps_single l r s q : keeps_mode (single_interval l r s q).
Proof.
  unfold single_interval. apply keeps_bind; [|intros [a b]; apply keeps_ret]. destruct q; [|apply keeps_ret].
  destruct (num_ge r (PInt 0)); [|apply keeps_raise]. repeat (apply keeps_bind; [apply keeps_prim | intro]). apply keeps_ret.
Qed.
Lemma keeps_intersect_fl X Y : keeps_mode (intersect X Y).
Proof. unfold intersect. apply keeps_bind; [apply keeps_prim|]. intro d. destruct (num_le d c1em15); apply keeps_single. Qed.
Lemma intersect_dbl X Y m Z : dbl X -> dbl Y -> returns (intersect X Y) m Z ->
  dbl Z /\ ((is_nan_num (lo Z) = true /\ is_nan_num (hi Z) = true) \/ (is_nan_num (lo Z) = false /\ is_nan_num (hi Z) = false)).
Proof.
  intros [Xl Xh] [Yl Yh] H. unfold intersect in H. set (sup := if num_lt (lo X) (lo Y) then lo Y else lo X) in *. set (inf := if num_lt (hi X) (hi Y) then hi X else hi Y) in *.
  assert (Ds : is_double sup) by (unfold sup; destruct (num_lt (lo X) (lo Y)); assumption). assert (Di : is_double inf) by (unfold inf; destruct (num_lt (hi X) (hi Y)); assumption).
  rewrite keeps_returns in H by (apply keeps_prim). destruct H as (d & Hd & H). destruct Ds as (f & Ef), Di as (g & Eg).
  assert (Hx : xval d = xsub m (xflt f) (xflt g)).
  { destruct (XArith.num_sub_x m (PFlt f) (PFlt g) I I) as (v & Ev & _ & Xv). cbn [xval] in Xv. rewrite <- Xv. f_equal.
    apply (same_result (sub_ sup inf) m); [exact Hd|]. rewrite Ef, Eg. unfold returns, outcome, sub_, mprim. cbn [fst]. exact Ev. }
  destruct (num_le d c1em15) eqn:E.
  - destruct (single_sorted sup inf m) as (Z' & HZ & _ & EE & _). assert (Z' = Z) by exact (same_result _ _ _ _ HZ H). subst Z'.
    assert (N : is_nan_num sup = false /\ is_nan_num inf = false).
    { rewrite Ef, Eg. rewrite num_le_x, Hx in E. apply xleb_nnan_l in E. split; cbn [is_nan_num]; apply not_true_is_false; intro NN; apply is_nan_x in NN; apply E; unfold xsub; rewrite NN; [apply xadd_nan_l|].
      cbn [xopp]. apply xadd_nan_r. }
    destruct N as [N1 N2]. destruct EE as [[E1 E2]|[E1 E2]]; unfold dbl; rewrite E1, E2; (split; [split; eexists; eassumption | right; auto]).
  - destruct (single_sorted (PFlt fnan) (PFlt fnan) m) as (Z' & HZ & _ & EE & _). assert (Z' = Z) by exact (same_result _ _ _ _ HZ H). subst Z'.
    destruct EE as [[E1 E2]|[E1 E2]]; unfold dbl; rewrite E1, E2; (split; [split; eexists; reflexivity | left; split; reflexivity]).
Qed.
Lemma intersect_okm X Y m Z t : okm X t -> okm Y t -> returns (intersect X Y) m Z -> okm Z t.
Proof.
  intros OX OY H. destruct (intersect_spec X Y m (okm_good _ _ OX) (okm_good _ _ OY)) as (Z' & HZ & K & C & _). assert (Z' = Z) by exact (same_result _ _ _ _ HZ H). subst Z'.
  destruct OX as (_ & DX & MX), OY as (_ & DY & MY). split; [exact K|]. split; [exact (proj1 (intersect_dbl X Y m Z DX DY H)) | now apply C].
Qed.
Definition split_nan (Z : itv) : Prop := (is_nan_num (lo Z) = true /\ is_nan_num (hi Z) = true) \/ (is_nan_num (lo Z) = false /\ is_nan_num (hi Z) = false).
(** A running result that has not lost [t]: in the left piece if [x] is negative,
    in the right one if it is positive. *)
Definition holds_q (q : fquot) (x t : R) : Prop :=
  match q with
  | FOne X => okm X t
  | FTwo X1 X2 => dbl X1 /\ dbl X2 /\ ((x < 0 /\ okm X1 t) \/ (0 < x /\ okm X2 t))
  end.
Definition met (q : fquot) : Prop := match q with FOne _ => True | FTwo X1 X2 => split_nan X1 /\ split_nan X2 end.
Lemma keeps_meet s q : keeps_mode (meet_fl s q).
Proof. destruct s, q; unfold meet_fl; repeat (apply keeps_bind; [apply keeps_intersect_fl | intro]); apply keeps_ret. Qed.
Lemma meet_holds s q m r x t : holds_q s x t -> holds_q q x t -> returns (meet_fl s q) m r -> holds_q r x t /\ met r.
Proof.
  destruct s as [X|X1 X2], q as [Y|Y1 Y2]; cbn [holds_q meet_fl].
  - intros OX OY H. rewrite keeps_returns in H by (apply keeps_intersect_fl). destruct H as (Z & HZ & H). apply returns_ret in H. subst r. split; [|exact I]. exact (intersect_okm X Y m Z t OX OY HZ).
  - intros OX (D1 & D2 & O) H. rewrite keeps_returns in H by (apply keeps_intersect_fl). destruct H as (Z1 & HZ1 & H). rewrite keeps_returns in H by (apply keeps_intersect_fl). destruct H as (Z2 & HZ2 & H).
    apply returns_ret in H. subst r. destruct (intersect_dbl X Y1 m Z1 (proj1 (proj2 OX)) D1 HZ1) as [DZ1 N1]. destruct (intersect_dbl X Y2 m Z2 (proj1 (proj2 OX)) D2 HZ2) as [DZ2 N2].
    split; [|split; assumption]. split; [exact DZ1|]. split; [exact DZ2|].
    destruct O as [[S O]|[S O]]; [left | right]; (split; [exact S|]); [exact (intersect_okm X Y1 m Z1 t OX O HZ1) | exact (intersect_okm X Y2 m Z2 t OX O HZ2)].
  - intros (D1 & D2 & O) OY H. rewrite keeps_returns in H by (apply keeps_intersect_fl). destruct H as (Z1 & HZ1 & H). rewrite keeps_returns in H by (apply keeps_intersect_fl). destruct H as (Z2 & HZ2 & H).
    apply returns_ret in H. subst r. destruct (intersect_dbl X1 Y m Z1 D1 (proj1 (proj2 OY)) HZ1) as [DZ1 N1]. destruct (intersect_dbl X2 Y m Z2 D2 (proj1 (proj2 OY)) HZ2) as [DZ2 N2].
    split; [|split; assumption]. split; [exact DZ1|]. split; [exact DZ2|].
    destruct O as [[S O]|[S O]]; [left | right]; (split; [exact S|]); [exact (intersect_okm X1 Y m Z1 t O OY HZ1) | exact (intersect_okm X2 Y m Z2 t O OY HZ2)].
  - intros (D1 & D2 & O) (E1 & E2 & P) H. rewrite keeps_returns in H by (apply keeps_intersect_fl). destruct H as (Z1 & HZ1 & H). rewrite keeps_returns in H by (apply keeps_intersect_fl). destruct H as (Z2 & HZ2 & H).
    apply returns_ret in H. subst r. destruct (intersect_dbl X1 Y1 m Z1 D1 E1 HZ1) as [DZ1 N1]. destruct (intersect_dbl X2 Y2 m Z2 D2 E2 HZ2) as [DZ2 N2].
    split; [|split; assumption]. split; [exact DZ1|]. split; [exact DZ2|].
    destruct O as [[S O]|[S O]], P as [[S' P]|[S' P]]; try lra; [left | right]; (split; [exact S|]); [exact (intersect_okm X1 Y1 m Z1 t O P HZ1) | exact (intersect_okm X2 Y2 m Z2 t O P HZ2)].
Qed.
Lemma keeps_meets qs : forall s, keeps_mode (meets_fl s qs).
Proof. induction qs as [|q qs IH]; intro s; [apply keeps_ret|]. cbn [meets_fl]. apply keeps_bind; [apply keeps_meet | intro; apply IH]. Qed.
Lemma meets_holds qs : forall s m r x t, holds_q s x t -> met s -> Forall (fun q => holds_q q x t) qs -> returns (meets_fl s qs) m r -> holds_q r x t /\ met r.
Proof.
  induction qs as [|q qs IH]; intros s m r x t Hs Ms Hq H; cbn [meets_fl] in H.
  - apply returns_ret in H. subst r. auto.
  - rewrite keeps_returns in H by (apply keeps_meet). destruct H as (s' & Hs' & H). inversion Hq as [|? ? Hq1 Hq2]; subst.
    destruct (meet_holds s q m s' x t Hs Hq1 Hs') as [A B]. exact (IH s' m r x t A B Hq2 H).
Qed.

(** ** The answer *)
Lemma okm_lo X t : okm X t -> xle_R (xval (lo X)) t /\ is_nan_num (lo X) = false /\ is_nan_num (hi X) = false.
Proof.
  intros (_ & _ & M). apply member_x in M. destruct M as [L U]. split; [exact L|].
  split; apply not_true_is_false; intro N; apply is_nan_num_x in N; rewrite N in *; contradiction.
Qed.
Lemma two_ends_fl X1 X2 m : dbl X1 -> dbl X2 ->
  returns (arr_a (array_interval (mkarr [2%nat] [X1; X2]))) m (mkarr [2%nat] [lo X1; lo X2]) /\ returns (arr_b (array_interval (mkarr [2%nat] [X1; X2]))) m (mkarr [2%nat] [hi X1; hi X2]).
Proof.
  intros [A1 B1] [A2 B2]. destruct (arr_ends_exact (array_interval (mkarr [2%nat] [X1; X2])) m) as [P Q]; [discriminate|].
  split; [apply P | apply Q]; left; repeat constructor; assumption.
Qed.
Lemma nanmin2_le a b t : (is_nan_num a = false /\ xle_R (xval a) t) \/ (is_nan_num b = false /\ xle_R (xval b) t) -> is_nan_num a = false -> is_nan_num b = false -> xle_R (xval (nanmin2 a b)) t.
Proof.
  intros H Na Nb. unfold nanmin2. rewrite Na, Nb. rewrite num_lt_x.
  assert (Xa : xval a <> XNan) by (intro E; apply is_nan_num_x in E; congruence). assert (Xb : xval b <> XNan) by (intro E; apply is_nan_num_x in E; congruence).
  destruct (xltb (xval b) (xval a)) eqn:E; destruct H as [[_ H]|[_ H]]; try exact H.
  - exact (xleb_xle_R _ _ _ (xltb_xleb _ _ E) H).
  - exact (xleb_xle_R _ _ _ (xltb_false_xleb _ _ Xb Xa E) H).
Qed.
Lemma answer_below s m v x t : holds_q s x t -> met s -> returns (answer_fl s) m v -> xle_R (xval v) t.
Proof.
  destruct s as [X|X1 X2]; cbn [holds_q met answer_fl].
  - intros O _ H. apply returns_ret in H. destruct (okm_lo X t O) as (L & _ & N). rewrite N in H. now subst v.
  - intros (D1 & D2 & O) [N1 N2] H. destruct (two_ends_fl X1 X2 m D1 D2) as [HA HB].
    rewrite keeps_returns in H by (apply keeps_vectorize_num; intro; apply keeps_ret). destruct H as (bs & Hb & H). rewrite (same_result _ _ _ _ Hb HB) in H. cbn [adata] in H.
    assert (NN : is_nan_num (hi X1) && is_nan_num (hi X2) = false).
    { destruct O as [[_ O]|[_ O]]; apply okm_lo in O; destruct O as (_ & _ & ->); [reflexivity | apply andb_false_r]. }
    rewrite NN in H. rewrite keeps_returns in H by (apply keeps_vectorize_num; intro; apply keeps_ret). destruct H as (az & Ha & H). rewrite (same_result _ _ _ _ Ha HA) in H. cbn [adata] in H.
    apply returns_ret in H. subst v. destruct O as [[_ O]|[_ O]]; apply okm_lo in O; destruct O as (L & Nl & Nh); rewrite Nh.
    + destruct N2 as [[Nl2 Nh2]|[Nl2 Nh2]]; rewrite Nh2; cbn [orb].
      * unfold nanmax2. rewrite Nl, Nl2. exact L.
      * apply nanmin2_le; auto.
    + destruct N1 as [[Nl1 Nh1]|[Nl1 Nh1]]; rewrite Nh1; cbn [orb].
      * unfold nanmax2. rewrite Nl1. exact L.
      * apply nanmin2_le; auto.
Qed.
