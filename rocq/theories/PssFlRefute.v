(** A solution that PSS on doubles loses to rounding, and systems where it does not. *)
From Coq Require Import ZArith Reals Lra Lia List Bool Arith Floats.SpecFloat.
From Flocq Require Import Core IEEE754.BinarySingleNaN.
From Verif Require Import Base PyNum Kernel Spec Expr Arrays Construct SpecArray XReal XArith KernelProofs KernelAlg KernelRefute Witness ArrayProofs SpecIso SpecSolvers
  RecogFlRefute UssFlRefute PssFl SpecPssFl PssFlProofs PssFlDiv PssFlRest PssFlMain PssFlBoth.
Import ListNotations.
Open Scope R_scope.

(** Intervals with integers, written as doubles, as ends. *)
Definition zi (a c : Z) : itv := mkitv Classical (PFlt (fl a 0)) (PFlt (fl c 0)).
Lemma zi_member a c r : (Z.abs a <= 2 ^ 53)%Z -> (Z.abs c <= 2 ^ 53)%Z -> member (zi a c) r <-> IZR a <= r <= IZR c.
Proof.
  intros Ha Hc. destruct (xval_fl_small a Ha) as [F1 V1], (xval_fl_small c Hc) as [F2 V2]. apply is_finite_x in F1, F2. rewrite V1 in F1. rewrite V2 in F2.
  rewrite member_x. cbn [zi lo hi xval]. rewrite F1, F2. reflexivity.
Qed.
Lemma zi_modest a c : (Z.abs a <= 2 ^ 53)%Z -> (Z.abs c <= 2 ^ 53)%Z -> (a <= c)%Z -> modest (zi a c).
Proof.
  intros Ha Hc H. destruct (xval_fl_small a Ha) as [F1 V1], (xval_fl_small c Hc) as [F2 V2].
  assert (B : forall z, (Z.abs z <= 2 ^ 53)%Z -> Rabs (IZR z) <= bpow radix2 1022).
  { intros z Hz. rewrite <- abs_IZR. apply Rle_trans with (IZR (2 ^ 53)); [now apply IZR_le|]. change (IZR (2 ^ 53)) with (bpow radix2 53). apply bpow_le. lia. }
  split; [reflexivity|]. split; [split; exact I|]. split; [split; [split; assumption|]|].
  - cbn [zi lo hi num_val]. rewrite V1, V2. now apply IZR_le.
  - cbn [zi lo hi num_val]. rewrite V1, V2. split; now apply B.
Qed.
Lemma zi_plain a c : (Z.abs a <= 2 ^ 53)%Z -> (Z.abs c <= 2 ^ 53)%Z -> (a <= c)%Z -> plain (zi a c).
Proof. intros Ha Hc H. destruct (zi_modest a c Ha Hc H) as (k & s & p & _). split; [exact k|]. split; assumption. Qed.
Lemma zi_dbl a c : is_double (lo (zi a c)) /\ is_double (hi (zi a c)).
Proof. split; eexists; reflexivity. Qed.

(** One equation in two unknowns. *)
Definition row2 (X Y : itv) (i j : nat) : itv := match j with O => X | _ => Y end.
Definition box2 (X Y : itv) (j : nat) : itv := match j with O => X | _ => Y end.
Lemma row2_system X Y b : plain X -> plain Y -> plain b -> is_double (lo X) /\ is_double (hi X) -> fl_system 1 2 0 (row2 X Y) (fun _ => b).
Proof. intros PX PY Pb D. split; [|split]; intros; [destruct j as [|[|]]; cbn; [assumption | assumption | lia] | assumption | exact D]. Qed.
Lemma box2_ok X Y : modest X -> modest Y -> is_double (lo X) /\ is_double (hi X) -> fl_box 2 0 (box2 X Y).
Proof. intros MX MY [D1 D2]. split; [|split; assumption]. intros [|[|j]] H; cbn; [assumption | assumption | lia]. Qed.
Lemma row2_solution X Y b x : fl_solution 1 2 (row2 X Y) (fun _ => b) x <-> exists p q y, member X p /\ member Y q /\ member b y /\ p * x 0%nat + q * x 1%nat = y.
Proof.
  split.
  - intros (P & y & HP & Hy & HE). exists (P 0 0)%nat, (P 0 1)%nat, (y 0%nat). assert (E := HE 0%nat ltac:(lia)). cbn [Rsum] in E.
    split; [exact (HP 0%nat 0%nat ltac:(lia) ltac:(lia))|]. split; [exact (HP 0%nat 1%nat ltac:(lia) ltac:(lia))|]. split; [exact (Hy 0%nat ltac:(lia)) | lra].
  - intros (p & q & y & Mp & Mq & My & E). exists (fun _ j => match j with O => p | _ => q end), (fun _ => y). split; [|split].
    + intros i [|[|j]] _ H; cbn; [assumption | assumption | lia].
    + intros. assumption.
    + intros i _. cbn [Rsum]. lra.
Qed.

(** [0, 5] x0 + 0 x1 = 1: the quotient 1/5 is rounded up. *)
Definition rf_A : nat -> nat -> itv := row2 (zi 0 5) (zi 0 0).
Definition rf_b : nat -> itv := fun _ => zi 1 1.
Definition rf_V1 : nat -> itv := box2 (zi 0 10) (zi (-1) 1).
Definition rf_V2 : nat -> itv := box2 (zi (-10) 0) (zi (-1) 1).
Definition rf_eo : list itv -> pynum := fun _ => pninf.
Definition rf_x (j : nat) : R := match j with O => 1 / 5 | _ => 0 end.
Definition fifth : pynum := PFlt (fl 7205759403792794 (-55)).
Lemma v_fifth : xval fifth = XFin (7205759403792794 / 36028797018963968).
Proof.
  change (xval fifth) with (xflt (fl 7205759403792794 (-55))).
  assert (E : B2R (fl 7205759403792794 (-55)) = 7205759403792794 / 36028797018963968) by (rewrite (B2R_sf _ false 7205759403792794 (-55)) by (vm_compute; reflexivity); feval; lra).
  rewrite <- E. apply is_finite_x. vm_compute. reflexivity.
Qed.
Lemma pss_fl_loses : exists eo1 eo2 m n nu A b V1 V2 tol maxiter Z x, (nu < n)%nat /\ fl_system m n nu A b /\ fl_box n nu V1 /\ fl_box n nu V2 /\
  lp_bounds eo1 (fun v => v) m n nu A b V1 /\ lp_bounds eo2 (fun v => v) m n nu A (fun i => neg (b i)) V2 /\
  returns (pss_fl eo1 eo2 m n nu A b V1 V2 tol maxiter) mode_NE Z /\ fl_solution m n A b x /\ in_fl_box n V1 x /\ in_fl_box n V2 (fun j => - x j) /\ ~ member Z (x nu).
Proof.
  destruct (got (pss_fl rf_eo rf_eo 1 2 0 rf_A rf_b rf_V1 rf_V2 (PInt 1) 0) mode_NE (fun Z => num_le fifth (lo Z))) as (Z & HZ & LZ); [vm_compute; reflexivity|].
  exists rf_eo, rf_eo, 1%nat, 2%nat, 0%nat, rf_A, rf_b, rf_V1, rf_V2, (PInt 1), 0%Z, Z, rf_x.
  split; [lia|]. split; [apply row2_system; [apply zi_plain; lia | apply zi_plain; lia | apply zi_plain; lia | apply zi_dbl]|].
  split; [apply box2_ok; [apply zi_modest; lia | apply zi_modest; lia | apply zi_dbl]|]. split; [apply box2_ok; [apply zi_modest; lia | apply zi_modest; lia | apply zi_dbl]|].
  split; [intros Q x _ _ _ _ _ _; apply num_le_R_x; exact I|]. split; [intros Q x _ _ _ _ _ _; apply num_le_R_x; exact I|]. split; [exact HZ|].
  split. { apply row2_solution. exists 5, 0, 1. split; [apply zi_member; [lia|lia|lra]|]. split; [apply zi_member; [lia|lia|lra]|]. split; [apply zi_member; [lia|lia|lra]|]. cbn [rf_x]. lra. }
  split. { intros [|[|j]] H; [| |lia]; cbn [rf_V1 box2 rf_x]; apply zi_member; try lia; lra. }
  split. { intros [|[|j]] H; [| |lia]; cbn [rf_V2 box2 rf_x]; apply zi_member; try lia; lra. }
  intros M. apply member_x in M. destruct M as [M _]. rewrite num_le_x in LZ. apply (xleb_xle_R _ _ _ LZ) in M. rewrite v_fifth in M. cbn in M. lra.
Qed.

(** [2, 4] x0 + x1 = [1, 2] with x1 in [-1, 1]. *)
Definition px_A : nat -> nat -> itv := row2 (zi 2 4) (zi 1 1).
Definition px_b : nat -> itv := fun _ => zi 1 2.
Definition px_V : nat -> itv := box2 (zi (-8) 8) (zi (-1) 1).
Definition px_eo1 : list itv -> pynum := fun _ => PFlt (fl 0 0).
Definition px_eo2 : list itv -> pynum := fun _ => PFlt (fl (-2) 0).
Lemma lp_doubles eo md m n nu A b V : (forall Q, is_double (eo Q)) -> lp_bounds eo (fun v => v) m n nu A b V -> lp_bounds eo (to_dbl md) m n nu A b V.
Proof.
  intros D H Q x LQ MQ ZQ BQ Sx Vx. specialize (H Q x LQ MQ ZQ BQ Sx Vx). cbn beta in H.
  assert (M : member (mkitv Classical (eo Q) pinf) (x nu)) by (apply member_x; split; [now apply num_le_R_x | exact I]). apply (member_rnd _ _ md) in M; [exact (proj1 M)|]. split; [exact (D Q) | exact dbl_pinf].
Qed.
Lemma zle z r : (Z.abs z <= 2 ^ 53)%Z -> IZR z <= r -> num_le_R (PFlt (fl z 0)) r.
Proof. intros Hz H. destruct (xval_fl_small z Hz) as [F V]. apply num_le_R_x. cbn [xval]. apply is_finite_x in F. rewrite F, V. exact H. Qed.
Lemma px_lp1 : lp_bounds px_eo1 (fun v => v) 1 2 0 px_A px_b px_V.
Proof.
  intros Q x _ _ _ _ Sx Vx. apply row2_solution in Sx. destruct Sx as (p & q & y & Mp & Mq & My & E). assert (M1 := Vx 1%nat ltac:(lia)). cbn [px_V box2] in M1.
  apply zi_member in Mp, Mq, My, M1; try lia. apply zle; [lia|]. assert (q = 1) by lra. subst q. destruct (Rle_or_lt 0 (x 0%nat)); [assumption|]. assert (p * x 0%nat < 0) by (apply Ropp_lt_cancel; rewrite Ropp_0, Ropp_mult_distr_r; apply Rmult_lt_0_compat; lra). lra.
Qed.
Lemma px_lp2 : lp_bounds px_eo2 (fun v => v) 1 2 0 px_A (fun i => neg (px_b i)) px_V.
Proof.
  intros Q x _ _ _ _ Sx Vx. apply neg_solution in Sx. apply row2_solution in Sx. destruct Sx as (p & q & y & Mp & Mq & My & E). assert (M1 := Vx 1%nat ltac:(lia)). cbn [px_V box2] in M1.
  apply zi_member in Mp, Mq, My, M1; try lia. apply zle; [lia|]. assert (q = 1) by lra. subst q. destruct (Rle_or_lt (-2) (x 0%nat)); [assumption|].
  assert (2 * 2 <= p * - x 0%nat) by (apply Rmult_le_compat; lra). lra.
Qed.
Lemma px_case : fl_system 1 2 0 px_A px_b /\ (forall i, (i < 1)%nat -> clear_of_zero (px_A i 0%nat)) /\ fl_box 2 0 px_V /\
  lp_bounds px_eo1 (fun v => v) 1 2 0 px_A px_b px_V /\ lp_bounds px_eo2 (fun v => v) 1 2 0 px_A (fun i => neg (px_b i)) px_V /\
  lp_bounds px_eo1 (to_dbl mode_NE) 1 2 0 px_A px_b px_V /\ lp_bounds px_eo2 (to_dbl mode_NE) 1 2 0 px_A (fun i => neg (px_b i)) px_V /\
  (exists q, returns (algo_fl px_eo1 1 2 0 px_A px_b px_V (PFlt fhalf) 5) mode_NE q /\ num_lt (PInt (-8)) q = true) /\
  (exists Z, returns (pss_fl px_eo1 px_eo2 1 2 0 px_A px_b px_V px_V (PFlt fhalf) 5) mode_NE Z /\ num_lt (PInt (-8)) (lo Z) = true /\ num_lt (hi Z) (PInt 8) = true) /\
  exists x, fl_solution 1 2 px_A px_b x /\ in_fl_box 2 px_V x /\ in_fl_box 2 px_V (fun j => - x j).
Proof.
  split; [apply row2_system; [apply zi_plain; lia | apply zi_plain; lia | apply zi_plain; lia | apply zi_dbl]|].
  split. { intros i _. unfold clear_of_zero. cbn [px_A row2 zi lo hi num_val]. destruct (xval_fl_small 2 ltac:(lia)) as [_ ->], (xval_fl_small 4 ltac:(lia)) as [_ ->].
    apply Rle_trans with (bpow radix2 0); [apply bpow_le; lia | cbn; lra]. }
  split; [apply box2_ok; [apply zi_modest; lia | apply zi_modest; lia | apply zi_dbl]|].
  split; [exact px_lp1|]. split; [exact px_lp2|]. split; [apply lp_doubles; [intro; eexists; reflexivity | exact px_lp1]|]. split; [apply lp_doubles; [intro; eexists; reflexivity | exact px_lp2]|].
  split; [apply got; vm_compute; reflexivity|].
  split. { destruct (got (pss_fl px_eo1 px_eo2 1 2 0 px_A px_b px_V px_V (PFlt fhalf) 5) mode_NE (fun Z => num_lt (PInt (-8)) (lo Z) && num_lt (hi Z) (PInt 8))) as (Z & HZ & LZ); [vm_compute; reflexivity|].
    exists Z. split; [exact HZ|]. now apply andb_prop in LZ. }
  exists (fun j => match j with O => 1 / 2 | _ => 0 end). split; [|split].
  - apply row2_solution. exists 2, 1, 1. repeat (split; [apply zi_member; [lia|lia|lra]|]). lra.
  - intros [|[|j]] H; [| |lia]; cbn [px_V box2]; apply zi_member; try lia; lra.
  - intros [|[|j]] H; [| |lia]; cbn [px_V box2]; apply zi_member; try lia; lra.
Qed.
