(** globopt reaching its tolerance: x - y on [1, 2] x [1, 2] with tolerance 1/2. *)
From Coq Require Import ZArith Reals List Bool Arith Lia Lra Psatz.
From Flocq Require Import Core IEEE754.BinarySingleNaN.
From Verif Require Import Base PyNum Kernel Spec Expr XReal XArith KernelProofs ExprProofs KernelAlg KernelMore Arrays Construct Solvers SpecSolvers SolversProofs NewtonProofs GlobProofs TrigProofs SpecGlob GlobEnds.
Import ListNotations.
Open Scope R_scope.

Definition dif (Y : list itv) : M itv := match Y with [X; Z] => py_sub (OItv X) (OItv Z) | _ => mraise ValueError end.
Definition difR (xs : list R) : R := match xs with [x; y] => x - y | _ => 0 end.
Definition y12 : itv := mkitv Classical (PFlt f1) (PInt 2).
Lemma f1_val : is_finite f1 = true /\ B2R f1 = 1.
Proof. split; [reflexivity|]. unfold f1. vm_compute. lra. Qed.
Lemma half_val : is_finite fhalf = true /\ B2R fhalf = / 2.
Proof. split; [reflexivity|]. vm_compute. lra. Qed.
Lemma y12_modest : modest y12.
Proof.
  destruct f1_val as [F1 V1]. assert (B : 2 <= bpow radix2 1022) by (change 2 with (bpow radix2 1); apply bpow_le; lia).
  split; [reflexivity|]. split; [split; simpl; [exact I | lia]|]. split; [split; [split; [exact F1 | exact I]|cbn [y12 lo hi num_val]; rewrite V1; lra]|]. cbn [lo hi y12 num_val]. rewrite V1.
  split; apply Rabs_le; lra.
Qed.
Lemma dif_encloses : encloses_box [y12; y12] dif difR.
Proof.
  split.
  - intros Y m. assert (K : keeps_mode (dif Y)); [|apply K]. unfold dif. destruct Y as [|X [|Z [|? ?]]]; try apply keeps_raise. apply (keeps_py_op OpSub).
  - intros Y m Z MY _ H xs Hxs. unfold dif in H. destruct Y as [|X [|Z' [|? ?]]]; try discriminate.
    inversion MY as [|? ? MX MY1]; subst. inversion MY1 as [|? ? MZ _]; subst.
    inversion Hxs as [|? x ? xs1 Hx H1]; subst. inversion H1 as [|? y ? xs2 Hy H2]; subst. inversion H2; subst. unfold difR.
    destruct (sub_encl X Z' m (proj1 (proj2 MX)) (proj1 (proj2 MZ))) as (Z1 & HZ1 & E2). assert (Z1 = Z) by (unfold returns in *; change (py_sub (OItv X) (OItv Z')) with (itv_sub X (OItv Z')) in H; congruence). subst Z1.
    now apply E2.
Qed.
Lemma F2len {A B} (P : A -> B -> Prop) l l' : Forall2 P l l' -> length l = length l'.
Proof. induction 1; simpl; congruence. Qed.
Lemma part_shape Y : part_of [y12; y12] Y -> exists X Z, Y = [X; Z] /\ modest X /\ modest Z /\ 1 <= num_val (lo X) <= num_val (hi X) /\ num_val (hi X) <= 2 /\ 1 <= num_val (lo Z) <= num_val (hi Z) /\ num_val (hi Z) <= 2.
Proof.
  intros [MY SY]. destruct (modest_inhabited Y MY) as (xs & Hxs). assert (L := SY xs Hxs).
  assert (EL : length Y = 2%nat). { unfold in_box in *. apply F2len in Hxs. apply F2len in L. simpl in L. lia. }
  destruct Y as [|X [|Z [|? ?]]]; simpl in EL; try lia. exists X, Z. split; [reflexivity|]. inversion MY as [|? ? MX MY1]; subst. inversion MY1 as [|? ? MZ _]; subst. split; [exact MX|]. split; [exact MZ|].
  destruct (modest_ends X MX) as (a & b & Ha & Hb & Hab & Ea & Eb). destruct (modest_ends Z MZ) as (c & e & Hc & He & Hce & Ec & Ee).
  assert (P : forall x z, a <= x <= b -> c <= z <= e -> member y12 x /\ member y12 z).
  { intros x z Hx Hz. assert (B : in_box [X; Z] [x; z]) by (constructor; [rewrite member_x, Ha, Hb; simpl; lra|]; constructor; [rewrite member_x, Hc, He; simpl; lra | constructor]).
    apply SY in B. inversion B as [|? ? ? ? B1 B2]; subst. inversion B2; subst. auto. }
  assert (Q : forall x, member y12 x -> 1 <= x <= 2). { intros x Hx. rewrite member_x in Hx. cbn [y12 lo hi xval] in Hx. rewrite (proj1 (is_finite_x f1) (proj1 f1_val)), (proj2 f1_val) in Hx. simpl in Hx. lra. }
  destruct (P a c ltac:(lra) ltac:(lra)) as [P1 P2]. destruct (P b e ltac:(lra) ltac:(lra)) as [P3 P4]. apply Q in P1, P2, P3, P4. rewrite Ea, Eb, Ec, Ee. lra.
Qed.
Lemma dif_run X Z m : modest X -> modest Z -> 1 <= num_val (lo X) <= num_val (hi X) -> num_val (hi X) <= 2 -> 1 <= num_val (lo Z) <= num_val (hi Z) -> num_val (hi Z) <= 2 ->
  exists F, returns (dif [X; Z]) m F /\ small_itv F /\ xval (lo F) = XFin (rnd mode_DN (num_val (lo X) - num_val (hi Z))) /\ xval (hi F) = XFin (rnd mode_UP (num_val (hi X) - num_val (lo Z))).
Proof.
  intros MX MZ BX BX2 BZ BZ2. destruct (modest_ends X MX) as (a & b & Ha & Hb & Hab & Ea & Eb). destruct (modest_ends Z MZ) as (c & e & Hc & He & Hce & Ec & Ee). rewrite Ea, Eb, Ec, Ee in *.
  destruct (gives_returns _ _ _ _ _ (sub_gives X Z m (proj1 (proj2 MX)) (proj1 (proj2 MZ)))) as (F & RF & _ & Fl & Fh & sF & _). exists F. split; [exact RF|]. split; [exact sF|].
  rewrite Fl, Fh, Ha, Hb, Hc, He. unfold xsub. cbn [xopp xadd].
  assert (G : forall md r, Rabs r <= bpow radix2 1 -> xround md r = XFin (rnd md r)).
  { intros md r Hr. unfold xround. rewrite Rlt_bool_true; [reflexivity|]. apply Rle_lt_trans with (bpow radix2 1); [|apply bpow_lt; lia]. apply abs_round_le_generic; auto with typeclass_instances. apply generic_format_bpow. unfold SpecFloat.fexp, SpecFloat.emin. lia. }
  split; apply G; change (bpow radix2 1) with 2; apply Rabs_le; lra.
Qed.
Lemma dif_runs m Y : part_of [y12; y12] Y -> exists F, returns (dif Y) m F /\ small_itv F.
Proof.
  intro H. destruct (part_shape Y H) as (X & Z & -> & MX & MZ & BX & BX2 & BZ & BZ2). destruct (dif_run X Z m MX MZ BX BX2 BZ BZ2) as (F & RF & sF & _). exists F. auto.
Qed.
Lemma dif_small m Y F w : part_of [y12; y12] Y -> Forall (fun e => width e < bpow radix2 (-3)) Y -> returns (dif Y) m F -> returns (wid F) m w -> num_le (PFlt fhalf) w = false.
Proof.
  intros H W RF Rw. destruct (part_shape Y H) as (X & Z & -> & MX & MZ & BX & BX2 & BZ & BZ2). destruct (dif_run X Z m MX MZ BX BX2 BZ BZ2) as (F' & RF' & sF & Fl & Fh).
  assert (F' = F) by (unfold returns in *; congruence). subst F'. destruct sF as [sl sh]. destruct (XArith.num_sub_x m _ _ sh sl) as (w' & Hw & _ & Vw). assert (w' = w) by (unfold returns, outcome, wid, sub_, mprim in Rw; rewrite Hw in Rw; cbn in Rw; congruence). subst w'.
  inversion W as [|? ? W1 W2]; subst. inversion W2 as [|? ? W3 _]; subst. unfold width in W1, W3. change (bpow radix2 (-3)) with (/ 8) in W1, W3.
  set (a := num_val (lo X)) in *. set (b := num_val (hi X)) in *. set (c := num_val (lo Z)) in *. set (e := num_val (hi Z)) in *. clearbody a b c e.
  assert (E1 := rnd_err mode_DN (a - e) 1 ltac:(lia) ltac:(change (bpow radix2 1) with 2; apply Rabs_le; lra)). assert (E2 := rnd_err mode_UP (b - c) 1 ltac:(lia) ltac:(change (bpow radix2 1) with 2; apply Rabs_le; lra)).
  assert (T : bpow radix2 (1 - 52) <= bpow radix2 (-10)) by (apply bpow_le; lia). change (bpow radix2 (-10)) with (/ 1024) in T.
  rewrite Fl, Fh in Vw. unfold xsub in Vw. cbn [xopp xadd] in Vw. set (p := rnd mode_DN (a - e)) in *. set (q := rnd mode_UP (b - c)) in *.
  apply Rabs_le_inv in E1. apply Rabs_le_inv in E2. assert (B : Rabs (q + - p) <= bpow radix2 1) by (change (bpow radix2 1) with 2; apply Rabs_le; lra).
  assert (E3 := rnd_err m (q + - p) 1 ltac:(lia) B). apply Rabs_le_inv in E3.
  unfold xround in Vw. rewrite Rlt_bool_true in Vw.
  - rewrite num_le_x, Vw. cbn [xval]. rewrite (proj1 (is_finite_x fhalf) (proj1 half_val)), (proj2 half_val). destruct (xleb _ _) eqn:L; [|reflexivity]. apply xleb_fin in L. lra.
  - apply Rle_lt_trans with (bpow radix2 1); [|apply bpow_lt; lia]. apply abs_round_le_generic; auto with typeclass_instances. apply generic_format_bpow. unfold SpecFloat.fexp, SpecFloat.emin. lia.
Qed.
Lemma dif_start : part_of [y12; y12] [y12; y12] /\ float_first [y12; y12] /\ Forall (ends_within (bpow radix2 (-3 + 45))) [y12; y12] /\ Forall (fun e => width e * (9 / 16) ^ 5 < bpow radix2 (-3 - 1)) [y12; y12].
Proof.
  split; [split; [repeat (apply Forall_cons; [exact y12_modest|]); constructor | auto]|]. split; [left; now exists f1|].
  assert (E : ends_within (bpow radix2 (-3 + 45)) y12).
  { assert (B : 2 <= bpow radix2 (-3 + 45)) by (change 2 with (bpow radix2 1); apply bpow_le; lia). unfold ends_within. cbn [y12 lo hi num_val]. rewrite (proj2 f1_val). split; apply Rabs_le; lra. }
  assert (W : width y12 * (9 / 16) ^ 5 < bpow radix2 (-3 - 1)) by (unfold width; cbn [y12 lo hi num_val]; rewrite (proj2 f1_val); change (bpow radix2 (-3 - 1)) with (/ 16); lra).
  split; repeat (apply Forall_cons; [assumption|]); constructor.
Qed.
