(** The subset test of utils.py on floating-point interval arrays. *)
From Coq Require Import ZArith Reals List Bool Arith Lia Lra.
From Flocq Require Import Core IEEE754.BinarySingleNaN.
From Verif Require Import Base PyNum Kernel Spec XReal XArith KernelProofs KernelAlg KernelMore Arrays Construct.
Import ListNotations.

Lemma xle_both_eq x y : xleb x y = true -> xleb y x = true -> xeqb x y = true.
Proof. intros H1 H2. rewrite (xleb_antisym _ _ H1 H2). rewrite (xleb_antisym _ _ H1 H2) in H1. destruct y; try discriminate; try reflexivity. apply xeqb_fin. reflexivity. Qed.
Lemma subset_l_spec a b : Forall proper_fin a -> length a = length b ->
  (subset_l a b = true <-> forall i X Y, nth_error a i = Some X -> nth_error b i = Some Y -> forall r, member X r -> member Y r).
Proof.
  revert b. induction a as [|X a IH]; intros [|Y b] F L; try discriminate.
  - split; [intros _ [|i] X Y H; discriminate | reflexivity].
  - apply Nat.succ_inj in L. inversion F as [|? ? P F']; subst. unfold subset_l in *. cbn [combine forallb fst snd].
    rewrite andb_true_iff, (IH b F' L).
    assert (Q : num_ge (lo X) (lo Y) && num_le (hi X) (hi Y) = true <-> forall r, member X r -> member Y r) by (exact (contains_itv_spec Y X P)).
    rewrite Q. split.
    + intros [H1 H2] [|i] X' Y' E1 E2; [injection E1 as <-; injection E2 as <-; exact H1 | exact (H2 i X' Y' E1 E2)].
    + intro H. split; [exact (H O X Y eq_refl eq_refl) | intros i; exact (H (S i))].
Qed.
Lemma subset_l_order : (forall a, Forall no_nan a -> subset_l a a = true) /\
  (forall a b c, length a = length b -> length b = length c -> subset_l a b = true -> subset_l b c = true -> subset_l a c = true) /\
  (forall a b, length a = length b -> subset_l a b = true -> subset_l b a = true ->
     forall i X Y, nth_error a i = Some X -> nth_error b i = Some Y -> num_eq (lo X) (lo Y) = true /\ num_eq (hi X) (hi Y) = true).
Proof.
  unfold subset_l, num_ge. split; [|split].
  - induction 1 as [|X a [N1 N2] _ IH]; [reflexivity|]. cbn [combine forallb fst snd]. rewrite IH, !num_le_x, !xleb_refl; [reflexivity | |].
    + intro E. apply is_nan_num_x in E. congruence.
    + intro E. apply is_nan_num_x in E. congruence.
  - induction a as [|X a IH]; intros [|Y b] [|Z c] L1 L2 H1 H2; try discriminate; [reflexivity|].
    apply Nat.succ_inj in L1, L2. cbn [combine forallb fst snd] in *. rewrite !andb_true_iff in *. rewrite !num_le_x in *.
    destruct H1 as [[A1 A2] A3], H2 as [[B1 B2] B3]. split; [split; [exact (xleb_trans _ _ _ B1 A1) | exact (xleb_trans _ _ _ A2 B2)] | exact (IH b c L1 L2 A3 B3)].
  - induction a as [|X a IH]; intros [|Y b] L1 H1 H2 [|i] X' Y' E1 E2; try discriminate; apply Nat.succ_inj in L1;
      cbn [combine forallb fst snd] in *; rewrite !andb_true_iff in *; destruct H1 as [[A1 A2] A3], H2 as [[B1 B2] B3].
    + injection E1 as <-. injection E2 as <-. rewrite !num_le_x in *. rewrite !num_eq_x. split; apply xle_both_eq; assumption.
    + exact (IH b L1 A3 B3 i X' Y' E1 E2).
Qed.
