(** Proofs about comparison, iteration and sum of interval arrays. *)
From Coq Require Import ZArith Reals List Bool Arith Lia Lra.
From Verif Require Import Base PyNum Kernel Spec Expr Arrays Construct SpecArray XReal XArith KernelProofs KernelMore ExprProofs ArrayProofs ArrayMore ArrayMat ArrayCmp SpecArrayCmp.
Import ListNotations.
Open Scope R_scope.

Lemma keeps_cmp c a b : keeps_mode (mret (py_cmp c a b)).
Proof. apply keeps_ret. Qed.
Lemma cmp_elementwise c x y m :
  (forall Z, returns (arr_cmp c x y) m Z -> exists s, broadcast_shape (ashape (adat x)) (ashape y) s /\ ashape Z = s /\ awf Z /\
     forall idx, in_bounds s idx -> exists e b, reads (adat x) idx e /\ reads y idx b /\ aget Z idx = Some (py_cmp c e b)) /\
  (awf (adat x) -> awf y -> (exists s, broadcast_shape (ashape (adat x)) (ashape y) s) -> exists Z, returns (arr_cmp c x y) m Z) /\
  ((~ exists s, broadcast_shape (ashape (adat x)) (ashape y) s) -> raises (arr_cmp c x y) m ValueError).
Proof.
  split; [|split].
  - intros Z H. destruct (binop_reads _ _ _ m Z (keeps_cmp c) H) as (s & Hs & Sd & Wd & P).
    exists s. split; [exact Hs|]. split; [exact Sd|]. split; [exact Wd|].
    intros idx Hi. destruct (P idx Hi) as (a & b & v & Ha & Hb & Hv & G). exists a, b. split; [exact Ha|]. split; [exact Hb|].
    apply returns_ret in Hv. now subst v.
  - intros Wx Wy (s & Hs). apply bcast_iff in Hs. apply binop_arr_total with s; auto using keeps_cmp. intros. eexists. reflexivity.
  - intro H. now apply binop_no_shape.
Qed.

Lemma nth_firstn {A} n : forall (l : list A) k, (k < n)%nat -> nth_error (firstn n l) k = nth_error l k.
Proof. induction n as [|n IH]; intros [|a l] [|k] H; try lia; try reflexivity. cbn. apply IH. lia. Qed.
Lemma nth_skipn {A} n : forall (l : list A) k, nth_error (skipn n l) k = nth_error l (n + k).
Proof. induction n as [|n IH]; intros [|a l] k; try reflexivity; cbn; [now destruct k | apply IH]. Qed.
Lemma iter_pieces x : consistent x -> forall n t, shp x = n :: t ->
  arr_len x = Ok n /\ exists l, arr_iter x = Ok l /\ length l = n /\
    forall i, (i < n)%nat -> exists p, nth_error l i = Some p /\ ashape p = t /\ awf p /\
      forall idx, in_bounds t idx -> aget p idx = aget (adat x) (i :: idx).
Proof.
  intros [Sx Wx] n t E. assert (Sd : ashape (adat x) = n :: t) by congruence. unfold arr_len, arr_iter. rewrite Sd. split; [reflexivity|].
  eexists. split; [reflexivity|]. split; [now rewrite map_length, seq_length|].
  unfold awf in Wx. rewrite Sd in Wx. cbn [size] in Wx.
  intros i Hi. eexists. split; [apply map_nth_error; rewrite nth_error_nth' with (d := O) by (rewrite seq_length; lia); rewrite seq_nth by lia; reflexivity|].
  cbn [ashape]. split; [reflexivity|].
  assert (LB : (i * size t + size t <= length (adata (adat x)))%nat) by (rewrite Wx; nia).
  split. { unfold awf. cbn [ashape adata]. cbn [Nat.add]. rewrite firstn_length, skipn_length. lia. }
  intros idx Hb. unfold aget. cbn [ashape adata]. rewrite Sd. cbn [flat].
  destruct (Nat.ltb_spec i n); [|lia]. destruct (flat t idx) as [k|] eqn:F; [|reflexivity].
  assert (k < size t)%nat by (eapply flat_lt; eauto). cbn [Nat.add].
  rewrite nth_firstn by lia. now rewrite nth_skipn.
Qed.

(** ** sum *)
Fixpoint Rlist (l : list R) : R := match l with [] => 0 | a :: l' => a + Rlist l' end.
Lemma sum_from_sound l : forall A m, good A -> Forall good l ->
  exists W, returns (sum_from (OItv A) l) m (OItv W) /\ good W /\
    forall acc rl, member_or_nan A acc -> Forall2 member l rl -> member_or_nan W (acc + Rlist rl).
Proof.
  induction l as [|e l IH]; intros A m GA Gl.
  - exists A. split; [reflexivity|]. split; [assumption|]. intros acc rl Ha H. inversion H; subst. cbn. now rewrite Rplus_0_r.
  - inversion Gl as [|? ? Ge Gl']; subst.
    destruct (oadd_sound A e m GA Ge) as (T & HS & GS & ES).
    destruct (IH T m GS Gl') as (W & HW & GW & EW). exists W. split; [|split; [assumption|]].
    + cbn [sum_from]. rewrite keeps_returns by apply keeps_oadd. exists (OItv T). split; assumption.
    + intros acc rl Ha H. inversion H as [|? a ? rl' Hx Hr]; subst. cbn [Rlist]. rewrite <- Rplus_assoc.
      apply EW; [apply ES; [exact Ha | right; exact Hx] | exact Hr].
Qed.
Lemma zero_plus_sound e m : good e -> exists W, returns (oadd (ONum (PInt 0)) (OItv e)) m (OItv W) /\ good W /\
  forall r, member e r -> member_or_nan W r.
Proof.
  intros Ge. assert (Se := proj1 (proj2 Ge)).
  assert (T := radd_encl e (PInt 0) m Se ltac:(simpl; lia) I).
  destruct T as (W & HW & _). exists W.
  assert (HW' : returns (py_op OpAdd (ONum (PInt 0)) (OItv e)) m W) by exact HW.
  split. { unfold oadd. rewrite keeps_returns by (apply (keeps_py_op OpAdd)). exists W. split; [exact HW' | reflexivity]. }
  destruct (py_op_num_left OpAdd (PInt 0) e m W Ge ltac:(simpl; lia) I HW') as (G & P). split; [exact G|].
  intros r Hr. destruct (P r Hr) as [P1 _]. cbn [opR num_val] in P1. now rewrite Rplus_0_l in P1.
Qed.
Lemma Rsum_list f l : forall n, (forall k r, nth_error l k = Some r -> f (n + k)%nat = r) -> Rsum (n + length l) f = Rsum n f + Rlist l.
Proof.
  induction l as [|a l IH]; intros n H; cbn [length Rlist].
  - rewrite Nat.add_0_r. ring.
  - rewrite Nat.add_succ_r. change (S (n + length l)) with (S n + length l)%nat. rewrite IH.
    + cbn [Rsum]. rewrite <- (H O a eq_refl), Nat.add_0_r. ring.
    + intros k r Hk. rewrite <- (H (S k) r Hk). f_equal. lia.
Qed.
Lemma sum_encloses x n m : consistent x -> shp x = [n] -> Forall good (adata (adat x)) ->
  (n = O -> returns (arr_sum x) m (ONum (PInt 0))) /\
  ((0 < n)%nat -> exists W, returns (arr_sum x) m (OItv W) /\ good W /\
     forall r : nat -> R, (forall k e, aget (adat x) [k] = Some e -> member e (r k)) -> member_or_nan W (Rsum n r)).
Proof.
  intros [Sx Wx] E G. assert (Sd : ashape (adat x) = [n]) by congruence. unfold awf in Wx. rewrite Sd in Wx. cbn [size] in Wx. rewrite Nat.mul_1_r in Wx.
  unfold arr_sum. rewrite Sd. split.
  - intros ->. destruct (adata (adat x)); [reflexivity | discriminate].
  - intro Hn.
    assert (AG : forall k, (k < n)%nat -> aget (adat x) [k] = nth_error (adata (adat x)) k).
    { intros k Hk. unfold aget. rewrite Sd. cbn [flat size]. destruct (Nat.ltb_spec k n); [|lia]. f_equal. lia. }
    destruct (adata (adat x)) as [|e l] eqn:D; [cbn in Wx; lia|]. inversion G as [|? ? Ge Gl]; subst.
    destruct (zero_plus_sound e m Ge) as (A & HA & GA & EA). destruct (sum_from_sound l A m GA Gl) as (W & HW & GW & EW).
    exists W. split; [cbn [sum_from]; rewrite keeps_returns by apply keeps_oadd; exists (OItv A); split; assumption|]. split; [exact GW|].
    intros r Hr. cbn [length] in *.
    assert (M0 : member e (r O)) by (apply Hr; rewrite AG by lia; reflexivity).
    assert (F2 : Forall2 member l (map r (seq 1 (length l)))).
    { assert (Q : forall k l', (forall j f, nth_error l' j = Some f -> member f (r (k + j)%nat)) -> Forall2 member l' (map r (seq k (length l')))).
      { intros k l'. revert k. induction l' as [|f l' IH]; intros k H; cbn; constructor; [rewrite <- (Nat.add_0_r k) at 1; now apply H|].
        apply IH. intros j f0 Hj. replace (S k + j)%nat with (k + S j)%nat by lia. now apply H. }
      apply Q. intros j f Hj. apply Hr. rewrite AG; [exact Hj|]. assert (j < length l)%nat by (apply nth_error_Some; congruence). lia. }
    assert (EQ : Rsum (S (length l)) r = r O + Rlist (map r (seq 1 (length l)))).
    { assert (Z := Rsum_list r (map r (seq 1 (length l))) 1). rewrite map_length, seq_length in Z. change (1 + length l)%nat with (S (length l)) in Z. rewrite Z; [cbn; ring|].
      intros k v Hk. rewrite nth_error_map in Hk. destruct (nth_error (seq 1 (length l)) k) as [j|] eqn:J; [|discriminate]. inversion Hk. f_equal.
      assert (k < length l)%nat by (rewrite <- (seq_length (length l) 1); apply nth_error_Some; congruence).
      rewrite (nth_error_nth' _ O) in J by (rewrite seq_length; assumption). rewrite seq_nth in J by assumption. now inversion J. }
    rewrite EQ. apply EW; [now apply EA | exact F2].
Qed.

(** The comparison of finite endpoints is the comparison of reals. *)
Lemma py_cmp_meaning c e o : finite_itv e -> finite_operand o -> (py_cmp c e o = true <-> compares c e o).
Proof.
  intros [F1 F2] F. apply finite_num_x in F1, F2.
  assert (N : forall a b, num_ne a b = negb (num_eq a b)) by reflexivity.
  destruct o as [d|y]; [apply finite_num_x in F; rename F into F3; assert (F4 := F3) | destruct F as [F3 F4]; apply finite_num_x in F3, F4];
    destruct c; unfold compares, both, low, high, py_cmp, py_lt, py_le, py_eq, py_ne, py_gt, py_ge, cmp_both, num_gt, num_ge;
    rewrite ?N, <- ?negb_andb, ?negb_true_iff, <- ?not_true_iff_false, ?andb_true_iff, ?num_eq_x, ?num_le_x, ?num_lt_x, ?F1, ?F2, ?F3, ?F4, ?xeqb_fin, ?xleb_fin, ?xltb_fin;
    unfold Rgt, Rge; try tauto; intuition lra.
Qed.
Lemma cmp_meaning_elementwise c x y m Z : Forall finite_itv (adata (adat x)) -> Forall finite_operand (adata y) ->
  returns (arr_cmp c x y) m Z ->
  forall idx, in_bounds (ashape Z) idx -> exists e o b, reads (adat x) idx e /\ reads y idx o /\ aget Z idx = Some b /\ (b = true <-> compares c e o).
Proof.
  intros Fx Fy H idx Hi. destruct (proj1 (cmp_elementwise c x y m) Z H) as (s & Hs & SZ & WZ & P). rewrite SZ in Hi.
  destruct (P idx Hi) as (e & o & He & Ho & G). exists e, o, (py_cmp c e o). split; [exact He|]. split; [exact Ho|]. split; [exact G|].
  rewrite Forall_forall in Fx, Fy. destruct He as (i1 & _ & He), Ho as (i2 & _ & Ho).
  apply py_cmp_meaning; [apply Fx; eapply aget_in; exact He | apply Fy; eapply aget_in; exact Ho].
Qed.
