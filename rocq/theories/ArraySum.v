(** [sum] of arrays with two or more dimensions. *)
From Coq Require Import ZArith Reals List Bool Arith Lia Lra.
From Verif Require Import Base PyNum Kernel Spec Expr Arrays Construct SpecArray XReal XArith KernelProofs KernelMore ExprProofs ArrayProofs ArrayMore ArrayMat ArrayCmp SpecArrayCmp ArrayCmpProofs ArrayItems.
Import ListNotations.
Open Scope R_scope.

Lemma keeps_add_each acc : forall l, keeps_mode (add_each acc l).
Proof.
  induction acc as [|a acc IH]; intros [|e l]; try apply keeps_ret. cbn [add_each].
  apply keeps_bind; [apply keeps_oadd|]. intro s. apply keeps_bind; [apply IH|]. intro r. apply keeps_ret.
Qed.
Lemma keeps_sum_pieces ps : forall acc, keeps_mode (sum_pieces acc ps).
Proof. induction ps as [|p ps IH]; intro acc; [apply keeps_ret|]. cbn [sum_pieces]. apply keeps_bind; [apply keeps_add_each | exact IH]. Qed.
Lemma add_each_total acc : forall l m, length l = length acc ->
  (forall j a e, nth_error acc j = Some a -> nth_error l j = Some e -> exists w, returns (oadd a (OItv e)) m w) ->
  exists r, returns (add_each acc l) m r /\ length r = length acc /\
    forall j a e, nth_error acc j = Some a -> nth_error l j = Some e -> exists w, nth_error r j = Some w /\ returns (oadd a (OItv e)) m w.
Proof.
  induction acc as [|a acc IH]; intros [|e l] m L Q; try discriminate.
  - exists []. split; [reflexivity|]. split; [reflexivity|]. intros [|j] a0 e0 H1; discriminate.
  - destruct (Q O a e eq_refl eq_refl) as [w Hw]. destruct (IH l m) as (r & Hr & Lr & Pr); [now inversion L | intros j a0 e0 H1 H2; exact (Q (S j) a0 e0 H1 H2)|].
    exists (w :: r). split.
    + cbn [add_each]. rewrite keeps_returns by apply keeps_oadd. exists w. split; [exact Hw|]. rewrite keeps_returns by apply keeps_add_each. exists r. split; [exact Hr | reflexivity].
    + split; [cbn; now rewrite Lr|]. intros [|j] a0 e0 H1 H2; cbn in *; [inversion H1; inversion H2; subst; eauto | now apply (Pr j a0 e0)].
Qed.
Lemma sum_pieces_total (d : itv) ps : forall acc m, Forall (fun p => length (adata p) = length acc) ps ->
  (forall j a, nth_error acc j = Some a -> exists w, returns (sum_from a (map (fun p => nth j (adata p) d) ps)) m w) ->
  exists r, returns (sum_pieces acc ps) m r /\ length r = length acc /\
    forall j a, nth_error acc j = Some a -> exists w, nth_error r j = Some w /\ returns (sum_from a (map (fun p => nth j (adata p) d) ps)) m w.
Proof.
  induction ps as [|p ps IH]; intros acc m L Q.
  - exists acc. split; [reflexivity|]. split; [reflexivity|]. intros j a H1. exists a. split; [exact H1 | reflexivity].
  - inversion L as [|? ? Lp Lps]; subst.
    assert (St : forall j a, nth_error acc j = Some a -> exists s, returns (oadd a (OItv (nth j (adata p) d))) m s /\ exists w, returns (sum_from s (map (fun p => nth j (adata p) d) ps)) m w).
    { intros j a H1. destruct (Q j a H1) as [w Hw]. cbn [map sum_from] in Hw. rewrite keeps_returns in Hw by apply keeps_oadd. destruct Hw as (s & H2 & H3). exists s. split; [exact H2 | eauto]. }
    assert (Nt : forall j e, nth_error (adata p) j = Some e -> e = nth j (adata p) d) by (intros j e H1; symmetry; now apply nth_error_nth).
    destruct (add_each_total acc (adata p) m Lp) as (r1 & Hr1 & L1 & P1).
    { intros j a e H1 H2. destruct (St j a H1) as (s & H3 & _). rewrite (Nt j e H2). eauto. }
    assert (P1' : forall j a, nth_error acc j = Some a -> exists s, nth_error r1 j = Some s /\ returns (oadd a (OItv (nth j (adata p) d))) m s).
    { intros j a H1. assert (Hj : (j < length (adata p))%nat) by (rewrite Lp; apply nth_error_Some; congruence).
      apply (P1 j a (nth j (adata p) d) H1). now apply nth_error_nth'. }
    assert (Det : forall (c : M operand) u v, returns c m u -> returns c m v -> u = v) by (intros c u v A B; unfold returns in *; congruence).
    destruct (IH r1 m) as (r & Hr & Lr & Pr).
    { rewrite L1. exact Lps. }
    { intros j s H1. assert (Hj : (j < length acc)%nat) by (rewrite <- L1; apply nth_error_Some; congruence).
      destruct (nth_error acc j) as [a|] eqn:Ea; [|apply nth_error_None in Ea; lia].
      destruct (St j a Ea) as (s' & H3 & w & H4). destruct (P1' j a Ea) as (s2 & H5 & H6). assert (s2 = s) by congruence. subst s2. rewrite (Det _ _ _ H6 H3). eauto. }
    exists r. split; [cbn [sum_pieces]; rewrite keeps_returns by apply keeps_add_each; eauto|]. split; [congruence|].
    intros j a H1. destruct (P1' j a H1) as (s & H5 & H6). destruct (Pr j s H5) as (w & H7 & H8). exists w. split; [exact H7|].
    cbn [map sum_from]. rewrite keeps_returns by apply keeps_oadd. eauto.
Qed.
(** The vector of the elements at [idx] of all pieces. *)
Theorem sum_nd x n t m : consistent x -> shp x = n :: t -> t <> [] -> Forall good (adata (adat x)) ->
  (n = O -> returns (arr_sum_nd x) m (SumNum (ONum (PInt 0)))) /\
  ((0 < n)%nat -> exists a, returns (arr_sum_nd x) m (SumArr a) /\ ashape a = t /\ awf a /\
     forall idx, in_bounds t idx -> exists W, aget a idx = Some (OItv W) /\ good W /\
       (forall v, consistent v -> shp v = [n] -> (forall k, (k < n)%nat -> aget (adat v) [k] = aget (adat x) (k :: idx)) -> returns (arr_sum v) m (OItv W)) /\
       forall r : nat -> R, (forall k e, aget (adat x) (k :: idx) = Some e -> member e (r k)) -> member_or_nan W (Rsum n r)).
Proof.
  intros Cx E Nt G. assert (Cx' := Cx). destruct Cx' as [Sx Wx]. assert (Sd : ashape (adat x) = n :: t) by congruence.
  unfold arr_sum_nd. rewrite Sd. destruct t as [|t0 t']; [contradiction|]. remember (t0 :: t') as t eqn:Et. clear Nt.
  split; [intros ->; reflexivity|]. intro Hn. destruct (Nat.eqb_spec n 0); [lia|].
  destruct (iter_pieces x Cx n t E) as (_ & ps & Ei & Lp & Pp). rewrite Ei.
  set (d := mkitv Classical pn0 pn0).
  (* the elements of one column *)
  assert (Col : forall idx j, flat t idx = Some j -> length (map (fun p => nth j (adata p) d) ps) = n /\ Forall good (map (fun p => nth j (adata p) d) ps) /\
     forall k, (k < n)%nat -> nth_error (map (fun p => nth j (adata p) d) ps) k = aget (adat x) (k :: idx)).
  { intros idx j F. assert (Hb : in_bounds t idx) by (apply in_bounds_flat; eauto).
    assert (K : forall k, (k < n)%nat -> nth_error (map (fun p => nth j (adata p) d) ps) k = aget (adat x) (k :: idx)).
    { intros k Hk. destruct (Pp k Hk) as (p & H1 & H2 & H3 & H4). rewrite nth_error_map, H1. cbn [option_map]. rewrite <- (H4 idx Hb).
      assert (F2 : flat (ashape p) idx = Some j) by now rewrite H2. destruct (aget_some p idx j H3 F2) as (e & H5 & H6). rewrite H5. f_equal. now apply nth_error_nth. }
    split; [now rewrite map_length|]. split; [|exact K]. apply Forall_forall. intros e He. apply In_nth_error in He. destruct He as [k Hk].
    assert (Hkn : (k < n)%nat) by (rewrite <- Lp, <- (map_length (fun p => nth j (adata p) d)); apply nth_error_Some; congruence).
    rewrite (K k Hkn) in Hk. unfold aget in Hk. destruct (flat (ashape (adat x)) (k :: idx)) as [q|]; [|discriminate]. rewrite Forall_forall in G. apply G. eapply nth_error_In; exact Hk. }
  assert (Vec : forall idx j, flat t idx = Some j -> exists W, returns (sum_from (ONum (PInt 0)) (map (fun p => nth j (adata p) d) ps)) m (OItv W) /\ good W /\
       (forall r : nat -> R, (forall k e, aget (adat x) (k :: idx) = Some e -> member e (r k)) -> member_or_nan W (Rsum n r))).
  { intros idx j F. destruct (Col idx j F) as (L & Gc & K). set (v := array_interval (mkarr [n] (map (fun p => nth j (adata p) d) ps))).
    assert (Cv : consistent v) by (split; [reflexivity|]; unfold awf; cbn; rewrite L; lia).
    destruct (sum_encloses v n m Cv eq_refl Gc) as [_ Q]. destruct (Q Hn) as (W & HW & GW & EW). exists W. split; [exact HW|]. split; [exact GW|].
    intros r Hr. apply EW. intros k e Hk. apply Hr. assert (Hkn : (k < n)%nat).
    { unfold aget in Hk. cbn [v array_interval adat ashape flat] in Hk. destruct (Nat.ltb_spec k n); [assumption|discriminate]. }
    rewrite <- (K k Hkn). unfold aget in Hk. cbn [v array_interval adat ashape adata flat size] in Hk. destruct (Nat.ltb_spec k n); [|lia]. rewrite <- Hk. f_equal. lia. }
  assert (Rep : forall j a, nth_error (repeat (ONum (PInt 0)) (size t)) j = Some a -> a = ONum (PInt 0) /\ (j < size t)%nat).
  { intros j a H1. split; [apply nth_error_In in H1; now apply repeat_spec in H1 | rewrite <- (repeat_length (ONum (PInt 0)) (size t)); apply nth_error_Some; congruence]. }
  destruct (sum_pieces_total d ps (repeat (ONum (PInt 0)) (size t)) m) as (r & Hr & Lr & Pr).
  { apply Forall_forall. intros p Hp. apply In_nth_error in Hp. destruct Hp as [k Hk]. assert (Hkn : (k < n)%nat) by (rewrite <- Lp; apply nth_error_Some; congruence).
    destruct (Pp k Hkn) as (p' & H1 & H2 & H3 & _). assert (p' = p) by congruence. subst p'. rewrite repeat_length. unfold awf in H3. now rewrite H3, H2. }
  { intros j a H1. destruct (Rep j a H1) as [-> Hj]. destruct (nth_flat _ _ Hj) as (idx & _ & F). destruct (Vec idx j F) as (W & HW & _). eauto. }
  exists (mkarr t r). split; [rewrite keeps_returns by apply keeps_lift; exists ps; split; [reflexivity|]; rewrite keeps_returns by apply keeps_sum_pieces; exists r; split; [exact Hr | reflexivity]|].
  split; [reflexivity|]. rewrite repeat_length in Lr. split; [exact Lr|]. intros idx Hb. apply in_bounds_flat in Hb. destruct Hb as [j F]. assert (Hj := flat_lt _ _ _ F).
  destruct (Vec idx j F) as (W & HW & GW & EW). destruct (Pr j (ONum (PInt 0))) as (w & H1 & H2); [now apply nth_error_repeat|].
  assert (w = OItv W) by (unfold returns in *; congruence). subst w. exists W. split; [unfold aget; cbn [ashape adata]; now rewrite F|]. split; [exact GW|]. split; [|exact EW].
  intros v [Sv Wv] Ev Kv. assert (Sdv : ashape (adat v) = [n]) by congruence. unfold arr_sum. rewrite Sdv.
  destruct (Col idx j F) as (L & Gc & K). replace (adata (adat v)) with (map (fun p => nth j (adata p) d) ps); [exact HW|].
  unfold awf in Wv. rewrite Sdv in Wv. cbn [size] in Wv. rewrite Nat.mul_1_r in Wv. apply nth_error_ext'. intro k. destruct (Nat.lt_ge_cases k n) as [Hk|Hk].
  - rewrite (K k Hk), <- (Kv k Hk). unfold aget. rewrite Sdv. cbn [flat size]. destruct (Nat.ltb_spec k n); [|lia]. f_equal. lia.
  - rewrite (proj2 (nth_error_None _ k)) by lia. symmetry. apply nth_error_None. lia.
Qed.
