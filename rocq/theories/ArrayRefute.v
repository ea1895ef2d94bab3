(** Counterexamples for arrays and construction. *)
From Coq Require Import ZArith Reals List Bool Arith Lia Lra Psatz Floats.SpecFloat.
From Flocq Require Import Core IEEE754.BinarySingleNaN.
From Verif Require Import Base PyNum Kernel Spec Expr XReal XArith Witness ExprProofs KernelMore KernelRefute Arrays Construct SpecArray ArrayProofs ArrayMore ArrayMat ArrayItems ConstructProofs ConstructMore ConstructSys ConstructUtil.
Import ListNotations.
Open Scope R_scope.

Lemma midrad_x : exists c r m Z x, is_finite c = true /\ is_finite r = true /\ 0 <= B2R r /\
  returns (single_interval (PFlt c) (PFlt r) true true) m Z /\ Rabs (x - B2R c) <= B2R r /\ ~ member Z x.
Proof.
  destruct (view_returns (single_interval (PFlt (fl 1 0)) (PFlt (fl 1 (-54))) true true) mode_NE Classical
     (inr (S754_finite false 4503599627370496 (-52))) (inr (S754_finite false 4503599627370496 (-52))))
    as (Z & HZ & _ & _ & Hh); [vm_compute; reflexivity|].
  assert (V1 : B2R (fl 1 0) = 1) by (rewrite (B2R_sf _ false 4503599627370496 (-52)) by (vm_compute; reflexivity); feval; lra).
  assert (V2 : B2R (fl 1 (-54)) = / 18014398509481984) by (rewrite (B2R_sf _ false 4503599627370496 (-106)) by (vm_compute; reflexivity); feval; lra).
  exists (fl 1 0), (fl 1 (-54)), mode_NE, Z, (1 + / 18014398509481984). rewrite V1, V2.
  split; [vm_compute; reflexivity|]. split; [vm_compute; reflexivity|]. split; [lra|]. split; [exact HZ|]. split; [apply Rabs_le; lra|].
  rewrite member_x, Hh. simpl. feval. lra.
Qed.
Lemma interval_number_x c s q m : raises (interval1 (ANest (NLeaf c)) s q) m TypeError.
Proof. reflexivity. Qed.

Definition arr1 (l : list itv) : aitv := array_interval (mkarr [length l] l).
Lemma arr1_consistent l : consistent (arr1 l).
Proof. split; [reflexivity|]. unfold awf. simpl. lia. Qed.
(** X = [ [1,2], [1.5,2.5] ]; X.a = [1, 1]. *)
Lemma mixed_x : exists x m Z idx e v, consistent x /\ Forall proper_fin (adata (adat x)) /\ returns (arr_a x) m Z /\
  aget (adat x) idx = Some e /\ aget Z idx = Some v /\ finite_num v /\ num_val v <> num_val (lo e).
Proof.
  assert (V : B2R (fl 3 (-1)) = 3 / 2) by (rewrite (B2R_sf _ false 6755399441055744 (-52)) by (vm_compute; reflexivity); feval; lra).
  assert (V2 : B2R (fl 5 (-1)) = 5 / 2) by (rewrite (B2R_sf _ false 5629499534213120 (-51)) by (vm_compute; reflexivity); feval; lra).
  exists (arr1 [mkitv Classical (PInt 1) (PInt 2); mkitv Classical (PFlt (fl 3 (-1))) (PFlt (fl 5 (-1)))]), mode_NE,
    (mkarr [2%nat] [PInt 1; PInt 1]), [1%nat], (mkitv Classical (PFlt (fl 3 (-1))) (PFlt (fl 5 (-1)))), (PInt 1).
  split; [apply arr1_consistent|]. split.
  { constructor; [|constructor; [|constructor]]; split; [split; exact I | simpl; lra | split; vm_compute; reflexivity |].
    cbn [lo hi num_val]. rewrite V, V2. lra. }
  split; [vm_compute; reflexivity|]. split; [reflexivity|]. split; [reflexivity|]. split; [exact I|].
  cbn [lo num_val]. rewrite V. lra.
Qed.
Lemma gap_x : exists X Y m Z, good X /\ good Y /\ returns (intersect X Y) m Z /\ ~ (exists r, member X r /\ member Y r) /\ exists r, member Z r.
Proof.
  set (t := PFlt (fl 1 (-60))). assert (V : B2R (fl 1 (-60)) = / 1152921504606846976) by (rewrite (B2R_sf _ false 4503599627370496 (-112)) by (vm_compute; reflexivity); feval; lra).
  assert (XT : xval t = XFin (/ 1152921504606846976)) by (unfold t; cbn [xval]; rewrite <- V; apply is_finite_x; vm_compute; reflexivity).
  destruct (view_returns (intersect (ival Classical 0 0) (mkitv Classical t t)) mode_NE Classical
     (inl 0%Z) (inr (S754_finite false 4503599627370496 (-112)))) as (Z & HZ & _ & Hl & Hh); [vm_compute; reflexivity|].
  assert (M0 : forall r, member (ival Classical 0 0) r -> r = 0) by (intro r; rewrite member_x; simpl; lra).
  assert (Mt : forall r, member (mkitv Classical t t) r -> r = / 1152921504606846976).
  { intro r. rewrite member_x. cbn [lo hi]. rewrite XT. simpl. lra. }
  exists (ival Classical 0 0), (mkitv Classical t t), mode_NE, Z.
  split; [split; [reflexivity|split; [split; simpl; lia|right; exists 0; split; simpl; lra]]|].
  split; [split; [reflexivity|split; [split; exact I|right; exists (/ 1152921504606846976); rewrite member_x; cbn [lo hi]; rewrite XT; simpl; lra]]|].
  split; [exact HZ|]. split.
  - intros (r & H0 & H1). apply M0 in H0. apply Mt in H1. lra.
  - exists 0. rewrite member_x, Hl, Hh. simpl. feval. lra.
Qed.
(** x of shape (1,), x += y with y of shape (3,). *)
Lemma stale_x : exists x y m Z, consistent x /\ Forall good (adata (adat x)) /\ returns (arr_iop OpAdd x y) m Z /\ shp Z <> ashape (adat Z).
Proof.
  set (e := ival Classical 1 2).
  assert (Ge : good e) by (split; [reflexivity|split; [split; simpl; lia|right; exists 1; split; simpl; lra]]).
  assert (G3 : exists d, returns (arr_iop OpAdd (arr1 [e]) (mkarr [3%nat] [ONum (PInt 1); ONum (PInt 1); ONum (PInt 1)])) mode_NE d /\ shp d <> ashape (adat d)).
  { unfold returns. destruct (outcome (arr_iop OpAdd (arr1 [e]) (mkarr [3%nat] [ONum (PInt 1); ONum (PInt 1); ONum (PInt 1)])) mode_NE) as [d|er] eqn:E.
    - exists d. split; [reflexivity|].
      assert (V : match outcome (arr_iop OpAdd (arr1 [e]) (mkarr [3%nat] [ONum (PInt 1); ONum (PInt 1); ONum (PInt 1)])) mode_NE with Ok d => (shp d, ashape (adat d)) = ([1%nat], [3%nat]) | Err _ => False end) by (vm_compute; reflexivity).
      rewrite E in V. inversion V as [[V1 V2]]. rewrite V1, V2. discriminate.
    - exfalso. assert (V : match outcome (arr_iop OpAdd (arr1 [e]) (mkarr [3%nat] [ONum (PInt 1); ONum (PInt 1); ONum (PInt 1)])) mode_NE with Ok d => True | Err _ => False end) by (vm_compute; exact I).
      now rewrite E in V. }
  destruct G3 as (d & Hd & N). exists (arr1 [e]), (mkarr [3%nat] [ONum (PInt 1); ONum (PInt 1); ONum (PInt 1)]), mode_NE, d.
  split; [apply arr1_consistent|]. split; [constructor; [exact Ge|constructor]|]. split; assumption.
Qed.
Lemma x_same_num x y : same_num x y -> xval x = xval y.
Proof.
  unfold same_num. rewrite num_eq_x, !is_nan_num_x. intros [H|[H1 H2]]; [|congruence].
  destruct (xval x), (xval y); try discriminate; try reflexivity. apply xeqb_fin in H. now subst.
Qed.
Lemma wid_number_x m : exists c v, medium_num c /\ finite_num c /\ returns (u_wid (ONum c)) m v /\ finite_num v /\ num_val v <> 0.
Proof.
  destruct (u_number (PInt 3) m) as (_ & _ & _ & _ & _ & (v & Hv & S)); [simpl; lia | exact I|].
  exists (PInt 3), v. split; [simpl; lia|]. split; [exact I|]. split; [exact Hv|]. apply x_same_num in S.
  apply xval_num_val in S. destruct S as [F V]. split; [exact F|]. rewrite V. lra.
Qed.
(** ArrayInterval / scalar interval with zero inside. *)
Definition view_elem (r : res aitv) (k : nat) : option (kind * (Z + spec_float) * (Z + spec_float)) :=
  match r with Ok x => match nth_error (adata (adat x)) k with Some e => Some (kd e, view_num (lo e), view_num (hi e)) | None => None end | Err _ => None end.
Lemma view_arr (c : M aitv) m n k l h : view_elem (outcome c m) n = Some (k, l, h) ->
  exists Z e, returns c m Z /\ nth_error (adata (adat Z)) n = Some e /\ kd e = k /\ xval (lo e) = xview l /\ xval (hi e) = xview h.
Proof.
  unfold returns, view_elem. destruct (outcome c m) as [Z|]; [|discriminate]. destruct (nth_error (adata (adat Z)) n) as [e|] eqn:E; [|discriminate].
  intro H; inversion H; subst. exists Z, e. rewrite !xval_view. auto.
Qed.
Lemma arr_div_itv_x : exists x S m Z e c u v, consistent x /\ Forall good (adata (adat x)) /\ good S /\ member S 0 /\
  returns (arr_op_itv OpDiv x S) m Z /\ nth_error (adata (adat x)) 0 = Some e /\ nth_error (adata (adat Z)) 0 = Some c /\
  member e u /\ member S v /\ v <> 0 /\ ~ nan_itv c /\ ~ member c (u / v).
Proof.
  set (e := ival Classical 1 1). set (S := ival Classical (-1) 1).
  destruct (view_arr (arr_op_itv OpDiv (arr1 [e]) S) mode_NE 0 Classical
     (inr (S754_finite true 4503599627370496 (-52))) (inr (S754_finite false 4503599627370496 (-52)))) as (Z & c & HZ & Hc & _ & Hl & Hh); [vm_compute; reflexivity|].
  exists (arr1 [e]), S, mode_NE, Z, e, c, 1, (/ 2).
  split; [apply arr1_consistent|]. split; [constructor; [split; [reflexivity|split; [split; simpl; lia|right; exists 1; split; simpl; lra]]|constructor]|].
  split; [split; [reflexivity|split; [split; simpl; lia|right; exists 1; split; simpl; lra]]|]. split; [split; simpl; lra|].
  split; [exact HZ|]. split; [reflexivity|]. split; [exact Hc|]. split; [split; simpl; lra|]. split; [split; simpl; lra|]. split; [lra|].
  split; [intro N; apply KernelProofs.nan_itv_x in N; destruct N as [N _]; rewrite Hl in N; discriminate|].
  rewrite member_x, Hl, Hh. simpl. feval. lra.
Qed.
(** [4,5] in [[1,2],[3,6]]: some element contains it. *)
Lemma contains_any_x : exists x o, consistent x /\ arr_contains_scalar x o = Ok true /\ exists e, In e (adata (adat x)) /\ py_contains e o = false.
Proof.
  exists (arr1 [ival Classical 1 2; ival Classical 3 6]), (ONum (PInt 4)). split; [apply arr1_consistent|].
  split; [reflexivity|]. exists (ival Classical 1 2). split; [now left|reflexivity].
Qed.
