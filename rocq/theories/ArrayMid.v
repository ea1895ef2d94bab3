(** Midpoints, radii and widths of interval arrays. *)
From Coq Require Import ZArith Reals List Bool Arith Lia Lra.
From Flocq Require Import Core IEEE754.BinarySingleNaN.
From Verif Require Import Base PyNum Kernel Spec Expr ExprProofs XReal XArith KernelAlg Arrays Construct SpecArray ArrayProofs ArrayMore Witness ArrayRefute RecogFlProofs.
Import ListNotations.
Open Scope R_scope.

Lemma half_returns w m : exact_num w -> exists f, num_mul m (PFlt fhalf) w = Ok (PFlt f).
Proof.
  intro E. destruct (to_double_exact w E) as (f & Hf & _). unfold num_mul, arith2. destruct w as [z|g]; simpl in Hf |- *.
  - rewrite Hf. eexists; reflexivity.
  - eexists; reflexivity.
Qed.
Lemma mid_total e m : small_itv e -> exists v, returns (mid e) m v.
Proof.
  intros [sl sh]. destruct (num_add_x m _ _ sh sl) as (w & Hw & Ew & _). destruct (half_returns w m Ew) as (f & Hf).
  exists (PFlt f). unfold returns, outcome, mid, add_, mul_, mbind, mprim. now rewrite Hw, Hf.
Qed.
Lemma rad_total e m : small_itv e -> exists v, returns (rad e) m v.
Proof.
  intros [sl sh]. destruct (num_sub_x m _ _ sh sl) as (w & Hw & Ew & _). destruct (half_returns w m Ew) as (f & Hf).
  exists (PFlt f). unfold returns, outcome, rad, wid, sub_, mul_, mbind, mprim. now rewrite Hw, Hf.
Qed.
Lemma wid_total e m : small_itv e -> exists v, returns (wid e) m v.
Proof. intros [sl sh]. destruct (num_sub_x m _ _ sh sl) as (w & Hw & _). exists w. unfold returns, outcome, wid, sub_, mprim. now rewrite Hw. Qed.

Lemma mid_array A m : adata (adat A) <> [] -> Forall small_itv (adata (adat A)) ->
  exists Z, returns (arr_mid A) m Z /\ ashape Z = ashape (adat A) /\ Forall2 (fun e v => returns (mid e) m v) (adata (adat A)) (adata Z).
Proof.
  intros N S. rewrite Forall_forall in S. apply double_fun_exact; auto; [intro; apply keeps_mid | intros e v; apply mid_double | intros e He; apply mid_total, S, He].
Qed.
Lemma rad_array A m : adata (adat A) <> [] -> Forall small_itv (adata (adat A)) ->
  exists Z, returns (arr_rad A) m Z /\ ashape Z = ashape (adat A) /\ Forall2 (fun e v => returns (rad e) m v) (adata (adat A)) (adata Z).
Proof.
  intros N S. rewrite Forall_forall in S. apply double_fun_exact; auto; [intro; apply keeps_rad | intros e v; apply rad_double | intros e He; apply rad_total, S, He].
Qed.
Lemma wid_kind e m v : small_itv e -> returns (wid e) m v ->
  ((is_double (lo e) \/ is_double (hi e)) /\ is_double v) \/ ((exists z, lo e = PInt z) /\ (exists z, hi e = PInt z) /\ is_int64 v).
Proof.
  intros [sl sh] H. unfold returns, outcome, wid, sub_, mprim, num_sub, arith2 in H. cbn [fst] in H.
  assert (Q : forall x : pynum, (exists f, x = PFlt f) -> is_double x) by (intros x (f & ->); now exists f).
  destruct (hi e) as [b|g], (lo e) as [a|f].
  - right. cbn in H. injection H as <-. split; [eauto|]. split; [eauto|]. exists (b - a)%Z. split; [reflexivity|].
    simpl in sl, sh. change (2 ^ 63)%Z with (2 ^ 26 * 2 ^ 37)%Z. lia.
  - left. split; [left; apply Q; eauto|]. destruct (to_double (PInt b)) as [d|]; cbn in H; [injection H as <-; apply Q; eauto | discriminate].
  - left. split; [right; apply Q; eauto|]. cbn in H. destruct (to_double (PInt a)) as [d|] eqn:E; cbn in E; rewrite ?E in H; cbn in H; [|destruct (int_to_double a); try discriminate]; injection H as <-; apply Q; eauto.
  - left. split; [left; apply Q; eauto|]. cbn in H. injection H as <-. apply Q; eauto.
Qed.
Lemma wid_array A m : adata (adat A) <> [] -> Forall small_itv (adata (adat A)) ->
  (Forall (fun e => is_double (lo e) \/ is_double (hi e)) (adata (adat A)) \/ Forall (fun e => ~ is_double (lo e) /\ ~ is_double (hi e)) (adata (adat A))) ->
  exists Z, returns (arr_wid A) m Z /\ ashape Z = ashape (adat A) /\ Forall2 (fun e v => returns (wid e) m v) (adata (adat A)) (adata Z).
Proof.
  intros N S U.
  assert (T : exists vs, Forall2 (fun e v => returns (wid e) m v) (adata (adat A)) vs).
  { clear N U. induction (adata (adat A)) as [|e l IH]; [exists []; constructor|]. inversion_clear S. destruct (wid_total e m H) as [v Hv]. destruct (IH H0) as [vs Hvs]. exists (v :: vs). now constructor. }
  destruct T as [vs Hvs]. exists (mkarr (ashape (adat A)) vs). split; [|split; [reflexivity | exact Hvs]].
  apply vectorize_num_exact; [intro; apply keeps_wid | exact Hvs | | intro E; subst; inversion Hvs; congruence].
  destruct U as [U | U]; [left | right]; clear N; induction Hvs as [|e v l vs Hv Hvs IH]; constructor;
    inversion_clear S; inversion_clear U; auto; destruct (wid_kind e m v H Hv) as [[D1 D2] | [(z & E1) [(w & E2) D2]]]; auto.
  - exfalso. rewrite E1, E2 in H1. destruct H1 as [(f & F) | (f & F)]; discriminate.
  - exfalso. destruct D1; tauto.
Qed.

(** The width of an element with int ends decides the dtype of the others. *)
Lemma wid_mixed_x : exists x m Z idx e v, consistent x /\ Forall proper_fin (adata (adat x)) /\ returns (arr_wid x) m Z /\
  aget (adat x) idx = Some e /\ aget Z idx = Some v /\ finite_num v /\ num_val v = 0 /\ num_val (lo e) + 1 / 2 <= num_val (hi e).
Proof.
  assert (V : B2R (fl 3 (-1)) = 3 / 2) by (rewrite (B2R_sf _ false 6755399441055744 (-52)) by (vm_compute; reflexivity); feval; lra).
  assert (V2 : B2R (fl 9 (-2)) = 9 / 4) by (rewrite (B2R_sf _ false 5066549580791808 (-51)) by (vm_compute; reflexivity); feval; lra).
  exists (arr1 [mkitv Classical (PInt 1) (PInt 2); mkitv Classical (PFlt (fl 3 (-1))) (PFlt (fl 9 (-2)))]), mode_NE,
    (mkarr [2%nat] [PInt 1; PInt 0]), [1%nat], (mkitv Classical (PFlt (fl 3 (-1))) (PFlt (fl 9 (-2)))), (PInt 0).
  split; [apply arr1_consistent|]. split.
  { constructor; [|constructor; [|constructor]]; split; [split; exact I | simpl; lra | split; vm_compute; reflexivity |].
    cbn [lo hi num_val]. rewrite V, V2. lra. }
  split; [vm_compute; reflexivity|]. split; [reflexivity|]. split; [reflexivity|]. split; [exact I|]. split; [reflexivity|].
  cbn [lo hi num_val]. rewrite V, V2. lra.
Qed.
