(** PSS: with a positive tolerance and enough iterations the splitting ends, and the
    bound is attained for right-hand sides widened in proportion to the tolerance. *)
From Coq Require Import Reals List Arith Bool ZArith Lia Lra Psatz.
From Verif Require Import Exact SpecExact ExactProofs Estim SpecEstim EstimProofs RecogProofs Pss SpecPss PssProofs PssLoop PssMore PssAcc.
Import ListNotations.
Open Scope R_scope.

Lemma mag_bound X x : inI X x -> Rabs x <= r_mag X.
Proof.
  intros [H1 H2]. unfold r_mag. assert (A := Rmax_l (Rabs (rl X)) (Rabs (rh X))). assert (B := Rmax_r (Rabs (rl X)) (Rabs (rh X))). assert (C := Rle_abs (rh X)). assert (D := Rle_abs (- rl X)). rewrite Rabs_Ropp in D.
  unfold Rabs at 1. destruct Rcase_abs; lra.
Qed.
Lemma mag_nn X : 0 <= r_mag X.
Proof. unfold r_mag. eapply Rle_trans; [apply Rabs_pos | apply Rmax_l]. Qed.
Lemma lsum_le f g l : (forall j, In j l -> f j <= g j) -> lsum f l <= lsum g l.
Proof. unfold lsum. induction l as [|j l IH]; intro H; cbn [fold_right]; [lra|]. assert (A := H j ltac:(now left)). assert (B := IH ltac:(intros; apply H; now right)). lra. Qed.
Lemma lsum_ext f g l : (forall j, In j l -> f j = g j) -> lsum f l = lsum g l.
Proof. unfold lsum. induction l as [|j l IH]; intro H; cbn [fold_right]; [reflexivity|]. rewrite (H j ltac:(now left)), IH by (intros; apply H; now right). reflexivity. Qed.
Lemma lsum_abs f l : Rabs (lsum f l) <= lsum (fun j => Rabs (f j)) l.
Proof. unfold lsum. induction l as [|j l IH]; cbn [fold_right]; [rewrite Rabs_R0; lra|]. eapply Rle_trans; [apply Rabs_triang | lra]. Qed.
Lemma lsum_minus f g l : lsum (fun j => f j - g j) l = lsum f l - lsum g l.
Proof. unfold lsum. induction l as [|j l IH]; cbn [fold_right]; [ring|]. rewrite IH. ring. Qed.
Lemma lsum_scale c f l : lsum (fun j => c * f j) l = c * lsum f l.
Proof. unfold lsum. induction l as [|j l IH]; cbn [fold_right]; [ring|]. rewrite IH. ring. Qed.
Lemma others_nodup n nu : NoDup (others n nu).
Proof. unfold others. apply NoDup_filter, seq_NoDup. Qed.

Section Ends.
Variables (lp : lp_solver) (m n nu : nat) (A : imat) (b V : ivec) (tol : R).
Hypothesis Hnu : (nu < n)%nat.
Hypothesis PA : proper_mat m n A.
Hypothesis Pb : proper_vec m b.
Hypothesis PV : proper_vec n V.
Hypothesis T0 : 0 < tol.
Hypothesis L0 : rl (V nu) <> 0.
Hypothesis H15 : rh (V nu) <= 10 ^ 15.
Hypothesis HLP : lp_answers lp m n nu A b V.
Notation idx := (others n nu).
Notation wb := (widened b (slack m n nu A tol)).

Lemma slack_nn i : 0 <= slack m n nu A tol i.
Proof.
  unfold slack. apply Rplus_le_le_0_compat; apply Rmult_le_pos; [lra | apply total_nn; intros j _; destruct (j =? nu)%nat; [lra | apply mag_nn] | | apply mag_nn].
  apply Rmult_le_pos; [apply pos_INR | assert (E := eps_pos); unfold eps in E; lra].
Qed.
Lemma attained_wider q : attained m n nu A b V q -> attained m n nu A wb V q.
Proof.
  intros (x & (M & v & HM & Hv & S) & C & E). exists x. split; [|auto]. exists M, v. split; [exact HM|]. split; [|exact S].
  intros i Hi. assert (B := Hv i Hi). assert (N := slack_nn i). unfold inI, widened in *. cbn [rl rh]. lra.
Qed.
(** A small box: the bound computed for it is attained *)
Lemma small_attained Q r : sub_box n nu Q V -> (forall j, (j < n)%nat -> j <> nu -> wid (Q j) <= tol) ->
  omega_of m (fun i => r_sub (b i) (rest idx A Q i)) (Anu nu A) (V nu) = Val r -> attained m n nu A wb V r.
Proof.
  intros S W E. 
  assert (PQ : forall j, In j idx -> proper (Q j)) by (intros j Hj; apply others_in in Hj; destruct (S j (proj1 Hj) (proj2 Hj)); unfold proper; lra).
  assert (PR : forall i, (i < m)%nat -> proper (rest idx A Q i)).
  { intros i Hi. unfold rest. assert (G : forall l, (forall j, In j l -> proper (Q j)) -> proper (fold_right (fun j s => r_add (r_mul (A i j) (Q j)) s) (r_point 0) l)); [|now apply G].
    induction l as [|k l IH]; intro H; cbn [fold_right]; [unfold proper, r_point; simpl; lra|]. assert (Q0 := IH ltac:(intros; apply H; now right)). unfold proper, r_add in *. cbn [rl rh]. apply Rplus_le_compat; [|exact Q0].
    unfold r_mul; cbn [rl rh]; eapply Rle_trans; [apply Rmin_l|]; eapply Rle_trans; [apply Rmin_l|]; eapply Rle_trans; [|apply Rmax_l]; apply Rmax_l. }
  set (x := fun j => if (j =? nu)%nat then r else r_mid (Q j)).
  assert (ROW : forall i, exists a c, (i < m)%nat -> (forall j, (j < n)%nat -> inI (A i j) (a j)) /\ inI (wb i) c /\ total n (fun j => a j * x j) = c).
  { intro i. destruct (lt_dec i m) as [Hi|Hi]; [|exists (fun _ => 0), 0; intro; contradiction].
    destruct (omega_only m (fun i => r_sub (b i) (rest idx A Q i)) (Anu nu A) (V nu) r) with (3 := E) (i := i) as (t & s & c & Ht & Hs & Hc & Est).
    - intros k Hk. split; [|unfold Anu; now apply PA]. assert (B := Pb k Hk). assert (R0 := PR k Hk). unfold proper, r_sub in *. cbn [rl rh]. lra.
    - now apply PV.
    - exact Hi.
    - unfold Anu in Hs. unfold inI, r_sub in Hc. cbn [rl rh] in Hc.
      assert (R0 := PR i Hi). assert (Bi := Pb i Hi). unfold proper in R0, Bi.
      set (p := Rmax (rl (rest idx A Q i)) (rl (b i) - c)).
      assert (P2 : inI (rest idx A Q i) p /\ inI (b i) (p + c)) by (unfold p, inI, Rmax; destruct Rle_dec; lra). destruct P2 as [P2 P3].
      destruct (rest_only idx A Q i p) as (a & y & Hay & Esum); [intros j Hj; split; [apply others_in in Hj; apply PA; tauto | now apply PQ] | apply others_nodup | exact P2|].
      exists (fun j => if (j =? nu)%nat then s else a j), (total n (fun j => (if (j =? nu)%nat then s else a j) * x j)). intros _. split; [|split; [|reflexivity]].
      + intros j Hj. destruct (Nat.eqb_spec j nu) as [->|D]; [exact Hs|]. apply Hay. apply others_in. auto.
      + rewrite (total_others n nu) by exact Hnu. unfold x at 1. rewrite Nat.eqb_refl.
        rewrite (lsum_ext _ (fun j => a j * r_mid (Q j)) idx) by (intros j Hj; apply others_in in Hj; unfold x; destruct (Nat.eqb_spec j nu); [tauto | reflexivity]).
        assert (B1 : Rabs (s * r - c) <= INR (m + 1) / 10 ^ 15 * r_mag (A i nu)).
        { rewrite <- Est. replace (s * r - s * t) with (s * (r - t)) by ring. rewrite Rabs_mult, (Rmult_comm (INR (m + 1) / 10 ^ 15)). apply Rmult_le_compat; [apply Rabs_pos | apply Rabs_pos | now apply mag_bound | exact Ht]. }
        assert (B2 : Rabs (lsum (fun j => a j * r_mid (Q j)) idx - p) <= tol / 2 * total n (fun j => if (j =? nu)%nat then 0 else r_mag (A i j))).
        { rewrite <- Esum, <- lsum_minus. eapply Rle_trans; [apply lsum_abs|]. rewrite (total_others n nu) by exact Hnu. rewrite Nat.eqb_refl, Rplus_0_l, <- lsum_scale. apply lsum_le. intros j Hj.
          destruct (Hay j Hj) as [Ha Hy]. apply others_in in Hj. destruct (Nat.eqb_spec j nu); [tauto|]. replace (a j * r_mid (Q j) - a j * y j) with (a j * (r_mid (Q j) - y j)) by ring. rewrite Rabs_mult, Rmult_comm.
          apply Rmult_le_compat; [apply Rabs_pos | apply Rabs_pos | | now apply mag_bound]. assert (Wj := W j (proj1 Hj) (proj2 Hj)). unfold inI, wid in *. unfold r_mid. unfold Rabs; destruct Rcase_abs; lra. }
        unfold inI in P3. unfold inI, widened. cbn [rl rh]. unfold slack.
        set (e1 := INR (m + 1) / 10 ^ 15 * r_mag (A i nu)) in *. set (e2 := tol / 2 * total n _) in *. clearbody e1 e2. unfold Rabs in B1, B2. destruct Rcase_abs in B1; destruct Rcase_abs in B2; lra. }
  assert (RA : exists M, forall i, exists c, (i < m)%nat -> (forall j, (j < n)%nat -> inI (A i j) (M i j)) /\ inI (wb i) c /\ total n (fun j => M i j * x j) = c).
  { clear - ROW. assert (G : forall k, exists M : mat, forall i, (i < k)%nat -> exists c, (i < m)%nat -> (forall j, (j < n)%nat -> inI (A i j) (M i j)) /\ inI (wb i) c /\ total n (fun j => M i j * x j) = c).
    { induction k as [|k (M & IH)]; [exists (fun _ _ => 0); intros; lia|]. destruct (ROW k) as (a & c & H). exists (fun i => if (i =? k)%nat then a else M i). intros i Hi. destruct (Nat.eqb_spec i k) as [->|D]; [exists c; exact H | apply IH; lia]. }
    destruct (G m) as (M & H). exists M. intro i. destruct (lt_dec i m) as [Hi|Hi]; [now apply H | exists 0; intro; contradiction]. }
  destruct RA as (M & HM). exists x. split; [|split].
  - exists M, (fun i => total n (fun j => M i j * x j)). split; [intros i j Hi Hj; destruct (HM i) as (c & H); now apply H|]. split; [|intros i _; reflexivity].
    intros i Hi. destruct (HM i) as (c & H). destruct (H Hi) as (_ & H2 & ->). exact H2.
  - intros j Hj N. unfold x. destruct (Nat.eqb_spec j nu); [contradiction|]. destruct (S j Hj N). unfold inI, r_mid. lra.
  - unfold x. now rewrite Nat.eqb_refl.
Qed.

(** ** What the list holds *)
Definition fine (it : item) : Prop := sub_box n nu (iQ it) V /\
  if full it then omega_of m (fun i => r_sub (b i) (rest idx A (iQ it) i)) (Anu nu A) (V nu) = Val (iq it) else attained m n nu A b V (iq it).
Lemma not_zero_in Q : sub_box n nu Q V -> zero_in idx Q = false -> zero_free n nu Q.
Proof.
  intros S Z j Hj N. destruct (S j Hj N). split; [unfold proper; lra|]. intro HZ0. apply has0_spec in HZ0. assert (existsb (fun j => has0 (Q j)) idx = true); [|unfold zero_in in Z; congruence].
  apply existsb_exists. exists j. split; [now apply others_in | exact HZ0].
Qed.
Lemma add_half_fine Q omega L L' eta : sub_box n nu Q V -> omega <= rh (V nu) -> add_half lp m n nu A b V Q omega L = Some (L', eta) ->
  L' = L \/ exists it, L' = insort it L /\ iQ it = Q /\ fine it.
Proof.
  intros S O E. unfold add_half in E. unfold estimate in E. destruct (zero_in idx Q) eqn:Z.
  - destruct (omega_of m (fun i => r_sub (b i) (rest idx A Q i)) (Anu nu A) (V nu)) as [r| |] eqn:X; [|injection E as <- <-; now left|discriminate].
    cbn [ov_lt] in E. destruct (Rlt_dec r omega); [|injection E as <- <-; now left].
    destruct (omega_of m (fun i => r_sub (b i) (rest_mid idx A Q i)) _ _); [injection E as <- <-|injection E as <- <-|discriminate]; right; eexists; (split; [reflexivity|]); (split; [reflexivity|]); (split; [exact S | exact X]).
  - destruct (exact_omega lp m n nu A b Q (V nu)) as [r| |] eqn:X; [|injection E as <- <-; now left|discriminate].
    cbn [ov_lt] in E. destruct (Rlt_dec r omega) as [Lt|]; injection E as <- <-; [|now left]. right. eexists. split; [reflexivity|]. split; [reflexivity|]. split; [exact S|]. cbn [full iq].
    assert (ZF := not_zero_in Q S Z). destruct (exact_omega_attained lp m n nu A b Q V r Hnu PA Pb ZF (fun s => HLP Q s S ZF) L0 H15 X ltac:(lra)) as (x & U & C & Ex). exists x. split; [exact U|]. split; [exact (covers_sub n nu Q V x S C) | exact Ex].
Qed.
Lemma update_sub omega eta L : fst (update omega eta L) <= omega /\ (snd (update omega eta L) = L \/ exists f, snd (update omega eta L) = filter f L).
Proof. unfold update. destruct eta as [r| |]; [destruct Rlt_dec|..]; cbn [fst snd]; split; try lra; auto. right. eexists. reflexivity. Qed.

(** ** How many splittings are left *)
Variable K : nat.
Hypothesis HK : forall j, (j < n)%nat -> j <> nu -> wid (V j) * (2 / 3) ^ K < tol.
Definition splits (w : R) : nat := length (filter (fun i => if Rle_dec tol (w * (2 / 3) ^ i) then true else false) (seq 0 K)).
Lemma pow23 i : 0 < (2 / 3) ^ i. Proof. apply pow_lt. lra. Qed.
Lemma count_le (f g : nat -> bool) l : (forall i, In i l -> f i = true -> g i = true) -> (length (filter f l) <= length (filter g l))%nat.
Proof. induction l as [|i l IH]; intro H; [apply le_n|]. cbn [filter]. assert (Q := IH ltac:(intros; apply H; [now right | assumption])). destruct (f i) eqn:F; [rewrite (H i (or_introl eq_refl) F); simpl; lia|]. destruct (g i); simpl; lia. Qed.
Lemma count_shift (f : nat -> bool) k : forall s, length (filter (fun i => f (S i)) (seq s k)) = length (filter f (seq (S s) k)).
Proof. induction k as [|k IH]; intro s; [reflexivity|]. cbn [seq filter]. destruct (f (S s)); cbn [length]; now rewrite IH. Qed.
Lemma splits_mono w w' : w' <= w -> (splits w' <= splits w)%nat.
Proof.
  intro H. apply count_le. intros i _. destruct (Rle_dec tol (w' * _)) as [D|]; [|discriminate]. intros _. destruct Rle_dec as [|D']; [reflexivity|]. exfalso. apply D'. eapply Rle_trans; [exact D|]. apply Rmult_le_compat_r; [apply Rlt_le, pow23 | exact H].
Qed.
Lemma splits_less w w' : tol <= w -> w * (2 / 3) ^ K < tol -> w' <= 2 / 3 * w -> (splits w' < splits w)%nat.
Proof.
  intros Hw Hk H. destruct K as [|k] eqn:EK; [simpl in Hk; lra|]. unfold splits. rewrite EK.
  set (g := fun i => if Rle_dec tol (w * (2 / 3) ^ i) then true else false).
  assert (G0 : g 0%nat = true) by (unfold g; destruct Rle_dec as [|D]; [reflexivity | exfalso; simpl in D; lra]).
  assert (GK : g (S k) = false) by (unfold g; destruct Rle_dec; [lra | reflexivity]).
  assert (C1 : (length (filter (fun i => if Rle_dec tol (w' * (2 / 3) ^ i) then true else false) (seq 0 (S k))) <= length (filter (fun i => g (S i)) (seq 0 (S k))))%nat).
  { apply count_le. intros i _. destruct (Rle_dec tol (w' * _)) as [D|]; [|discriminate]. intros _. unfold g. destruct Rle_dec as [|D']; [reflexivity|]. exfalso. apply D'. eapply Rle_trans; [exact D|]. cbn [pow]. rewrite <- Rmult_assoc, (Rmult_comm w). apply Rmult_le_compat_r; [apply Rlt_le, pow23 | exact H]. }
  assert (C2 : (length (filter g (seq 0 (S k))) = S (length (filter g (seq 1 k))))%nat) by (cbn [seq filter]; rewrite G0; reflexivity).
  rewrite count_shift in C1. rewrite (seq_S k 1), filter_app, app_length in C1. cbn [plus filter] in C1. rewrite GK in C1. cbn [length] in C1. lia.
Qed.
Definition depth (Q : ivec) : nat := fold_right (fun j s => (splits (wid (Q j)) + s)%nat) O idx.
Lemma depth_less_gen (Q Q' : ivec) (k : nat) (l : list nat) : In k l -> (forall j, In j l -> wid (Q' j) <= wid (Q j)) -> (splits (wid (Q' k)) < splits (wid (Q k)))%nat ->
  (fold_right (fun j s => (splits (wid (Q' j)) + s)%nat) O l < fold_right (fun j s => (splits (wid (Q j)) + s)%nat) O l)%nat.
Proof.
  intros I M L. assert (G : forall l, (forall j, In j l -> wid (Q' j) <= wid (Q j)) -> (fold_right (fun j s => (splits (wid (Q' j)) + s)%nat) O l <= fold_right (fun j s => (splits (wid (Q j)) + s)%nat) O l)%nat).
  { clear I M L l. induction l as [|j l IH]; intro H; cbn [fold_right]; [apply le_n|]. assert (A1 := splits_mono _ _ (H j ltac:(now left))). assert (A2 := IH ltac:(intros; apply H; now right)). lia. }
  induction l as [|j l IH]; [destruct I|]. cbn [fold_right]. assert (A1 := splits_mono _ _ (M j ltac:(now left))). assert (A2 := G l ltac:(intros; apply M; now right)).
  destruct I as [->|I]; [lia|]. assert (A3 := IH I ltac:(intros; apply M; now right)). lia.
Qed.
Lemma cut_widths X : proper X -> cut X - rl X <= 2 / 3 * wid X /\ rh X - cut X <= 2 / 3 * wid X.
Proof.
  unfold proper, cut, r_mid, wid. intro P. destruct (Req_EM_T (rl X) 0); [lra|]. destruct (Rlt_dec (-2) (rh X / rl X)) as [C|C]; [|lra]. destruct (Rlt_dec (rh X / rl X) (- (1 / 2))) as [B|B]; [|lra].
  assert (E : rh X = rh X / rl X * rl X) by (field; assumption). set (c := rh X / rl X) in *. clearbody c. destruct (Rlt_dec (rl X) 0) as [L|L]; [nra|]. exfalso. nra.
Qed.
Lemma widest_max Q k : widest idx Q = Some k -> forall j, In j idx -> wid (Q j) <= wid (Q k).
Proof.
  destruct idx as [|j0 js]; [discriminate|]. cbn [widest]. intro W. injection W as <-.
  assert (G : forall js k, (forall i, In i (k :: js) -> wid (Q i) <= wid (Q (fold_left (fun k j' => if Rlt_dec (wid (Q k)) (wid (Q j')) then j' else k) js k)))).
  { clear. induction js as [|c js IH]; intros k i Hi; [destruct Hi as [<-|[]]; cbn [fold_left]; lra|]. cbn [fold_left].
    destruct Hi as [<-|[<-|Hi]]; [| |apply IH; now right].
    - destruct Rlt_dec as [D|D]; [eapply Rle_trans; [apply Rlt_le, D|]; apply IH; now left | apply IH; now left].
    - destruct Rlt_dec as [D|D]; [apply IH; now left|]. apply Rnot_lt_le in D. eapply Rle_trans; [exact D|]. apply IH. now left. }
  apply G.
Qed.
Lemma halves_depth Q k : sub_box n nu Q V -> widest idx Q = Some k -> tol <= wid (Q k) -> (depth (lower_half Q k) < depth Q)%nat /\ (depth (upper_half Q k) < depth Q)%nat.
Proof.
  intros S W T. assert (Ik := widest_in _ _ _ W). assert (Ok := proj1 (others_in n nu k) Ik). destruct (S k (proj1 Ok) (proj2 Ok)) as [S1 S2].
  assert (PQ : proper (Q k)) by (unfold proper; lra). destruct (cut_widths _ PQ) as [C1 C2]. assert (CB := cut_between _ PQ).
  assert (WK : wid (Q k) * (2 / 3) ^ K < tol).
  { eapply Rle_lt_trans; [|apply (HK k (proj1 Ok) (proj2 Ok))]. apply Rmult_le_compat_r; [apply Rlt_le, pow23 | unfold wid; lra]. }
  split; apply (depth_less_gen _ _ k); try exact Ik; unfold lower_half, upper_half, set_at.
  - intros j _. destruct (Nat.eqb_spec j k) as [->|D]; [unfold wid; cbn [rl rh]; lra | lra].
  - rewrite Nat.eqb_refl. apply splits_less; auto.
  - intros j _. destruct (Nat.eqb_spec j k) as [->|D]; [unfold wid; cbn [rl rh]; lra | lra].
  - rewrite Nat.eqb_refl. apply splits_less; auto.
Qed.
Definition weight (it : item) : nat := if full it then (2 ^ depth (iQ it) - 1)%nat else O.
Definition weights (L : list item) : nat := fold_right (fun it s => (weight it + s)%nat) O L.
Lemma weights_insort it L : weights (insort it L) = (weight it + weights L)%nat.
Proof. unfold weights. induction L as [|y L IH]; [reflexivity|]. cbn [insort]. destruct Rlt_dec; cbn [fold_right]; [rewrite IH; lia | reflexivity]. Qed.
Lemma weights_filter f L : (weights (filter f L) <= weights L)%nat.
Proof. unfold weights. induction L as [|y L IH]; [apply le_n|]. cbn [filter]. destruct (f y); cbn [fold_right]; lia. Qed.
Lemma weights_delete k : forall L it, nth_error L k = Some it -> (weights (delete_nth k L) + weight it = weights L)%nat.
Proof.
  unfold weights. induction k as [|k IH]; intros [|y L] it E; cbn [nth_error] in E; try discriminate; cbn [delete_nth fold_right].
  - injection E as ->. lia.
  - rewrite <- (IH L it E). lia.
Qed.
Lemma weight_le it d : (depth (iQ it) <= d)%nat -> (weight it <= 2 ^ d - 1)%nat.
Proof. intro H. unfold weight. destruct (full it); [|lia]. assert (G := Nat.pow_le_mono_r 2 _ _ ltac:(lia) H). lia. Qed.
Lemma two_halves d d1 d2 : (d1 < d)%nat -> (d2 < d)%nat -> (2 ^ d1 - 1 + (2 ^ d2 - 1) < 2 ^ d - 1)%nat.
Proof.
  intros H1 H2. destruct d as [|d]; [lia|]. assert (A1 := Nat.pow_le_mono_r 2 d1 d ltac:(lia) ltac:(lia)). assert (A2 := Nat.pow_le_mono_r 2 d2 d ltac:(lia) ltac:(lia)).
  assert (A3 : (0 < 2 ^ d1)%nat) by (apply Nat.neq_0_lt_0, Nat.pow_nonzero; lia). assert (A4 : (0 < 2 ^ d2)%nat) by (apply Nat.neq_0_lt_0, Nat.pow_nonzero; lia). cbn [Nat.pow]. lia.
Qed.

(** ** One iteration *)
Definition all_fine (L : list item) : Prop := forall it, In it L -> fine it.
Lemma step_fine L pos it k omega L1 L2 eta1 eta2 eta :
  all_fine (delete_nth pos L) -> sub_box n nu (iQ it) V -> widest idx (iQ it) = Some k -> tol <= wid (iQ it k) -> omega <= rh (V nu) ->
  add_half lp m n nu A b V (lower_half (iQ it) k) omega (delete_nth pos L) = Some (L1, eta1) ->
  add_half lp m n nu A b V (upper_half (iQ it) k) omega L1 = Some (L2, eta2) ->
  all_fine (snd (update omega eta L2)) /\ fst (update omega eta L2) <= rh (V nu) /\ (weights (snd (update omega eta L2)) < weights (delete_nth pos L) + (2 ^ depth (iQ it) - 1))%nat.
Proof.
  intros F SB W T O H1 H2. assert (Ik := widest_in _ _ _ W). apply others_in in Ik. destruct Ik as [Wk Wn]. destruct (halves_depth _ _ SB W T) as [D1 D2].
  assert (A1 := add_half_fine _ _ _ _ _ (lower_half_sub n nu (iQ it) V k SB Wk Wn) O H1). assert (A2 := add_half_fine _ _ _ _ _ (upper_half_sub n nu (iQ it) V k SB Wk Wn) O H2).
  assert (G1 : all_fine L1 /\ (weights L1 <= weights (delete_nth pos L) + (2 ^ depth (lower_half (iQ it) k) - 1))%nat).
  { destruct A1 as [->|(y & -> & EQ & Fy)]; [split; [exact F | lia]|]. split; [intros z Hz; apply insort_in in Hz; destruct Hz as [->|Hz]; [exact Fy | now apply F]|]. rewrite weights_insort. assert (B := weight_le y (depth (iQ y)) (le_n _)). rewrite EQ in B. lia. }
  assert (G2 : all_fine L2 /\ (weights L2 <= weights L1 + (2 ^ depth (upper_half (iQ it) k) - 1))%nat).
  { destruct A2 as [->|(y & -> & EQ & Fy)]; [split; [apply G1 | lia]|]. split; [intros z Hz; apply insort_in in Hz; destruct Hz as [->|Hz]; [exact Fy | now apply G1]|]. rewrite weights_insort. assert (B := weight_le y (depth (iQ y)) (le_n _)). rewrite EQ in B. lia. }
  destruct G1 as [_ G1]. destruct G2 as [F2 G2]. assert (TH := two_halves _ _ _ D1 D2). destruct (update_sub omega eta L2) as [U1 U2].
  split; [|split; [lra|]].
  - intros z Hz. destruct U2 as [E|(f & E)]; rewrite E in Hz; [now apply F2|]. apply filter_In in Hz. now apply F2.
  - destruct U2 as [E|(f & E)]; rewrite E; [lia|]. assert (B := weights_filter f L2). lia.
Qed.
Lemma first_full_some L pos : first_full L = Some pos -> exists it, nth_error L pos = Some it /\ full it = true.
Proof.
  revert pos. induction L as [|y L IH]; intros pos E; [discriminate|]. cbn [first_full] in E. destruct (full y) eqn:F.
  - injection E as <-. exists y. auto.
  - destruct (first_full L) as [p|]; [|discriminate]. injection E as <-. destruct (IH p eq_refl) as (it & H). exists it. exact H.
Qed.
Lemma head_attained L q pos it : all_fine L -> first_full L = Some pos -> nth_error L pos = Some it -> (forall j, (j < n)%nat -> j <> nu -> wid (iQ it j) <= tol) -> head_q L = Some q -> attained m n nu A wb V q.
Proof.
  intros F FF N W E. destruct L as [|y L]; [discriminate|]. injection E as <-. destruct (F y ltac:(now left)) as [SB Fy]. cbn [first_full] in FF. destruct (full y) eqn:Y.
  - injection FF as <-. cbn [nth_error] in N. injection N as <-. exact (small_attained _ _ SB W Fy).
  - now apply attained_wider.
Qed.
Lemma leaves_attained L q : all_fine L -> first_full L = None -> head_q L = Some q -> attained m n nu A b V q.
Proof.
  intros F FF E. destruct L as [|y L]; [discriminate|]. injection E as <-. destruct (F y ltac:(now left)) as [SB Fy]. cbn [first_full] in FF. destruct (full y) eqn:Y; [discriminate | exact Fy].
Qed.
Lemma loop_ends fuel : forall L pos omega q, all_fine L -> omega <= rh (V nu) -> first_full L = Some pos -> (weights L <= fuel)%nat ->
  pss_loop lp m n nu A b V tol fuel L pos omega = Some q -> attained m n nu A wb V q.
Proof.
  induction fuel as [|fuel IH]; intros L pos omega q F O FF Wt; destruct (first_full_some L pos FF) as (it & Nth & Full); cbn [pss_loop]; rewrite Nth;
    (destruct (widest idx (iQ it)) as [k|] eqn:W; [|discriminate]); assert (Fit := F it (nth_error_In _ _ Nth)); assert (SB := proj1 Fit);
    (destruct (Rlt_dec (wid (iQ it k)) tol) as [D|D]; [intro E; refine (head_attained L q pos it F FF Nth _ E); intros j Hj N; assert (M := widest_max _ _ W j ltac:(apply others_in; auto)); lra|]).
  - exfalso. assert (WD := weights_delete pos L it Nth). destruct (halves_depth _ _ SB W ltac:(lra)) as [D1 _]. unfold weight in WD. rewrite Full in WD. assert (B := Nat.pow_le_mono_r 2 1 (depth (iQ it)) ltac:(lia) ltac:(lia)). cbn [Nat.pow Nat.mul Nat.add] in B. lia.
  - destruct (add_half lp m n nu A b V (lower_half (iQ it) k) omega (delete_nth pos L)) as [[L1 eta1]|] eqn:H1; [|discriminate].
    destruct (add_half lp m n nu A b V (upper_half (iQ it) k) omega L1) as [[L2 eta2]|] eqn:H2; [|discriminate].
    assert (FD : all_fine (delete_nth pos L)) by (intros z Hz; apply F; now apply delete_nth_in in Hz).
    destruct (step_fine L pos it k omega L1 L2 eta1 eta2 (if ov_le eta1 eta2 then eta1 else eta2) FD SB W ltac:(lra) O H1 H2) as (S1 & S2 & S3).
    destruct (update omega _ L2) as [omega' L3]. cbn [fst snd] in S1, S2, S3. assert (WD := weights_delete pos L it Nth). unfold weight in WD. rewrite Full in WD.
    destruct (first_full L3) as [pos'|] eqn:F3; [|intro E; apply attained_wider; exact (leaves_attained L3 q S1 F3 E)].
    apply (IH L3 pos' omega' q S1 S2 F3). lia.
Qed.
(** More iterations change nothing. *)
Lemma loop_stable fuel : forall L pos omega more, all_fine L -> omega <= rh (V nu) -> first_full L = Some pos -> (weights L <= fuel)%nat ->
  pss_loop lp m n nu A b V tol (fuel + more) L pos omega = pss_loop lp m n nu A b V tol fuel L pos omega.
Proof.
  induction fuel as [|fuel IH]; intros L pos omega more F O FF Wt; destruct (first_full_some L pos FF) as (it & Nth & Full).
  - assert (G : forall f, pss_loop lp m n nu A b V tol f L pos omega = match widest idx (iQ it) with None => None | Some k => head_q L end); [|now rewrite !G].
    intro f. destruct f; cbn [pss_loop]; rewrite Nth; (destruct (widest idx (iQ it)) as [k|] eqn:W; [|reflexivity]); (destruct (Rlt_dec (wid (iQ it k)) tol) as [D|D]; [reflexivity|]); [reflexivity|].
    exfalso. assert (SB := proj1 (F it (nth_error_In _ _ Nth))). assert (WD := weights_delete pos L it Nth). destruct (halves_depth _ _ SB W ltac:(lra)) as [D1 _]. unfold weight in WD. rewrite Full in WD. assert (B := Nat.pow_le_mono_r 2 1 (depth (iQ it)) ltac:(lia) ltac:(lia)). cbn [Nat.pow Nat.mul Nat.add] in B. lia.
  - cbn [Nat.add pss_loop]. rewrite Nth. destruct (widest idx (iQ it)) as [k|] eqn:W; [|reflexivity]. assert (SB := proj1 (F it (nth_error_In _ _ Nth))). destruct (Rlt_dec (wid (iQ it k)) tol) as [D|D]; [reflexivity|].
    destruct (add_half lp m n nu A b V (lower_half (iQ it) k) omega (delete_nth pos L)) as [[L1 eta1]|] eqn:H1; [|reflexivity].
    destruct (add_half lp m n nu A b V (upper_half (iQ it) k) omega L1) as [[L2 eta2]|] eqn:H2; [|reflexivity].
    assert (FD : all_fine (delete_nth pos L)) by (intros z Hz; apply F; now apply delete_nth_in in Hz).
    destruct (step_fine L pos it k omega L1 L2 eta1 eta2 (if ov_le eta1 eta2 then eta1 else eta2) FD SB W ltac:(lra) O H1 H2) as (S1 & S2 & S3).
    destruct (update omega _ L2) as [omega' L3]. cbn [fst snd] in S1, S2, S3. assert (WD := weights_delete pos L it Nth). unfold weight in WD. rewrite Full in WD.
    destruct (first_full L3) as [pos'|] eqn:F3; [|reflexivity]. apply IH; auto. lia.
Qed.
Lemma depth_bound Q : (depth Q <= K * (n - 1))%nat.
Proof.
  assert (SK : forall w, (splits w <= K)%nat).
  { intro w. unfold splits. rewrite <- (seq_length K 0) at 2. generalize (seq 0 K). clear. induction l as [|i l IH]; [apply le_n|]. cbn [filter]. destruct Rle_dec; simpl; lia. }
  assert (G : forall l, (fold_right (fun j s => (splits (wid (Q j)) + s)%nat) O l <= K * length l)%nat) by (induction l as [|j l IH]; cbn [fold_right length]; [lia|]; assert (B := SK (wid (Q j))); lia).
  assert (LEN : length idx = (n - 1)%nat).
  { assert (C : forall k, (length (others k nu) + (if (nu <? k)%nat then 1 else 0) = k)%nat).
    { induction k as [|k IH]; [reflexivity|]. unfold others in *. rewrite seq_S, filter_app, app_length. cbn [Nat.add filter]. destruct (Nat.eqb_spec k nu) as [->|N]; cbn [negb length].
      - destruct (Nat.ltb_spec nu (S nu)); [|lia]. destruct (Nat.ltb_spec nu nu); lia.
      - destruct (Nat.ltb_spec nu k), (Nat.ltb_spec nu (S k)); lia. }
    assert (C1 := C n). destruct (Nat.ltb_spec nu n); lia. }
  unfold depth. assert (B := G idx). rewrite LEN in B. exact B.
Qed.
Hypothesis wide : exists j, (j < n)%nat /\ j <> nu /\ tol <= wid (V j).
Lemma self_sub : sub_box n nu V V. Proof. intros j Hj _. assert (P := PV j Hj). unfold proper in P. lra. Qed.
Lemma algo_run (P : option R -> Prop) fuel : (2 ^ (K * (n - 1)) <= S fuel)%nat -> P None ->
  (forall L q, all_fine L -> first_full L = None -> head_q L = Some q -> P (Some q)) ->
  (forall L pos omega, all_fine L -> omega <= rh (V nu) -> first_full L = Some pos -> (weights L <= fuel)%nat -> P (pss_loop lp m n nu A b V tol fuel L pos omega)) ->
  P (pss_loop lp m n nu A b V tol (S fuel) [mkitem V (rl (V nu)) false] 0 (rh (V nu))).
Proof.
  intros HF HN HL HS. destruct wide as (j & Hj & Nj & Tj). cbn [pss_loop nth_error iQ]. destruct (widest idx V) as [k|] eqn:W; [|exact HN].
  assert (WJ := widest_max _ _ W j ltac:(apply others_in; auto)). destruct Rlt_dec as [D|_]; [exfalso; lra|].
  destruct (add_half lp m n nu A b V (lower_half V k) (rh (V nu)) (delete_nth 0 [mkitem V (rl (V nu)) false])) as [[L1 eta1]|] eqn:H1; [|exact HN].
  destruct (add_half lp m n nu A b V (upper_half V k) (rh (V nu)) L1) as [[L2 eta2]|] eqn:H2; [|exact HN].
  destruct (step_fine [mkitem V (rl (V nu)) false] 0 (mkitem V (rl (V nu)) false) k (rh (V nu)) L1 L2 eta1 eta2 (if ov_le eta1 eta2 then eta1 else eta2)) as (S1 & S2 & S3); auto.
  { intros z []. } { exact self_sub. } { cbn [iQ]. lra. } { lra. }
  destruct (update _ _ L2) as [omega' L3]. cbn [fst snd] in S1, S2, S3. cbn [iQ delete_nth weights fold_right] in S3. assert (DB := depth_bound V). assert (PB := Nat.pow_le_mono_r 2 _ _ ltac:(lia) DB).
  destruct (first_full L3) as [pos'|] eqn:F3; [apply HS; auto; lia|]. destruct (head_q L3) as [q|] eqn:E; [exact (HL L3 q S1 F3 E) | exact HN].
Qed.
Theorem pss_accurate maxiter q : (Z.of_nat (2 ^ (K * (n - 1))) <= maxiter)%Z -> algo lp m n nu A b V tol maxiter = Some q -> attained m n nu A wb V q.
Proof.
  intros HM. unfold algo. destruct (Z.to_nat (maxiter + 1)) as [|fuel] eqn:EF; [lia|]. revert q.
  apply (algo_run (fun r => forall q, r = Some q -> attained m n nu A wb V q)); [lia | discriminate | |].
  - intros L q F FF E q' E'. injection E' as <-. apply attained_wider. exact (leaves_attained L q F FF E).
  - intros L pos omega F O FF Wt q E. exact (loop_ends fuel L pos omega q F O FF Wt E).
Qed.
Theorem pss_settles maxiter : (Z.of_nat (2 ^ (K * (n - 1))) <= maxiter)%Z -> algo lp m n nu A b V tol maxiter = algo lp m n nu A b V tol (Z.of_nat (2 ^ (K * (n - 1)))).
Proof.
  intros HM. unfold algo. set (N := (2 ^ (K * (n - 1)))%nat) in *. replace (Z.to_nat (Z.of_nat N + 1)) with (S N) by lia. destruct (Z.to_nat (maxiter + 1)) as [|fuel] eqn:EF; [lia|].
  destruct wide as (j & Hj & Nj & Tj). cbn [pss_loop nth_error iQ]. destruct (widest idx V) as [k|] eqn:W; [|reflexivity].
  assert (WJ := widest_max _ _ W j ltac:(apply others_in; auto)). destruct Rlt_dec as [D|_]; [exfalso; lra|].
  destruct (add_half lp m n nu A b V (lower_half V k) (rh (V nu)) (delete_nth 0 [mkitem V (rl (V nu)) false])) as [[L1 eta1]|] eqn:H1; [|reflexivity].
  destruct (add_half lp m n nu A b V (upper_half V k) (rh (V nu)) L1) as [[L2 eta2]|] eqn:H2; [|reflexivity].
  destruct (step_fine [mkitem V (rl (V nu)) false] 0 (mkitem V (rl (V nu)) false) k (rh (V nu)) L1 L2 eta1 eta2 (if ov_le eta1 eta2 then eta1 else eta2)) as (S1 & S2 & S3); auto.
  { intros z []. } { exact self_sub. } { cbn [iQ]. lra. } { lra. }
  destruct (update _ _ L2) as [omega' L3]. cbn [fst snd] in S1, S2, S3. cbn [iQ delete_nth weights fold_right] in S3. assert (DB := depth_bound V). assert (PB := Nat.pow_le_mono_r 2 _ _ ltac:(lia) DB). fold N in PB.
  destruct (first_full L3) as [pos'|] eqn:F3; [|reflexivity].
  replace fuel with (N + (fuel - N))%nat by lia. apply loop_stable; auto. lia.
Qed.
End Ends.
