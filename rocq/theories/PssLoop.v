(** The splitting loop of PSS never loses a solution. *)
From Coq Require Import Reals List Arith Bool ZArith Lia Lra Psatz Sorting.Sorted.
From Verif Require Import Exact SpecExact ExactProofs Estim SpecEstim EstimProofs Pss SpecPss PssProofs.
Import ListNotations.
Open Scope R_scope.

(** ** Sorted lists *)
Definition q_le (a c : item) : Prop := iq a <= iq c.
Lemma insort_in x L y : In y (insort x L) <-> y = x \/ In y L.
Proof.
  induction L as [|z L IH]; cbn [insort]; [simpl; intuition|]. destruct Rlt_dec; simpl; [rewrite IH|]; intuition.
Qed.
Lemma insort_sorted x L : StronglySorted q_le L -> StronglySorted q_le (insort x L).
Proof.
  induction L as [|z L IH]; intro H; cbn [insort]; [constructor; [constructor | constructor]|].
  inversion H as [|? ? H1 H2]; subst. destruct Rlt_dec as [D|D].
  - constructor; [now apply IH|]. apply Forall_forall. intros y Hy. apply insort_in in Hy. destruct Hy as [->|Hy]; [unfold q_le; lra|]. rewrite Forall_forall in H2. now apply H2.
  - constructor; [exact H|]. constructor; [unfold q_le; lra|]. apply Forall_forall. intros y Hy. rewrite Forall_forall in H2. assert (Q := H2 y Hy). unfold q_le in *. lra.
Qed.
Lemma delete_nth_in k L y : In y (delete_nth k L) -> In y L.
Proof.
  revert L. induction k as [|k IH]; intros [|z L]; cbn [delete_nth]; try (simpl; tauto). simpl. intros [H|H]; [now left | right; now apply IH].
Qed.
Lemma delete_nth_sorted k L : StronglySorted q_le L -> StronglySorted q_le (delete_nth k L).
Proof.
  revert L. induction k as [|k IH]; intros [|z L] H; cbn [delete_nth]; try exact H; inversion H as [|? ? H1 H2]; subst; [exact H1|].
  constructor; [now apply IH|]. apply Forall_forall. intros y Hy. rewrite Forall_forall in H2. apply H2. now apply delete_nth_in in Hy.
Qed.
Lemma in_delete k L z y : nth_error L k = Some z -> In y L -> y = z \/ In y (delete_nth k L).
Proof.
  revert L. induction k as [|k IH]; intros [|w L]; cbn [nth_error delete_nth]; try discriminate.
  - intros E H. injection E as ->. destruct H; auto.
  - intros E [H|H]; [right; left; exact H|]. destruct (IH L E H); [now left | right; now right].
Qed.
Lemma filter_sorted f L : StronglySorted q_le L -> StronglySorted q_le (filter f L).
Proof.
  induction L as [|z L IH]; intro H; [constructor|]. inversion H as [|? ? H1 H2]; subst. cbn [filter]. destruct (f z); [|now apply IH].
  constructor; [now apply IH|]. apply Forall_forall. intros y Hy. apply filter_In in Hy. rewrite Forall_forall in H2. apply H2. tauto.
Qed.
Lemma head_least L it q : StronglySorted q_le L -> head_q L = Some q -> In it L -> q <= iq it.
Proof.
  destruct L as [|y L]; [discriminate|]. intros S E H. injection E as <-. inversion S as [|? ? H1 H2]; subst. destruct H as [->|H]; [lra|]. rewrite Forall_forall in H2. exact (H2 it H).
Qed.

(** ** Halving *)
Lemma cut_between X : proper X -> rl X <= cut X <= rh X.
Proof.
  unfold proper, cut, r_mid. intro P. destruct (Req_EM_T (rl X) 0); [lra|]. destruct (Rlt_dec (-2) (rh X / rl X)) as [A|A]; [|lra]. destruct (Rlt_dec (rh X / rl X) (- (1 / 2))) as [B|B]; [|lra].
  assert (E : rh X = rh X / rl X * rl X) by (field; assumption). set (c := rh X / rl X) in *. destruct (Rlt_dec (rl X) 0) as [L|L].
  - assert (0 < (- c) * (- rl X)) by (apply Rmult_lt_0_compat; lra). lra.
  - assert (0 < (- c) * rl X) by (apply Rmult_lt_0_compat; lra). lra.
Qed.
Lemma lower_half_sub n nu Q V k : sub_box n nu Q V -> (k < n)%nat -> k <> nu -> sub_box n nu (lower_half Q k) V.
Proof.
  intros S Hk N j Hj Nj. unfold lower_half, set_at. destruct (Nat.eqb_spec j k) as [->|D]; [|now apply S]. cbn [rl rh]. destruct (S k Hk N). assert (C := cut_between (Q k) ltac:(unfold proper; lra)). lra.
Qed.
Lemma upper_half_sub n nu Q V k : sub_box n nu Q V -> (k < n)%nat -> k <> nu -> sub_box n nu (upper_half Q k) V.
Proof.
  intros S Hk N j Hj Nj. unfold upper_half, set_at. destruct (Nat.eqb_spec j k) as [->|D]; [|now apply S]. cbn [rl rh]. destruct (S k Hk N). assert (C := cut_between (Q k) ltac:(unfold proper; lra)). lra.
Qed.
Lemma halves_cover n nu Q k x : (k < n)%nat -> k <> nu -> covers n nu Q x -> covers n nu (lower_half Q k) x \/ covers n nu (upper_half Q k) x.
Proof.
  intros Hk N C. assert (Ck := C k Hk N). unfold inI in Ck. destruct (Rle_dec (x k) (cut (Q k))) as [L|L]; [left | right]; intros j Hj Nj; unfold lower_half, upper_half, set_at; (destruct (Nat.eqb_spec j k) as [->|D]; [unfold inI; cbn [rl rh]; lra | now apply C]).
Qed.
Lemma widest_in idx Q k : widest idx Q = Some k -> In k idx.
Proof.
  destruct idx as [|j js]; [discriminate|]. cbn [widest]. intro E. injection E as <-. 
  assert (G : forall js k, In (fold_left (fun k j' => if Rlt_dec (wid (Q k)) (wid (Q j')) then j' else k) js k) (k :: js)).
  { clear. induction js as [|j js IH]; intro k; [now left|]. cbn [fold_left]. destruct (IH (if Rlt_dec (wid (Q k)) (wid (Q j)) then j else k)) as [H|H]; [|right; right; exact H]. destruct Rlt_dec; [right; left; exact H | left; exact H]. }
  apply G.
Qed.

Section Loop.
Variables (lp : lp_solver) (m n nu : nat) (A : imat) (b V : ivec) (tol : R).
Hypothesis Hnu : (nu < n)%nat.
Hypothesis HLP : lp_answers lp m n nu A b V.
Variable x : vec.
Hypothesis HU : united m n A b x.
Hypothesis HV : inI (V nu) (x nu).
Hypothesis HB : Rabs (x nu) <= 10 ^ 15.
Lemma estimate_sound Q : sub_box n nu Q V -> covers n nu Q x -> below (estimate lp m n nu A b V Q) (x nu).
Proof.
  intros S C. unfold estimate. destruct (zero_in (others n nu) Q) eqn:Z.
  - apply omega_sound; [|exact HV]. intros i Hi. now apply (row_member m n nu A b Q x).
  - assert (ZF : zero_free n nu Q).
    { intros j Hj N. destruct (S j Hj N). split; [unfold proper; lra|]. intro HZ0. apply has0_spec in HZ0. assert (existsb (fun j => has0 (Q j)) (others n nu) = true); [|unfold zero_in in Z; congruence].
      apply existsb_exists. exists j. split; [now apply others_in | exact HZ0]. }
    apply exact_omega_sound; auto.
Qed.
Lemma add_half_spec Q omega L L' eta : sub_box n nu Q V -> add_half lp m n nu A b V Q omega L = Some (L', eta) ->
  (forall it, In it L -> In it L') /\ (forall it, In it L' -> In it L \/ (iQ it = Q /\ iq it <= omega)) /\ (StronglySorted q_le L -> StronglySorted q_le L') /\
  (covers n nu Q x -> omega <= x nu \/ exists it, In it L' /\ iQ it = Q /\ iq it <= x nu).
Proof.
  intros S. unfold add_half. assert (ES := estimate_sound Q S). set (e := estimate lp m n nu A b V Q) in *. clearbody e.
  assert (INS : forall r f, r < omega -> (forall it, In it L -> In it (insort (mkitem Q r f) L)) /\ (forall it, In it (insort (mkitem Q r f) L) -> In it L \/ (iQ it = Q /\ iq it <= omega)) /\
            (StronglySorted q_le L -> StronglySorted q_le (insort (mkitem Q r f) L)) /\
            ((covers n nu Q x -> r <= x nu) -> covers n nu Q x -> omega <= x nu \/ exists it, In it (insort (mkitem Q r f) L) /\ iQ it = Q /\ iq it <= x nu)).
  { intros r f Lt. refine (conj _ (conj _ (conj _ _))).
    - intros it H. apply insort_in. now right.
    - intros it H. apply insort_in in H. destruct H as [->|H]; [right; cbn [iQ iq]; split; [reflexivity | lra] | now left].
    - apply insort_sorted.
    - intros H C. right. exists (mkitem Q r f). split; [apply insort_in; now left|]. cbn [iQ iq]. auto. }
  destruct e as [r| |]; cbn [ov_lt]; [|intro E; injection E as <- <-|discriminate].
  - destruct (Rlt_dec r omega) as [Lt|Nl].
    + destruct (zero_in (others n nu) Q).
      * destruct (omega_of m _ _ _) as [r'| |]; [intro E; injection E as <- <-|intro E; injection E as <- <-|discriminate]; destruct (INS r true Lt) as (I1 & I2 & I3 & I4); refine (conj I1 (conj I2 (conj I3 (I4 ES)))).
      * intro E; injection E as <- <-. destruct (INS r false Lt) as (I1 & I2 & I3 & I4); refine (conj I1 (conj I2 (conj I3 (I4 ES)))).
    + intro E; injection E as <- <-. refine (conj _ (conj _ (conj _ _))); auto. intro C. left. assert (Q1 := ES C). cbn [below] in Q1. lra.
  - refine (conj _ (conj _ (conj _ _))); auto. intro C. exfalso. exact (ES C).
Qed.
Definition covered (L : list item) (omega : R) : Prop :=
  StronglySorted q_le L /\ (forall it, In it L -> sub_box n nu (iQ it) V /\ iq it <= omega) /\
  (omega <= x nu \/ exists it, In it L /\ covers n nu (iQ it) x /\ iq it <= x nu).
Lemma covered_head L omega q : covered L omega -> head_q L = Some q -> q <= x nu.
Proof.
  intros (S & B & C) E. destruct C as [C|(it & Hit & _ & Q)].
  - destruct L as [|y L]; [discriminate|]. injection E as <-. destruct (B y ltac:(now left)). lra.
  - assert (H := head_least L it q S E Hit). lra.
Qed.
Lemma update_covered omega eta L : covered L omega -> covered (snd (update omega eta L)) (fst (update omega eta L)).
Proof.
  intros (S & B & C). unfold update. destruct eta as [r| |]; [|exact (conj S (conj B C))|exact (conj S (conj B C))].
  destruct (Rlt_dec r omega) as [Lt|]; [|exact (conj S (conj B C))]. cbn [fst snd]. refine (conj (filter_sorted _ _ S) (conj _ _)).
  - intros it H. apply filter_In in H. destruct H as [H1 H2]. split; [now apply B|]. destruct Rle_dec; [assumption | discriminate].
  - destruct C as [C|(it & Hit & Ci & Q)]; [left; lra|]. destruct (Rle_dec (iq it) r) as [K|K]; [right | left; lra]. exists it. split; [|auto]. apply filter_In. split; [exact Hit|]. destruct Rle_dec; [reflexivity | contradiction].
Qed.
Theorem loop_sound fuel : forall L pos omega q, covered L omega -> pss_loop lp m n nu A b V tol fuel L pos omega = Some q -> q <= x nu.
Proof.
  induction fuel as [|fuel IH]; intros L pos omega q Cov; cbn [pss_loop]; destruct (nth_error L pos) as [it|] eqn:Nth; try discriminate;
    destruct (widest (others n nu) (iQ it)) as [k|] eqn:W; try discriminate; (destruct Rlt_dec; [intro E; exact (covered_head L omega q Cov E)|]).
  - intro E. exact (covered_head L omega q Cov E).
  - destruct (add_half lp m n nu A b V (lower_half (iQ it) k) omega (delete_nth pos L)) as [[L1 eta1]|] eqn:H1; [|discriminate].
    destruct (add_half lp m n nu A b V (upper_half (iQ it) k) omega L1) as [[L2 eta2]|] eqn:H2; [|discriminate].
    apply widest_in in W. apply others_in in W. destruct W as [Wk Wn]. destruct Cov as (S & B & C). assert (Hit := nth_error_In _ _ Nth). assert (SB := proj1 (B it Hit)).
    destruct (add_half_spec _ _ _ _ _ (lower_half_sub n nu (iQ it) V k SB Wk Wn) H1) as (a1 & a2 & a3 & a4).
    destruct (add_half_spec _ _ _ _ _ (upper_half_sub n nu (iQ it) V k SB Wk Wn) H2) as (b1 & b2 & b3 & b4).
    assert (Cov2 : covered L2 omega).
    { refine (conj _ (conj _ _)).
      - apply b3, a3, delete_nth_sorted, S.
      - intros y Hy. destruct (b2 y Hy) as [Hy1|[E1 E2]]; [|rewrite E1; split; [now apply upper_half_sub | exact E2]].
        destruct (a2 y Hy1) as [Hy2|[E1 E2]]; [|rewrite E1; split; [now apply lower_half_sub | exact E2]]. apply B. now apply delete_nth_in in Hy2.
      - destruct C as [C|(y & Hy & Cy & Qy)]; [now left|]. destruct (in_delete pos L it y Nth Hy) as [->|Hd].
        + destruct (halves_cover n nu (iQ it) k x Wk Wn Cy) as [K|K].
          * destruct (a4 K) as [?|(z & Z1 & Z2 & Z3)]; [now left|]. right. exists z. rewrite Z2. auto.
          * destruct (b4 K) as [?|(z & Z1 & Z2 & Z3)]; [now left|]. right. exists z. rewrite Z2. auto.
        + right. exists y. auto. }
    assert (Cov3 := update_covered omega (if ov_le eta1 eta2 then eta1 else eta2) L2 Cov2). destruct (update omega _ L2) as [omega' L3]. cbn [fst snd] in Cov3.
    destruct (first_full L3) as [pos'|]; [exact (IH L3 pos' omega' q Cov3) | exact (covered_head L3 omega' q Cov3)].
Qed.
End Loop.

(** The lower end is below every solution in the starting box. *)
Theorem algo_sound lp m n nu A b V tol maxiter : (nu < n)%nat -> proper_vec n V ->
  lp_answers lp m n nu A b V ->
  forall q, algo lp m n nu A b V tol maxiter = Some q ->
  forall x, united m n A b x -> in_ivec n V x -> Rabs (x nu) <= 10 ^ 15 -> q <= x nu.
Proof.
  intros Hnu PV HLP q E x U HV HB. apply (loop_sound lp m n nu A b V tol Hnu HLP x U (HV nu Hnu) HB _ _ _ _ _) with (2 := E).
  refine (conj _ (conj _ _)); [constructor; constructor| |].
  - intros it [<-|[]]. cbn [iQ iq]. split; [|apply PV; exact Hnu]. intros j Hj _. assert (P := PV j Hj). unfold proper in P. lra.
  - right. eexists. split; [now left|]. cbn [iQ iq]. split; [intros j Hj _; now apply HV | exact (proj1 (HV nu Hnu))].
Qed.
Lemma united_neg m n A b x : united m n A b x -> united m n A (fun i => r_neg (b i)) (fun j => - x j).
Proof.
  intros (M & v & HM & Hv & S). exists M, (fun i => - v i). refine (conj HM (conj _ _)).
  - intros i Hi. assert (B := Hv i Hi). unfold inI, r_neg in *. cbn [rl rh]. lra.
  - intros i Hi. rewrite <- (S i Hi). unfold times. rewrite <- total_opp. apply total_ext. intros; ring.
Qed.
Theorem pss_sound lp m n nu A b V1 V2 tol maxiter : (nu < n)%nat -> proper_vec n V1 -> proper_vec n V2 ->
  lp_answers lp m n nu A b V1 ->
  lp_answers lp m n nu A (fun i => r_neg (b i)) V2 ->
  forall X, pss lp m n A b V1 V2 tol maxiter nu = Some X ->
  forall x, united m n A b x -> in_ivec n V1 x -> in_ivec n V2 (fun j => - x j) -> Rabs (x nu) <= 10 ^ 15 -> inI X (x nu).
Proof.
  intros Hnu P1 P2 G1 G2 X E x U I1 I2 B. unfold pss in E. destruct (algo lp m n nu A b V1 tol maxiter) as [l|] eqn:E1; [|discriminate].
  destruct (algo lp m n nu A (fun i => r_neg (b i)) V2 tol maxiter) as [h|] eqn:E2; [|discriminate]. injection E as <-. unfold inI. cbn [rl rh]. split.
  - exact (algo_sound lp m n nu A b V1 tol maxiter Hnu P1 G1 l E1 x U I1 B).
  - assert (Q := algo_sound lp m n nu A (fun i => r_neg (b i)) V2 tol maxiter Hnu P2 G2 h E2 (fun j => - x j) (united_neg m n A b x U) I2 ltac:(cbv beta; rewrite Rabs_Ropp; exact B)). cbv beta in Q. lra.
Qed.
