(** Proofs about globopt. *)
From Coq Require Import ZArith Reals List Bool Arith Lia Lra Psatz Sorted Floats.SpecFloat.
From Flocq Require Import Core IEEE754.BinarySingleNaN.
From Verif Require Import Base PyNum Kernel Spec Expr XReal XArith KernelProofs ExprProofs KernelAlg KernelMore Arrays Construct SpecArray ArrayProofs ArrayMore ArrayMat ConstructProofs ConstructMore ConstructUtil Solvers SpecSolvers SolversProofs GSProofs NewtonProofs.
Import ListNotations.
Open Scope R_scope.

(** ** bisect_left on sorted keys *)
Lemma bisect_spec keys x : (forall i j, (i <= j)%nat -> (j < length keys)%nat -> num_le (nth i keys (PInt 0)) (nth j keys (PInt 0)) = true) ->
  forall fuel l h, (h - l < fuel)%nat -> (l <= h <= length keys)%nat ->
  (forall i, (i < l)%nat -> num_lt (nth i keys (PInt 0)) x = true) -> (forall i, (h <= i < length keys)%nat -> num_lt (nth i keys (PInt 0)) x = false) ->
  let p := bisect_left fuel keys x l h in (p <= length keys)%nat /\
  (forall i, (i < p)%nat -> num_lt (nth i keys (PInt 0)) x = true) /\ (forall i, (p <= i < length keys)%nat -> num_lt (nth i keys (PInt 0)) x = false).
Proof.
  intro S. induction fuel as [|f IH]; intros l h Hf Hr Hl Hh; [lia|]. cbn [bisect_left].
  destruct (Nat.ltb_spec l h) as [L|L].
  - set (md := ((l + h) / 2)%nat). assert (Md : (l <= md < h)%nat).
    { unfold md. split; [apply Nat.div_le_lower_bound; lia | apply Nat.div_lt_upper_bound; lia]. }
    clearbody md. destruct (num_lt (nth md keys (PInt 0)) x) eqn:E; apply IH; try lia; auto.
    + intros i Hi. assert (T := S i md ltac:(lia) ltac:(lia)). rewrite num_le_x in T. rewrite num_lt_x in *.
      destruct (xval (nth i keys (PInt 0))), (xval (nth md keys (PInt 0))), (xval x); try discriminate; try reflexivity.
      apply xleb_fin in T. apply xltb_fin in E. apply xltb_fin. lra.
    + intros i Hi. destruct (num_lt (nth i keys (PInt 0)) x) eqn:E2; [|reflexivity]. exfalso.
      assert (T := S md i ltac:(lia) ltac:(lia)). rewrite num_le_x in T. rewrite num_lt_x in *.
      destruct (xval (nth i keys (PInt 0))), (xval (nth md keys (PInt 0))), (xval x); try discriminate.
      apply xleb_fin in T. apply xltb_fin in E2. assert (xltb (XFin r0) (XFin r1) = true) by (apply xltb_fin; lra). congruence.
  - split; [lia|]. split; [exact Hl|]. intros i Hi. apply Hh. lia.
Qed.

Definition le_key (a b : box) : Prop := num_le (snd a) (snd b) = true.
Lemma SS_app {A} (P : A -> A -> Prop) l1 l2 : StronglySorted P (l1 ++ l2) <->
  StronglySorted P l1 /\ StronglySorted P l2 /\ forall a b, In a l1 -> In b l2 -> P a b.
Proof.
  induction l1 as [|x l1 IH]; simpl.
  - split; [intro H; split; [constructor|]; split; [exact H|]; intros a b []|tauto].
  - split.
    + intro H. inversion H as [|? ? H1 H2]; subst. apply IH in H1. destruct H1 as (A1 & A2 & A3). rewrite Forall_app in H2. destruct H2 as [F1 F2].
      rewrite Forall_forall in F2. split; [now constructor|]. split; [exact A2|]. intros a b [->|Ha] Hb; auto.
    + intros (H1 & H2 & H3). inversion H1; subst. constructor; [apply IH; auto|]. rewrite Forall_app. split; [assumption|].
      rewrite Forall_forall. auto.
Qed.
Lemma insert_box_sorted c L : StronglySorted le_key L -> Forall (fun b => is_nan_num (snd b) = false) (c :: L) ->
  StronglySorted le_key (insert_box c L).
Proof.
  unfold le_key, box in *. intros S N. unfold insert_box, insert_at.
  set (p := bisect_left (Datatypes.S (length L)) (map snd L) (snd c) 0 (length L)).
  inversion N as [|? ? Nc NL]; subst. rewrite Forall_forall in NL.
  assert (ND : forall i d, (i < length L)%nat -> nth i (map snd L) (PInt 0) = snd (nth i L d)).
  { intros i d Hi. rewrite (nth_indep _ (PInt 0) (snd d)) by now rewrite map_length. apply map_nth. }
  assert (Le : forall i j, (i <= j)%nat -> (j < length (map snd L))%nat -> num_le (nth i (map snd L) (PInt 0)) (nth j (map snd L) (PInt 0)) = true).
  { intros i j Hij Hj. rewrite map_length in Hj. rewrite (ND i c), (ND j c) by lia. destruct (Nat.eq_dec i j) as [->|Ne].
    - rewrite num_le_x. apply xleb_refl. assert (T := NL (nth j L c) (nth_In _ _ Hj)). intro E. apply is_nan_num_x in E. congruence.
    - clear - S Hij Hj Ne. revert i j Hij Hj Ne. induction S as [|a L S IH F]; intros i j Hij Hj Ne; [simpl in Hj; lia|].
      destruct j as [|j]; [lia|]. simpl in Hj. destruct i as [|i]; simpl.
      + rewrite Forall_forall in F. apply F. apply nth_In. lia.
      + apply IH; lia. }
  destruct (bisect_spec (map snd L) (snd c) Le (Datatypes.S (length L)) 0 (length L)) as (P1 & P2 & P3).
  1: lia. 1: rewrite map_length; lia. 1: intros; lia. 1: rewrite map_length; intros; lia.
  fold p in P1, P2, P3. rewrite map_length in P1, P3.
  assert (S' := S). rewrite <- (firstn_skipn p L) in S'. apply SS_app in S'. destruct S' as (S1 & S2 & S3).
  assert (B1 : forall a, In a (firstn p L) -> num_le (snd a) (snd c) = true).
  { intros a Ha. apply (In_nth _ _ c) in Ha. destruct Ha as (i & Hi & Ea). rewrite firstn_length_le in Hi by exact P1.
    specialize (P2 i Hi). rewrite (ND _ c) in P2 by lia. rewrite num_lt_x in P2. rewrite num_le_x. apply xltb_xleb.
    rewrite <- Ea. replace (nth i (firstn p L) c) with (nth i L c); [exact P2|]. 
    rewrite <- (firstn_skipn p L) at 1. rewrite app_nth1; [reflexivity|]. now rewrite firstn_length_le. }
  assert (B2 : forall b, In b (skipn p L) -> num_le (snd c) (snd b) = true).
  { intros b Hb. assert (Hb' : In b L) by (rewrite <- (firstn_skipn p L); apply in_or_app; now right). apply (In_nth _ _ c) in Hb. destruct Hb as (i & Hi & Eb). rewrite skipn_length in Hi.
    specialize (P3 (p + i)%nat ltac:(lia)). rewrite (ND _ c) in P3 by lia.
    assert (E : nth (p + i) L c = b).
    { rewrite <- Eb. rewrite <- (firstn_skipn p L) at 1. rewrite app_nth2; rewrite firstn_length_le by exact P1; [f_equal; lia|lia]. }
    rewrite E in P3. rewrite num_lt_x in P3. rewrite num_le_x.
    apply xltb_false_xleb; [| | exact P3]; intro X; apply is_nan_num_x in X; [assert (T := NL b Hb'); congruence | congruence]. }
  apply SS_app. split; [exact S1|]. split.
  - constructor; [exact S2|]. rewrite Forall_forall. exact B2.
  - intros a b Ha [<-|Hb]; auto.
Qed.
Lemma insert_box_in c L b : In b (insert_box c L) <-> b = c \/ In b L.
Proof.
  unfold insert_box, insert_at. set (p := bisect_left _ _ _ _ _). clearbody p.
  assert (E : In b L <-> In b (firstn p L) \/ In b (skipn p L)) by (rewrite <- in_app_iff, firstn_skipn; reflexivity).
  rewrite E, in_app_iff. simpl. intuition.
Qed.

Lemma bindR {A B} (c : M A) (k : A -> M B) m v w : keeps_mode c -> returns c m v -> returns (k v) m w -> returns (mbind c k) m w.
Proof. intros K H1 H2. apply (run_returns _ _ _ K) in H1. unfold returns, outcome, mbind in *. now rewrite H1. Qed.

(** ** Boxes *)
Lemma set_nth_S {A} l (e y : A) Y : set_nth (S l) e (y :: Y) = y :: set_nth l e Y.
Proof. reflexivity. Qed.
Lemma set_nth_0 {A} (e y : A) Y : set_nth 0 e (y :: Y) = e :: Y.
Proof. reflexivity. Qed.
Lemma set_nth_F2 {A B} (P : A -> B -> Prop) Y xs l e : Forall2 P Y xs -> nth_error Y l = Some e ->
  exists x, P e x /\ forall e', P e' x -> Forall2 P (set_nth l e' Y) xs.
Proof.
  intro H. revert l. induction H as [|y x Y xs Hyx H IH]; intros [|l] E; simpl in E; try discriminate.
  - injection E as ->. exists x. split; [exact Hyx|]. intros e' He. now constructor.
  - destruct (IH l E) as (x' & H1 & H2). exists x'. split; [exact H1|]. intros e' He. rewrite set_nth_S. constructor; auto.
Qed.
Lemma set_nth_F2_inv {A B} (P : A -> B -> Prop) Y xs l e e' : nth_error Y l = Some e -> (forall x, P e' x -> P e x) -> Forall2 P (set_nth l e' Y) xs -> Forall2 P Y xs.
Proof.
  intros E H. revert l xs E. induction Y as [|y Y IH]; intros [|l] xs E; try discriminate; rewrite ?set_nth_0, ?set_nth_S; intro F; inversion F; subst.
  - injection E as ->. constructor; auto.
  - constructor; eauto.
Qed.
Lemma set_nth_Forall {A} (P : A -> Prop) Y l e' : (l < length Y)%nat -> Forall P Y -> P e' -> Forall P (set_nth l e' Y).
Proof.
  intros Hl H He. revert l Hl. induction H as [|y Y Hy H IH]; intros [|k] Hl; simpl in Hl; try lia; rewrite ?set_nth_0, ?set_nth_S; constructor; auto. apply IH. lia.
Qed.
Lemma set_nth_length {A} Y l (e' : A) : (l < length Y)%nat -> length (set_nth l e' Y) = length Y.
Proof. revert l. induction Y; intros [|l] Hl; simpl in Hl; try lia; rewrite ?set_nth_0, ?set_nth_S; simpl; auto. rewrite IHY; lia. Qed.

Lemma modest_split e m c e1 e2 : modest e -> returns (mid e) m c -> returns (single_interval (lo e) c false false) m e1 ->
  returns (single_interval c (hi e) false false) m e2 ->
  modest e1 /\ modest e2 /\ (forall r, member e1 r -> member e r) /\ (forall r, member e2 r -> member e r) /\ forall r, member e r -> member e1 r \/ member e2 r.
Proof.
  intros Me Hc H1 H2. destruct (modest_mid e m c Me Hc) as (f & -> & F & Mf). destruct Me as (ke & (sl & sh) & PX & Bl & Bh).
  destruct (proper_fin_x e PX) as (l & h & Hl & Hh & Hlh & El & Eh).
  destruct (single_unsorted (lo e) (PFlt f) m) as (Z1 & HZ1 & Z1l & Z1h & kZ1). assert (Z1 = e1) by (unfold returns in *; congruence). subst Z1.
  destruct (single_unsorted (PFlt f) (hi e) m) as (Z2 & HZ2 & Z2l & Z2h & kZ2). assert (Z2 = e2) by (unfold returns in *; congruence). subst Z2.
  rewrite member_x, Hl, Hh in Mf. simpl in Mf.
  assert (xc : xval (PFlt f) = XFin (B2R f)) by (destruct f; simpl in *; try discriminate; reflexivity).
  destruct PX as (Fe & Le). destruct Fe as [Fl Fh].
  rewrite num_le_x in kZ1, kZ2. rewrite Hl, xc in kZ1. rewrite xc, Hh in kZ2.
  assert (T1 : xleb (XFin l) (XFin (B2R f)) = true) by (apply xleb_fin; lra). assert (T2 : xleb (XFin (B2R f)) (XFin h) = true) by (apply xleb_fin; lra).
  apply proj2 in kZ1. apply proj2 in kZ2. specialize (kZ1 T1). specialize (kZ2 T2). rewrite <- El in Bl. rewrite <- Eh in Bh.
  assert (Bf : Rabs (B2R f) <= bpow radix2 1022) by (apply Rabs_le; apply Rabs_le_inv in Bl; apply Rabs_le_inv in Bh; lra).
  assert (M1 : forall r, member e1 r <-> l <= r <= B2R f) by (intro r; rewrite member_x, Z1l, Z1h, Hl, xc; reflexivity).
  assert (M2 : forall r, member e2 r <-> B2R f <= r <= h) by (intro r; rewrite member_x, Z2l, Z2h, Hh, xc; reflexivity).
  assert (M0 : forall r, member e r <-> l <= r <= h) by (intro r; rewrite member_x, Hl, Hh; reflexivity).
  split; [|split; [|split; [|split]]].
  - split; [exact kZ1|]. unfold small_itv, proper_fin, finite_itv. rewrite !Z1l, !Z1h. simpl num_val. rewrite <- El. repeat split; auto; simpl; lra.
  - split; [exact kZ2|]. unfold small_itv, proper_fin, finite_itv. rewrite !Z2l, !Z2h. simpl num_val. rewrite <- Eh. repeat split; auto; simpl; lra.
  - intro r. rewrite M1, M0. lra.
  - intro r. rewrite M2, M0. lra.
  - intro r. rewrite M1, M2, M0. lra.
Qed.

Lemma modest_inhabited Y : Forall modest Y -> exists xs, in_box Y xs.
Proof.
  induction 1 as [|e Y He H [xs IH]]; [exists []; constructor|]. destruct He as (_ & _ & PX & _).
  destruct (proper_fin_x e PX) as (l & h & Hl & Hh & Hlh & _ & _). exists (l :: xs). constructor; [|exact IH]. rewrite member_x, Hl, Hh. simpl. lra.
Qed.
Lemma member_lo_not_nan X r : member X r -> is_nan_num (lo X) = false.
Proof.
  intro H. rewrite member_x in H. destruct (is_nan_num (lo X)) eqn:E; [|reflexivity]. apply is_nan_num_x in E. rewrite E in H. simpl in H. tauto.
Qed.
Section Glob.
Context (func : list itv -> M itv) (f : list R -> R) (x0 : list itv) (m : mode).
Hypothesis Mx0 : Forall modest x0.
Hypothesis HF : encloses_box x0 func f.
Definition okbox (b : box) : Prop := Forall modest (fst b) /\ (forall xs, in_box (fst b) xs -> in_box x0 xs) /\
  exists F, returns (func (fst b)) m F /\ snd b = lo F.
Definition covers (L : list box) : Prop := forall xs, in_box x0 xs -> exists b, In b L /\ in_box (fst b) xs.
Definition binv (L : list box) : Prop := StronglySorted le_key L /\ Forall okbox L /\ covers L.
Lemma keeps_gfunc Y : keeps_mode (func Y).
Proof. intro mm. apply HF. Qed.
Lemma okbox_not_nan b : okbox b -> is_nan_num (snd b) = false.
Proof.
  intros (Hb & Sb & F & HFb & ->). destruct (modest_inhabited _ Hb) as (xs & Hxs).
  exact (member_lo_not_nan F _ (proj2 HF _ m F Hb Sb HFb xs Hxs)).
Qed.
Lemma insert_binv c L : StronglySorted le_key L -> Forall okbox L -> okbox c -> StronglySorted le_key (insert_box c L) /\ Forall okbox (insert_box c L).
Proof.
  intros S OK Oc. split.
  - apply insert_box_sorted; [exact S|]. constructor; [now apply okbox_not_nan|]. eapply Forall_impl; [|exact OK]. apply okbox_not_nan.
  - rewrite Forall_forall in *. intros b Hb. apply insert_box_in in Hb. destruct Hb as [->|Hb]; auto.
Qed.
Lemma keeps_glob fuel tol L : keeps_mode (glob_loop func fuel tol L).
Proof.
  revert L. induction fuel as [|n IH]; intros [|[Y v] L]; cbn [glob_loop]; try apply keeps_raise.
  - apply keeps_bind; [apply keeps_gfunc|]. intro. apply keeps_bind; [apply keeps_wid|]. intro. destruct (num_le tol _); apply keeps_ret.
  - apply keeps_bind; [apply keeps_gfunc|]. intro. apply keeps_bind; [apply keeps_wid|]. intro. destruct (num_le tol _); [|apply keeps_ret].
    apply keeps_bind; [apply keeps_vectorize_num; intro; apply keeps_wid|]. intro ws. destruct (argmax (adata ws)) as [[l q]|]; [|apply keeps_raise].
    destruct (nth_error Y l); [|apply keeps_raise]. apply keeps_bind; [apply keeps_mid|]. intro. apply keeps_bind; [apply keeps_single|]. intro. apply keeps_bind; [apply keeps_single|]. intro.
    apply keeps_bind; [apply keeps_gfunc|]. intro. apply keeps_bind; [apply keeps_gfunc|]. intro. apply IH.
Qed.
Lemma glob_loop_inv tol fuel : forall L L', binv L -> returns (glob_loop func fuel tol L) m L' -> binv L'.
Proof.
  induction fuel as [|n IH]; intros [|[Y v] L] L' I H; cbn [glob_loop] in H; try discriminate.
  - apply keeps_returns in H; [|apply keeps_gfunc]. destruct H as (F & _ & H). apply keeps_returns in H; [|apply keeps_wid]. destruct H as (w & _ & H).
    destruct (num_le tol w); apply returns_ret in H; now subst.
  - apply keeps_returns in H; [|apply keeps_gfunc]. destruct H as (F & _ & H). apply keeps_returns in H; [|apply keeps_wid]. destruct H as (w & _ & H).
    destruct (num_le tol w); [|apply returns_ret in H; now subst].
    apply keeps_returns in H; [|apply keeps_vectorize_num; intro; apply keeps_wid]. destruct H as (ws & _ & H).
    destruct (argmax (adata ws)) as [[l q]|]; [|discriminate]. destruct (nth_error Y l) as [e|] eqn:Ee; [|discriminate].
    apply keeps_returns in H; [|apply keeps_mid]. destruct H as (c & Hc & H).
    apply keeps_returns in H; [|apply keeps_single]. destruct H as (e1 & He1 & H).
    apply keeps_returns in H; [|apply keeps_single]. destruct H as (e2 & He2 & H).
    apply keeps_returns in H; [|apply keeps_gfunc]. destruct H as (F1 & HF1 & H).
    apply keeps_returns in H; [|apply keeps_gfunc]. destruct H as (F2 & HF2 & H).
    refine (IH _ _ _ H). destruct I as (S & OK & C). inversion S as [|? ? S1 S2]; subst. inversion OK as [|? ? OY OL]; subst.
    destruct OY as (MY & SY & FY & HFY & EY). cbn [fst snd] in *.
    assert (Hl : (l < length Y)%nat) by (apply nth_error_Some; congruence).
    assert (Me : modest e) by (rewrite Forall_forall in MY; apply MY; exact (nth_error_In _ _ Ee)).
    destruct (modest_split e m c e1 e2 Me Hc He1 He2) as (M1 & M2 & I1 & I2 & U).
    assert (O1 : okbox (set_nth l e1 Y, lo F1)).
    { split; [|split]; cbn [fst snd]; [now apply set_nth_Forall| |exists F1; auto]. intros xs Hxs. apply SY. exact (set_nth_F2_inv member Y xs l e e1 Ee I1 Hxs). }
    assert (O2 : okbox (set_nth l e2 Y, lo F2)).
    { split; [|split]; cbn [fst snd]; [now apply set_nth_Forall| |exists F2; auto]. intros xs Hxs. apply SY. exact (set_nth_F2_inv member Y xs l e e2 Ee I2 Hxs). }
    destruct (insert_binv _ L S1 OL O1) as [A1 A2]. destruct (insert_binv _ _ A1 A2 O2) as [A3 A4].
    split; [exact A3|]. split; [exact A4|]. intros xs Hxs. destruct (C xs Hxs) as (b & [<-|Hb] & Hin); cbn [fst] in *.
    + destruct (set_nth_F2 member Y xs l e Hin Ee) as (x & Hx & R). destruct (U x Hx) as [T|T].
      * exists (set_nth l e1 Y, lo F1). split; [apply insert_box_in; right; apply insert_box_in; now left|]. now apply R.
      * exists (set_nth l e2 Y, lo F2). split; [apply insert_box_in; now left|]. now apply R.
    + exists b. split; [apply insert_box_in; right; apply insert_box_in; now right|exact Hin].
Qed.
Lemma start_binv F : returns (func x0) m F -> binv [(x0, lo F)].
Proof.
  intro H. split; [repeat constructor|]. split.
  - constructor; [|constructor]. split; [exact Mx0|]. split; [auto|]. exists F. auto.
  - intros xs Hxs. exists (x0, lo F). split; [now left|exact Hxs].
Qed.
Theorem globopt_bounds tol maxiter Y V : returns (globopt func x0 tol maxiter) m (Y, V) ->
  returns (func Y) m V /\ (exists xs, in_box Y xs) /\ (forall xs, in_box Y xs -> in_box x0 xs) /\
  (forall xs, in_box x0 xs -> num_le_R (lo V) (f xs)) /\
  (forall xs, in_box x0 xs -> (forall ys, in_box x0 ys -> f xs <= f ys) -> member V (f xs)).
Proof.
  intro H. unfold globopt in H. apply keeps_returns in H; [|apply keeps_gfunc]. destruct H as (F & HF0 & H).
  apply keeps_returns in H; [|apply keeps_glob]. destruct H as (L & HL & H).
  destruct (glob_loop_inv tol _ _ L (start_binv F HF0) HL) as (S & OK & C).
  destruct L as [|[Y' v] L]; [discriminate|]. apply keeps_returns in H; [|apply keeps_gfunc]. destruct H as (V' & HV & H).
  apply returns_ret in H. injection H as -> ->. 
  inversion OK as [|? ? OY OL]; subst. destruct OY as (MY & SY & FY & HFY & EY). cbn [fst snd] in *.
  assert (FY = V') by (unfold returns in *; congruence). subst FY.
  destruct (modest_inhabited Y' MY) as (y & Hy). assert (MV : forall xs, in_box Y' xs -> member V' (f xs)) by exact (proj2 HF Y' m V' MY SY HV).
  assert (LB : forall xs, in_box x0 xs -> xle_R (xval (lo V')) (f xs)).
  { intros xs Hxs. destruct (C xs Hxs) as (b & [<-|Hb] & Hin); cbn [fst] in *.
    - assert (T := MV xs Hin). rewrite member_x in T. apply T.
    - rewrite Forall_forall in OL. destruct (OL b Hb) as (Mb & Sb & Fb & HFb & Eb).
      assert (T := proj2 HF _ m Fb Mb Sb HFb xs Hin). rewrite member_x in T.
      inversion S as [|? ? S1 S2]; subst. rewrite Forall_forall in S2. specialize (S2 b Hb). unfold le_key in S2. cbn [snd] in S2. rewrite Eb, num_le_x in S2.
      destruct T as [T _]. destruct (xval (lo V')), (xval (lo Fb)); try discriminate; simpl in *; auto; try contradiction.
      apply xleb_fin in S2. lra. }
  assert (BET : forall r, xle_R (xval (lo V')) r -> r <= f y -> member V' r).
  { intros r H1 H2. assert (T := MV y Hy). rewrite member_x in *. split; [exact H1|]. destruct T as [_ T]. destruct (xval (hi V')); simpl in *; auto; lra. }
  split; [exact HV|]. split; [now exists y|]. split; [exact SY|]. split.
  - intros xs Hxs. apply num_le_R_x. now apply LB.
  - intros xs Hxs Hmin. apply BET; auto.
Qed.
(** The loop stops with a value interval narrower than [tol] unless the budget
    of maxiter + 1 bisections is used up; with a negative budget nothing is
    bisected. *)
Lemma globopt_no_budget tol maxiter Y V : (maxiter < 0)%Z -> returns (globopt func x0 tol maxiter) m (Y, V) -> Y = x0.
Proof.
  intros Hm H. unfold globopt in H. replace (Z.to_nat (maxiter + 1)) with 0%nat in H by lia.
  apply keeps_returns in H; [|apply keeps_gfunc]. destruct H as (F & HF0 & H).
  apply keeps_returns in H; [|apply keeps_glob]. destruct H as (L & HL & H). cbn [glob_loop] in HL.
  apply keeps_returns in HL; [|apply keeps_gfunc]. destruct HL as (F' & _ & HL). apply keeps_returns in HL; [|apply keeps_wid]. destruct HL as (w & _ & HL).
  assert (L = [(x0, lo F)]) by (destruct (num_le tol w); apply returns_ret in HL; congruence). subst L.
  apply keeps_returns in H; [|apply keeps_gfunc]. destruct H as (V' & HV & H). apply returns_ret in H. congruence.
Qed.
Lemma glob_loop_stop tol n : forall k L Y v L' F w, returns (glob_loop func n tol L) m ((Y, v) :: L') -> returns (func Y) m F -> returns (wid F) m w -> num_le tol w = false ->
  returns (glob_loop func (n + k) tol L) m ((Y, v) :: L').
Proof.
  induction n as [|n IH]; intros k [|[Y0 v0] L] Y v L' F w H HFY Hw T; try (now cbn in H).
  - cbn [glob_loop] in H. apply keeps_returns in H; [|apply keeps_gfunc]. destruct H as (F0 & HF0 & H). apply keeps_returns in H; [|apply keeps_wid]. destruct H as (w0 & Hw0 & H).
    assert (E : (Y0, v0) :: L = (Y, v) :: L') by (destruct (num_le tol w0); apply returns_ret in H; congruence). injection E as <- <- <-.
    assert (F0 = F) by (unfold returns in *; congruence). subst F0. assert (w0 = w) by (unfold returns in *; congruence). subst w0.
    destruct k; cbn [Nat.add glob_loop]; apply (bindR _ _ m F _ (keeps_gfunc _) HF0);
      apply (bindR _ _ m w _ (keeps_wid _) Hw0); rewrite T; reflexivity.
  - cbn [glob_loop Nat.add] in *. apply keeps_returns in H; [|apply keeps_gfunc]. destruct H as (F0 & HF0 & H). apply keeps_returns in H; [|apply keeps_wid]. destruct H as (w0 & Hw0 & H).
    apply (bindR _ _ m F0 _ (keeps_gfunc _) HF0). apply (bindR _ _ m w0 _ (keeps_wid _) Hw0).
    destruct (num_le tol w0); [|exact H].
    apply keeps_returns in H; [|apply keeps_vectorize_num; intro; apply keeps_wid]. destruct H as (ws & Hws & H).
    apply (bindR _ _ m ws _ (keeps_vectorize_num _ _ (fun x => keeps_wid x)) Hws).
    destruct (argmax (adata ws)) as [[l q]|]; [|discriminate]. destruct (nth_error Y0 l) as [e|] eqn:Ee; [|discriminate].
    apply keeps_returns in H; [|apply keeps_mid]. destruct H as (c & Hc & H). apply (bindR _ _ m c _ (keeps_mid _) Hc).
    apply keeps_returns in H; [|apply keeps_single]. destruct H as (e1 & He1 & H). apply (bindR _ _ m e1 _ (keeps_single _ _ _ _) He1).
    apply keeps_returns in H; [|apply keeps_single]. destruct H as (e2 & He2 & H). apply (bindR _ _ m e2 _ (keeps_single _ _ _ _) He2).
    apply keeps_returns in H; [|apply keeps_gfunc]. destruct H as (F1 & HF1 & H). apply (bindR _ _ m F1 _ (keeps_gfunc _) HF1).
    apply keeps_returns in H; [|apply keeps_gfunc]. destruct H as (F2 & HF2 & H). apply (bindR _ _ m F2 _ (keeps_gfunc _) HF2).
    exact (IH k _ _ _ _ _ _ H HFY Hw T).
Qed.
Lemma globopt_stops tol maxiter maxiter' Y V w : (maxiter <= maxiter')%Z -> returns (globopt func x0 tol maxiter) m (Y, V) -> returns (wid V) m w -> num_le tol w = false ->
  returns (globopt func x0 tol maxiter') m (Y, V).
Proof.
  intros Hm H Hw T. unfold globopt in *. apply keeps_returns in H; [|apply keeps_gfunc]. destruct H as (F & HF0 & H).
  apply (bindR _ _ m F _ (keeps_gfunc _) HF0).
  apply keeps_returns in H; [|apply keeps_glob]. destruct H as (L & HL & H). destruct L as [|[Y' v] L]; [discriminate|].
  apply keeps_returns in H; [|apply keeps_gfunc]. destruct H as (V' & HV & H). assert (H' := H). apply returns_ret in H'. injection H' as -> ->.
  assert (A := glob_loop_stop tol _ (Z.to_nat (maxiter' + 1) - Z.to_nat (maxiter + 1)) _ _ _ _ _ _ HL HV Hw T).
  replace (Z.to_nat (maxiter + 1) + _)%nat with (Z.to_nat (maxiter' + 1)) in A by lia.
  apply (bindR _ _ m _ _ (keeps_glob _ _ _) A). cbv beta iota.
  exact (bindR _ _ m V' _ (keeps_gfunc _) HV H).
Qed.
End Glob.

(** ** A case: x^2 - y on [1,2] x [1,2] *)
Definition par (Y : list itv) : M itv :=
  match Y with [X; Z] => p <- py_mul (OItv X) (OItv X) ;; py_sub (OItv p) (OItv Z) | _ => mraise ValueError end.
Definition parR (xs : list R) : R := match xs with [x; y] => x * x - y | _ => 0 end.
Lemma par_encloses : encloses_box [x12; x12] par parR.
Proof.
  split.
  - intros Y m. assert (K : keeps_mode (par Y)); [|apply K]. unfold par. destruct Y as [|X [|Z [|? ?]]]; try apply keeps_raise.
    apply keeps_bind; [apply (keeps_py_op OpMul)|intro; apply (keeps_py_op OpSub)].
  - intros Y m Z MY _ H xs Hxs. unfold par in H. destruct Y as [|X [|Z' [|? ?]]]; try discriminate.
    inversion MY as [|? ? MX MY1]; subst. inversion MY1 as [|? ? MZ _]; subst.
    inversion Hxs as [|? x ? xs1 Hx H1]; subst. inversion H1 as [|? y ? xs2 Hy H2]; subst. inversion H2; subst. unfold parR.
    apply keeps_returns in H; [|apply (keeps_py_op OpMul)]. destruct H as (p & Hp & H).
    destruct MX as (kX & sX & (FX & _) & _). destruct MZ as (kZ & sZ & _).
    destruct (mul_encl X X m sX sX kX kX) as (p1 & Hp1 & E1). assert (p1 = p) by (apply Ok_inj; exact (eq_trans (eq_sym Hp1) Hp)). subst p1.
    destruct (mul_finite_not_nan X X m sX sX kX kX FX FX) as (p2 & Hp2 & N1 & N2). assert (p2 = p) by (apply Ok_inj; exact (eq_trans (eq_sym Hp2) Hp)). subst p2.
    assert (GX : good X) by (split; [exact kX|split; [exact sX|right; eauto]]).
    destruct (py_op_itv OpMul X X m p GX GX Hp) as (k1 & s1 & _).
    destruct (sub_encl p Z' m s1 sZ) as (Z1 & HZ1 & E2). assert (Z1 = Z) by (apply Ok_inj; exact (eq_trans (eq_sym HZ1) H)). subst Z1.
    apply E2; [|exact Hy]. destruct (E1 x x Hx Hx) as [N|E]; [|exact E]. exfalso. destruct N as [N _]. congruence.
Qed.
Lemma par_runs : (exists Y V, returns (globopt par [x12; x12] (PFlt f0) 3) mode_NE (Y, V)) /\
  exists Y V w, returns (globopt par [x12; x12] (PInt 10) 3) mode_NE (Y, V) /\ returns (wid V) mode_NE w /\ num_le (PInt 10) w = false.
Proof.
  split.
  - assert (T : match outcome (globopt par [x12; x12] (PFlt f0) 3) mode_NE with Ok Z => True | _ => False end) by (vm_compute; reflexivity || exact I).
    unfold returns. destruct (outcome _ _) as [[Y V]|]; [exists Y, V; auto | contradiction].
  - assert (T : match outcome (globopt par [x12; x12] (PInt 10) 3) mode_NE with Ok (Y, V) => match outcome (wid V) mode_NE with Ok w => num_le (PInt 10) w = false | _ => False end | _ => False end) by (vm_compute; reflexivity).
    unfold returns. destruct (outcome (globopt _ _ _ _) _) as [[Y V]|]; [|contradiction]. destruct (outcome (wid V) mode_NE) as [w|] eqn:E; [|contradiction]. exists Y, V, w. auto.
Qed.
(** [maxiter = 0] still bisects once. *)
Lemma par_off_by_one : exists Y V, returns (globopt par [x12; x12] (PFlt f0) 0) mode_NE (Y, V) /\ Y <> [x12; x12].
Proof.
  assert (T : match outcome (globopt par [x12; x12] (PFlt f0) 0) mode_NE with
    | Ok (e :: _, V) => match hi e with PInt _ => False | PFlt _ => True end | _ => False end) by (vm_compute; exact I).
  unfold returns. destruct (outcome _ _) as [[[|e Y] V]|]; try contradiction. exists (e :: Y), V. split; [reflexivity|]. intro E. injection E as E1 _. rewrite E1 in T. exact T.
Qed.
