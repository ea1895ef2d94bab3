(** PPS: the propagation of signs (PPS.py:90-159) always ends. *)
From Coq Require Import Reals List Arith Bool ZArith Lia.
From Verif Require Import Exact Estim Pss Pps PpsProofs.
Import ListNotations.
Open Scope Z_scope.

Definition unit3 (z : Z) : Prop := z = -1 \/ z = 0 \/ z = 1.
Lemma unit3_mul a c : unit3 a -> unit3 c -> unit3 (a * c).
Proof. unfold unit3. intros [-> |[-> | ->]] [-> |[-> | ->]]; cbn; lia. Qed.
Lemma unit3_quot a c : unit3 a -> unit3 c -> c <> 0 -> unit3 (Z.quot a c) /\ Z.quot a c * c = a /\ (a <> 0 -> Z.quot a c <> 0).
Proof. unfold unit3. intros [-> |[-> | ->]] [-> |[-> | ->]] H; cbn; lia. Qed.
Lemma unit3_cancel a c w : unit3 a -> unit3 c -> c <> 0 -> w = a * c -> Z.quot w c = a.
Proof. unfold unit3. intros [-> |[-> | ->]] [-> |[-> | ->]] H ->; cbn; lia. Qed.

Lemma zcount_le (f g : nat -> bool) l : (forall x, g x = true -> f x = true) -> (length (filter g l) <= length (filter f l))%nat.
Proof. intro H. induction l as [|a l IH]; cbn [filter]; [lia|]. destruct (g a) eqn:E; [rewrite (H a E)|destruct (f a)]; cbn [length]; lia. Qed.
Lemma zcount_lt (f g : nat -> bool) l i : (forall x, g x = true -> f x = true) -> In i l -> f i = true -> g i = false -> (length (filter g l) < length (filter f l))%nat.
Proof.
  intros H. induction l as [|a l IH]; intros Ii Fi Gi; [contradiction|]. cbn [filter]. destruct Ii as [-> |Ii].
  - rewrite Fi, Gi. pose proof (zcount_le f g l H). cbn [length]. lia.
  - specialize (IH Ii Fi Gi). destruct (g a) eqn:E; [rewrite (H a E)|destruct (f a)]; cbn [length]; lia.
Qed.
Lemma filter_len {A} (f : A -> bool) l : (length (filter f l) <= length l)%nat.
Proof. induction l as [|a l IH]; cbn [filter]; [lia|]. destruct (f a); cbn [length]; lia. Qed.

Section Signs.
Variable n : nat.
Definition gok (g : signs) : Prop :=
  (forall i j, unit3 (gW g i j)) /\ (forall i, unit3 (gs g i)) /\ (forall j, unit3 (gt g j)) /\
  (forall i j, In (i, j) (gOm g) -> (i < n)%nat /\ (j < n)%nat /\ gW g i j <> 0) /\
  (forall i, In i (gK g) -> (i < n)%nat /\ gs g i <> 0) /\ (forall j, In j (gLa g) -> (j < n)%nat /\ gt g j <> 0).
Definition cons (g : signs) (i j : nat) : Prop := gs g i <> 0 -> gt g j <> 0 -> gW g i j = gs g i * gt g j.
Definition agree (sch tch : bool) (g : signs) : Prop :=
  forall i j, In (i, j) (gOm g) -> cons g i j \/ (sch = true /\ In i (gK g)) \/ (tch = true /\ In j (gLa g)).
Definition zs (g : signs) : nat := length (filter (fun i => gs g i =? 0) (seq 0 n)).
Definition zt (g : signs) : nat := length (filter (fun j => gt g j =? 0) (seq 0 n)).
Lemma gok_unflag g : gok g -> gok (unflag g).
Proof. exact (fun H => H). Qed.
Lemma nonzero_in v j : In j (nonzero n v) <-> (j < n)%nat /\ v j <> 0.
Proof. unfold nonzero. rewrite filter_In, in_seq, negb_true_iff, Z.eqb_neq. intuition lia. Qed.

(** ** Signs of the matrix from those of the rows and columns *)
Definition wstep (g g' : signs) : Prop := gok g' /\ gs g' = gs g /\ gt g' = gt g /\ gK g' = gK g /\ gLa g' = gLa g /\
  (forall i j, cons g i j -> cons g' i j) /\ (forall i j, In (i, j) (gOm g') -> In (i, j) (gOm g) \/ cons g' i j).
Lemma wstep_refl g : gok g -> wstep g g.
Proof. intro H. split; [exact H|]. do 4 (split; [reflexivity|]). split; auto. Qed.
Lemma wstep_trans g1 g2 g3 : wstep g1 g2 -> wstep g2 g3 -> wstep g1 g3.
Proof.
  intros (A1 & A2 & A3 & A4 & A5 & A6 & A7) (B1 & B2 & B3 & B4 & B5 & B6 & B7).
  split; [exact B1|]. split; [congruence|]. split; [congruence|]. split; [congruence|]. split; [congruence|]. split; [auto|].
  intros i j H. destruct (B7 i j H) as [H'|]; [|auto]. destruct (A7 i j H'); auto.
Qed.
Lemma setW_step i j g : gok g -> (i < n)%nat -> (j < n)%nat -> gs g i <> 0 -> gt g j <> 0 ->
  wstep g (setW i j (gs g i * gt g j) g) /\ cons (setW i j (gs g i * gt g j) g) i j.
Proof.
  intros (U1 & U2 & U3 & O1 & O2 & O3) Hi Hj Si Tj.
  assert (C : cons (setW i j (gs g i * gt g j) g) i j) by (intros _ _; cbn [setW gW gs gt]; unfold upd2; now rewrite !Nat.eqb_refl).
  assert (N : gs g i * gt g j <> 0) by nia. split; [|exact C]. split.
  { split; [|split; [|split; [|split; [|split]]]]; cbn [setW gW gs gt gOm gK gLa]; auto.
    - intros a c. destruct (upd2_cases (gW g) i j (gs g i * gt g j) a c) as [(_ & _ & ->)|E]; [now apply unit3_mul | rewrite E; apply U1].
    - intros a c Ho. assert (Ho' : In (a, c) (gOm g) \/ (a, c) = (i, j)).
      { destruct (negb _); [apply in_app_iff in Ho; destruct Ho as [|[|[]]]; auto | auto]. }
      destruct (upd2_cases (gW g) i j (gs g i * gt g j) a c) as [(-> & -> & ->)|E].
      + repeat split; auto.
      + destruct Ho' as [Ho'|Ho']; [rewrite E; now apply O1|]. inversion Ho'; subst. unfold upd2. rewrite !Nat.eqb_refl. cbn [andb]. auto. }
  split; [reflexivity|]. split; [reflexivity|]. split; [reflexivity|]. split; [reflexivity|]. split.
  - intros a c Hc Sa Tc. cbn [setW gs gt] in Sa, Tc. cbn [setW gW gs gt]. destruct (upd2_cases (gW g) i j (gs g i * gt g j) a c) as [(-> & -> & ->)|E]; [reflexivity | rewrite E; now apply Hc].
  - intros a c Ho. cbn [setW gOm] in Ho. destruct (negb _); [apply in_app_iff in Ho; destruct Ho as [|[E|[]]]; auto; inversion E; subst; auto | auto].
Qed.
Lemma W_fold (f h : nat * nat -> nat) l : forall g, gok g -> (forall p, In p l -> (f p < n)%nat /\ (h p < n)%nat /\ gs g (f p) <> 0 /\ gt g (h p) <> 0) ->
  let g' := fold_left (fun g p => setW (f p) (h p) (gs g (f p) * gt g (h p)) g) l g in wstep g g' /\ forall p, In p l -> cons g' (f p) (h p).
Proof.
  induction l as [|p l IH]; intros g G H; cbn [fold_left]; [split; [now apply wstep_refl | contradiction]|].
  destruct (H p (or_introl eq_refl)) as (P1 & P2 & P3 & P4). destruct (setW_step (f p) (h p) g G P1 P2 P3 P4) as [S1 C1]. pose proof S1 as (G1 & _).
  destruct (IH _ G1 (fun q Hq => H q (or_intror Hq))) as [S2 C2]. cbv zeta in *. split; [eapply wstep_trans; eassumption|].
  intros q [<-|Hq]; [|now apply C2]. now apply S2.
Qed.
Lemma w_by_s_ok g : gok g -> wstep g (w_by_s n g) /\ forall i j, In i (gK g) -> (j < n)%nat -> cons (w_by_s n g) i j.
Proof.
  intro G. destruct (W_fold fst snd (list_prod (gK g) (nonzero n (gt g))) g G) as [S1 C1].
  { intros [i j] Hp. apply in_prod_iff in Hp. destruct Hp as [H1 H2]. apply nonzero_in in H2. destruct G as (_ & _ & _ & _ & G5 & _). cbn [fst snd]. destruct (G5 i H1). tauto. }
  change (wstep g (w_by_s n g)) in S1.
  split; [exact S1|]. intros i j Hi Hj Si Tj. destruct S1 as (_ & Es & Et & _). assert (Tj' := Tj). rewrite Et in Tj'.
  apply (C1 (i, j)); [|exact Si | exact Tj]. apply in_prod_iff. split; [exact Hi | apply nonzero_in; auto].
Qed.
Lemma w_by_t_ok g : gok g -> wstep g (w_by_t n g) /\ forall i j, (i < n)%nat -> In j (gLa g) -> cons (w_by_t n g) i j.
Proof.
  intro G. destruct (W_fold snd fst (list_prod (gLa g) (nonzero n (gs g))) g G) as [S1 C1].
  { intros [j i] Hp. apply in_prod_iff in Hp. destruct Hp as [H1 H2]. apply nonzero_in in H2. destruct G as (_ & _ & _ & _ & _ & G6). cbn [fst snd]. destruct (G6 j H1). tauto. }
  change (wstep g (w_by_t n g)) in S1.
  split; [exact S1|]. intros i j Hi Hj Si Tj. destruct S1 as (_ & Es & Et & _). assert (Si' := Si). rewrite Es in Si'.
  apply (C1 (j, i)); [|exact Si | exact Tj]. apply in_prod_iff. split; [exact Hj | apply nonzero_in; auto].
Qed.
Lemma w_steps (sch tch : bool) g : gok g -> agree sch tch g ->
  let g' := if tch then w_by_t n (if sch then w_by_s n g else g) else (if sch then w_by_s n g else g) in
  wstep g g' /\ forall i j, In (i, j) (gOm g') -> cons g' i j.
Proof.
  intros G Ag. set (g1 := if sch then w_by_s n g else g). cbv zeta. set (g2 := if tch then w_by_t n g1 else g1).
  assert (S1 : wstep g g1 /\ (sch = true -> forall i j, In i (gK g) -> (j < n)%nat -> cons g1 i j)).
  { unfold g1. destruct sch; [destruct (w_by_s_ok g G); auto | split; [now apply wstep_refl | discriminate]]. }
  destruct S1 as [S1 C1]. pose proof S1 as (G1 & _ & _ & EK & EL & K1 & O1).
  assert (S2 : wstep g1 g2 /\ (tch = true -> forall i j, (i < n)%nat -> In j (gLa g1) -> cons g2 i j)).
  { unfold g2. destruct tch; [destruct (w_by_t_ok g1 G1); auto | split; [now apply wstep_refl | discriminate]]. }
  destruct S2 as [S2 C2]. pose proof S2 as (G2 & _ & _ & _ & _ & K2 & O2). split; [eapply wstep_trans; eassumption|].
  intros i j Ho. destruct (O2 i j Ho) as [Ho1|]; [|assumption]. destruct (O1 i j Ho1) as [Ho0|]; [|auto].
  assert (B : (i < n)%nat /\ (j < n)%nat) by (destruct G as (_ & _ & _ & G4 & _); destruct (G4 i j Ho0); tauto).
  destruct (Ag i j Ho0) as [C|[[Es Hi]|[Et Hj]]]; [auto | apply K2, C1; tauto | apply C2; [exact Et | tauto | now rewrite EL]].
Qed.

(** ** Signs of the rows *)
Definition sstep (g g' : signs) : Prop := gok g' /\ gW g' = gW g /\ gt g' = gt g /\ gOm g' = gOm g /\ gLa g' = gLa g /\
  incl (gK g) (gK g') /\ (forall i, gs g' i = gs g i \/ (In i (gK g') /\ gc g' = true)) /\ (gc g = true -> gc g' = true) /\
  (forall i, gs g i <> 0 -> gs g' i <> 0).
Definition squiet (g g' : signs) : Prop := gc g' = gc g /\ forall i, gs g' i = gs g i.
Lemma sstep_refl g : gok g -> sstep g g.
Proof. intro H. split; [exact H|]. do 4 (split; [reflexivity|]). split; [apply incl_refl|]. split; auto. Qed.
Lemma sstep_trans g1 g2 g3 : sstep g1 g2 -> sstep g2 g3 -> sstep g1 g3.
Proof.
  intros (A1 & A2 & A3 & A4 & A5 & A6 & A7 & A8 & A9) (B1 & B2 & B3 & B4 & B5 & B6 & B7 & B8 & B9).
  split; [exact B1|]. split; [congruence|]. split; [congruence|]. split; [congruence|]. split; [congruence|]. split; [eapply incl_tran; eassumption|].
  split; [|split; auto]. intro i. destruct (B7 i) as [E|]; [|auto]. destruct (A7 i) as [E'|[Hi Hc]]; [left; congruence | right; split; [now apply B6 | now apply B8]].
Qed.
Lemma zs_le g g' : sstep g g' -> (zs g' <= zs g)%nat.
Proof.
  intros (_ & _ & _ & _ & _ & _ & _ & _ & H). apply zcount_le. intros i. rewrite !Z.eqb_eq. intro E. destruct (Z.eq_dec (gs g i) 0) as [|N]; [assumption|]. now apply H in N.
Qed.
Lemma zs_lt g g' i : sstep g g' -> (i < n)%nat -> gs g i = 0 -> gs g' i <> 0 -> (zs g' < zs g)%nat.
Proof.
  intros (_ & _ & _ & _ & _ & _ & _ & _ & H) Hi E N. apply (zcount_lt _ _ _ i); [|apply in_seq; lia | now apply Z.eqb_eq | now apply Z.eqb_neq].
  intros a. rewrite !Z.eqb_eq. intro E'. destruct (Z.eq_dec (gs g a) 0) as [|M]; [assumption|]. now apply H in M.
Qed.
Lemma sset_step i a g : gok g -> (i < n)%nat -> unit3 a -> a <> 0 -> sstep g (sets i a g).
Proof.
  intros (U1 & U2 & U3 & O1 & O2 & O3) Hi Ua Na. split.
  { split; [|split; [|split; [|split; [|split]]]]; cbn [sets gW gs gt gOm gK gLa]; auto.
    - intro k. destruct (upd1_cases (gs g) i a k) as [(_ & ->)|E]; [exact Ua | rewrite E; auto].
    - intros k Hk. assert (Hk' : In k (gK g) \/ k = i).
      { destruct (negb _); [apply in_app_iff in Hk; destruct Hk as [|[|[]]]; auto | auto]. }
      destruct (upd1_cases (gs g) i a k) as [(-> & ->)|E]; [auto|]. destruct Hk' as [Hk'|Hk']; [rewrite E; auto|]. subst k. unfold upd1. rewrite Nat.eqb_refl. auto. }
  do 4 (split; [reflexivity|]). cbn [sets gK gLa gs gt gc]. split; [|split; [|split]].
  - destruct (negb _); [apply incl_appl, incl_refl | apply incl_refl].
  - intro k. destruct (upd1_cases (gs g) i a k) as [(-> & ->)|E]; [|auto]. destruct (Z.eqb_spec (gs g i) a) as [E|E]; cbn [negb]; [auto|]. right. split; [apply in_app_iff; right; now left | apply orb_true_r].
  - intros ->. reflexivity.
  - intros k Hk. destruct (upd1_cases (gs g) i a k) as [(-> & ->)|E]; [exact Na | now rewrite E].
Qed.
Lemma sset_quiet i a g : gs g i = a -> squiet g (sets i a g).
Proof.
  intros E. split; cbn [sets gc gs gt]; [rewrite E, Z.eqb_refl; apply orb_false_r|]. intro k. destruct (upd1_cases (gs g) i a k) as [(-> & ->)|E']; [now symmetry | exact E'].
Qed.
Lemma s_fold (l : list (nat * nat)) : forall g, gok g -> (forall p, In p l -> (fst p < n)%nat /\ (snd p < n)%nat /\ gW g (fst p) (snd p) <> 0) ->
  let g' := fold_left (fun g p => if (gt g (snd p) =? 0)%Z then g else sets (fst p) (Z.quot (gW g (fst p) (snd p)) (gt g (snd p))) g) l g in
  sstep g g' /\ ((forall p, In p l -> cons g (fst p) (snd p)) -> squiet g g' \/ (zs g' < zs g)%nat).
Proof.
  induction l as [|p l IH]; intros g G H; cbn [fold_left]; [split; [now apply sstep_refl | left; split; auto]|].
  destruct (H p (or_introl eq_refl)) as (P1 & P2 & P3). destruct (Z.eqb_spec (gt g (snd p)) 0) as [Z0|Z0].
  - destruct (IH g G (fun q Hq => H q (or_intror Hq))) as [S1 S2]. split; [exact S1|]. intro C. apply S2. intros q Hq. apply C. now right.
  - set (a := Z.quot (gW g (fst p) (snd p)) (gt g (snd p))). pose proof G as (U1 & U2 & U3 & _).
    assert (Qa : unit3 a /\ a * gt g (snd p) = gW g (fst p) (snd p) /\ (gW g (fst p) (snd p) <> 0 -> a <> 0)) by (apply unit3_quot; auto).
    destruct Qa as (Q1 & Q2 & Q3). pose proof (sset_step (fst p) a g G ltac:(assumption) Q1 (Q3 P3)) as S1. pose proof S1 as (G1 & EW & Et & EO & EL & _).
    destruct (IH (sets (fst p) a g) G1) as [S2 D2]. { intros q Hq. rewrite EW. apply H. now right. }
    cbv zeta in *. split; [eapply sstep_trans; eassumption|]. intro C.
    destruct (Z.eq_dec (gs g (fst p)) 0) as [E0|E0].
    + right. apply Nat.le_lt_trans with (zs (sets (fst p) a g)); [now apply zs_le|]. apply (zs_lt _ _ (fst p) S1); auto.
      cbn [sets gs gt]. unfold upd1. rewrite Nat.eqb_refl. auto.
    + assert (Ea : gs g (fst p) = a). { symmetry. apply unit3_cancel; auto. pose proof (C p (or_introl eq_refl)) as C0. unfold cons in C0. specialize (C0 ltac:(assumption) ltac:(assumption)). lia. }
      pose proof (sset_quiet (fst p) a g Ea) as [Qc Qs]. destruct D2 as [[D1 D2]|D2].
      * intros q Hq X1 X2. rewrite EW, Et, Qs in *. apply (C q (or_intror Hq)); rewrite ?Qs in *; auto.
      * left. split; [congruence|]. intro i. now rewrite D2, Qs.
      * right. pose proof (zs_le _ _ S1). lia.
Qed.
Lemma s_zero_fold (l : list (nat * nat)) : forall g, gok g -> (forall p, In p l -> (snd p < n)%nat /\ gt g (fst p) <> 0) ->
  let g' := fold_left (fun g p => if ((gs g (snd p) =? 0) && negb (gW g (snd p) (fst p) =? 0))%Z%bool
                        then sets (snd p) (Z.quot (gW g (snd p) (fst p)) (gt g (fst p))) g else g) l g in
  sstep g g' /\ (squiet g g' \/ (zs g' < zs g)%nat).
Proof.
  induction l as [|p l IH]; intros g G H; cbn [fold_left]; [split; [now apply sstep_refl | left; split; auto]|].
  destruct (H p (or_introl eq_refl)) as (P1 & P2). destruct ((gs g (snd p) =? 0) && negb (gW g (snd p) (fst p) =? 0))%bool eqn:B.
  - apply andb_true_iff in B. destruct B as [B1 B2]. apply Z.eqb_eq in B1. apply negb_true_iff, Z.eqb_neq in B2. pose proof G as (U1 & U2 & U3 & _).
    set (a := Z.quot (gW g (snd p) (fst p)) (gt g (fst p))).
    assert (Qa : unit3 a /\ a * gt g (fst p) = gW g (snd p) (fst p) /\ (gW g (snd p) (fst p) <> 0 -> a <> 0)) by (apply unit3_quot; auto).
    destruct Qa as (Q1 & Q2 & Q3). pose proof (sset_step (snd p) a g G P1 Q1 (Q3 B2)) as S1. pose proof S1 as (G1 & EW & Et & _).
    destruct (IH (sets (snd p) a g) G1) as [S2 D2]. { intros q Hq. rewrite Et. apply H. now right. }
    cbv zeta in *. split; [eapply sstep_trans; eassumption|]. right. apply Nat.le_lt_trans with (zs (sets (snd p) a g)); [now apply zs_le|].
    apply (zs_lt _ _ (snd p) S1); auto. cbn [sets gs gt]. unfold upd1. rewrite Nat.eqb_refl. auto.
  - apply IH; [exact G|]. intros q Hq. apply H. now right.
Qed.
Lemma s_steps (b1 b2 : bool) g : gok g ->
  let g1 := if b1 then s_by_W g else g in let g' := if b2 then s_by_t n g1 else g1 in
  sstep g g' /\ ((forall i j, In (i, j) (gOm g) -> cons g i j) -> squiet g g' \/ (zs g' < zs g)%nat).
Proof.
  intro G. cbv zeta. set (g1 := if b1 then s_by_W g else g).
  assert (A1 : sstep g g1 /\ ((forall i j, In (i, j) (gOm g) -> cons g i j) -> squiet g g1 \/ (zs g1 < zs g)%nat)).
  { unfold g1. destruct b1; [|split; [now apply sstep_refl | left; split; auto]]. destruct (s_fold (gOm g) g G) as [F1 F2].
    - intros [i j] Hp. destruct G as (_ & _ & _ & G4 & _). now apply G4.
    - split; [exact F1|]. intro C. apply F2. intros [i j] Hp. now apply C. }
  destruct A1 as [S1 C1]. pose proof S1 as (G1 & _). 
  assert (A2 : sstep g1 (if b2 then s_by_t n g1 else g1) /\ (squiet g1 (if b2 then s_by_t n g1 else g1) \/ (zs (if b2 then s_by_t n g1 else g1) < zs g1)%nat)).
  { destruct b2; [|split; [now apply sstep_refl | left; split; auto]]. apply (s_zero_fold (list_prod (gLa g1) (seq 0 n)) g1 G1).
    intros [j i] Hp. apply in_prod_iff in Hp. destruct Hp as [H1 H2]. apply in_seq in H2. cbn [fst snd]. split; [lia|]. destruct G1 as (_ & _ & _ & _ & G5 & G6). now apply G6. }
  destruct A2 as [S2 D2]. split; [eapply sstep_trans; eassumption|]. intro C.
  destruct (C1 C) as [[Q1 Q2]|L1]; [|right; pose proof (zs_le _ _ S2); lia].
  destruct D2 as [[Q3 Q4]|L2]; [left; split; [congruence | intro i; now rewrite Q4, Q2] | right; pose proof (zs_le _ _ S1); lia].
Qed.

(** ** Signs of the columns *)
Definition tstep (g g' : signs) : Prop := gok g' /\ gW g' = gW g /\ gs g' = gs g /\ gOm g' = gOm g /\ gK g' = gK g /\
  incl (gLa g) (gLa g') /\ (forall i, gt g' i = gt g i \/ (In i (gLa g') /\ gc g' = true)) /\ (gc g = true -> gc g' = true) /\
  (forall i, gt g i <> 0 -> gt g' i <> 0).
Definition tquiet (g g' : signs) : Prop := gc g' = gc g /\ forall i, gt g' i = gt g i.
Lemma tstep_refl g : gok g -> tstep g g.
Proof. intro H. split; [exact H|]. do 4 (split; [reflexivity|]). split; [apply incl_refl|]. split; auto. Qed.
Lemma tstep_trans g1 g2 g3 : tstep g1 g2 -> tstep g2 g3 -> tstep g1 g3.
Proof.
  intros (A1 & A2 & A3 & A4 & A5 & A6 & A7 & A8 & A9) (B1 & B2 & B3 & B4 & B5 & B6 & B7 & B8 & B9).
  split; [exact B1|]. split; [congruence|]. split; [congruence|]. split; [congruence|]. split; [congruence|]. split; [eapply incl_tran; eassumption|].
  split; [|split; auto]. intro i. destruct (B7 i) as [E|]; [|auto]. destruct (A7 i) as [E'|[Hi Hc]]; [left; congruence | right; split; [now apply B6 | now apply B8]].
Qed.
Lemma zt_le g g' : tstep g g' -> (zt g' <= zt g)%nat.
Proof.
  intros (_ & _ & _ & _ & _ & _ & _ & _ & H). apply zcount_le. intros i. rewrite !Z.eqb_eq. intro E. destruct (Z.eq_dec (gt g i) 0) as [|N]; [assumption|]. now apply H in N.
Qed.
Lemma zt_lt g g' i : tstep g g' -> (i < n)%nat -> gt g i = 0 -> gt g' i <> 0 -> (zt g' < zt g)%nat.
Proof.
  intros (_ & _ & _ & _ & _ & _ & _ & _ & H) Hi E N. apply (zcount_lt _ _ _ i); [|apply in_seq; lia | now apply Z.eqb_eq | now apply Z.eqb_neq].
  intros a. rewrite !Z.eqb_eq. intro E'. destruct (Z.eq_dec (gt g a) 0) as [|M]; [assumption|]. now apply H in M.
Qed.
Lemma tset_step i a g : gok g -> (i < n)%nat -> unit3 a -> a <> 0 -> tstep g (sett i a g).
Proof.
  intros (U1 & U2 & U3 & O1 & O2 & O3) Hi Ua Na. split.
  { split; [|split; [|split; [|split; [|split]]]]; cbn [sett gW gs gt gOm gK gLa]; auto.
    - intro k. destruct (upd1_cases (gt g) i a k) as [(_ & ->)|E]; [exact Ua | rewrite E; auto].
    - intros k Hk. assert (Hk' : In k (gLa g) \/ k = i).
      { destruct (negb _); [apply in_app_iff in Hk; destruct Hk as [|[|[]]]; auto | auto]. }
      destruct (upd1_cases (gt g) i a k) as [(-> & ->)|E]; [auto|]. destruct Hk' as [Hk'|Hk']; [rewrite E; auto|]. subst k. unfold upd1. rewrite Nat.eqb_refl. auto. }
  do 4 (split; [reflexivity|]). cbn [sett gK gLa gs gt gc]. split; [|split; [|split]].
  - destruct (negb _); [apply incl_appl, incl_refl | apply incl_refl].
  - intro k. destruct (upd1_cases (gt g) i a k) as [(-> & ->)|E]; [|auto]. destruct (Z.eqb_spec (gt g i) a) as [E|E]; cbn [negb]; [auto|]. right. split; [apply in_app_iff; right; now left | apply orb_true_r].
  - intros ->. reflexivity.
  - intros k Hk. destruct (upd1_cases (gt g) i a k) as [(-> & ->)|E]; [exact Na | now rewrite E].
Qed.
Lemma tset_quiet i a g : gt g i = a -> tquiet g (sett i a g).
Proof.
  intros E. split; cbn [sett gc gs gt]; [rewrite E, Z.eqb_refl; apply orb_false_r|]. intro k. destruct (upd1_cases (gt g) i a k) as [(-> & ->)|E']; [now symmetry | exact E'].
Qed.
Lemma t_fold (l : list (nat * nat)) : forall g, gok g -> (forall p, In p l -> (fst p < n)%nat /\ (snd p < n)%nat /\ gW g (fst p) (snd p) <> 0) ->
  let g' := fold_left (fun g p => if (gs g (fst p) =? 0)%Z then g else sett (snd p) (Z.quot (gW g (fst p) (snd p)) (gs g (fst p))) g) l g in
  tstep g g' /\ ((forall p, In p l -> cons g (fst p) (snd p)) -> tquiet g g' \/ (zt g' < zt g)%nat).
Proof.
  induction l as [|p l IH]; intros g G H; cbn [fold_left]; [split; [now apply tstep_refl | left; split; auto]|].
  destruct (H p (or_introl eq_refl)) as (P1 & P2 & P3). destruct (Z.eqb_spec (gs g (fst p)) 0) as [Z0|Z0].
  - destruct (IH g G (fun q Hq => H q (or_intror Hq))) as [S1 S2]. split; [exact S1|]. intro C. apply S2. intros q Hq. apply C. now right.
  - set (a := Z.quot (gW g (fst p) (snd p)) (gs g (fst p))). pose proof G as (U1 & U2 & U3 & _).
    assert (Qa : unit3 a /\ a * gs g (fst p) = gW g (fst p) (snd p) /\ (gW g (fst p) (snd p) <> 0 -> a <> 0)) by (apply unit3_quot; auto).
    destruct Qa as (Q1 & Q2 & Q3). pose proof (tset_step (snd p) a g G ltac:(assumption) Q1 (Q3 P3)) as S1. pose proof S1 as (G1 & EW & Et & EO & EL & _).
    destruct (IH (sett (snd p) a g) G1) as [S2 D2]. { intros q Hq. rewrite EW. apply H. now right. }
    cbv zeta in *. split; [eapply tstep_trans; eassumption|]. intro C.
    destruct (Z.eq_dec (gt g (snd p)) 0) as [E0|E0].
    + right. apply Nat.le_lt_trans with (zt (sett (snd p) a g)); [now apply zt_le|]. apply (zt_lt _ _ (snd p) S1); auto.
      cbn [sett gs gt]. unfold upd1. rewrite Nat.eqb_refl. auto.
    + assert (Ea : gt g (snd p) = a). { symmetry. apply unit3_cancel; auto. pose proof (C p (or_introl eq_refl)) as C0. unfold cons in C0. specialize (C0 ltac:(assumption) ltac:(assumption)). lia. }
      pose proof (tset_quiet (snd p) a g Ea) as [Qc Qs]. destruct D2 as [[D1 D2]|D2].
      * intros q Hq X1 X2. rewrite EW, Et, Qs in *. apply (C q (or_intror Hq)); rewrite ?Qs in *; auto.
      * left. split; [congruence|]. intro i. now rewrite D2, Qs.
      * right. pose proof (zt_le _ _ S1). lia.
Qed.
Lemma t_zero_fold (l : list (nat * nat)) : forall g, gok g -> (forall p, In p l -> (snd p < n)%nat /\ gs g (fst p) <> 0) ->
  let g' := fold_left (fun g p => if ((gt g (snd p) =? 0) && negb (gW g (fst p) (snd p) =? 0))%Z%bool
                        then sett (snd p) (Z.quot (gW g (fst p) (snd p)) (gs g (fst p))) g else g) l g in
  tstep g g' /\ (tquiet g g' \/ (zt g' < zt g)%nat).
Proof.
  induction l as [|p l IH]; intros g G H; cbn [fold_left]; [split; [now apply tstep_refl | left; split; auto]|].
  destruct (H p (or_introl eq_refl)) as (P1 & P2). destruct ((gt g (snd p) =? 0) && negb (gW g (fst p) (snd p) =? 0))%bool eqn:B.
  - apply andb_true_iff in B. destruct B as [B1 B2]. apply Z.eqb_eq in B1. apply negb_true_iff, Z.eqb_neq in B2. pose proof G as (U1 & U2 & U3 & _).
    set (a := Z.quot (gW g (fst p) (snd p)) (gs g (fst p))).
    assert (Qa : unit3 a /\ a * gs g (fst p) = gW g (fst p) (snd p) /\ (gW g (fst p) (snd p) <> 0 -> a <> 0)) by (apply unit3_quot; auto).
    destruct Qa as (Q1 & Q2 & Q3). pose proof (tset_step (snd p) a g G P1 Q1 (Q3 B2)) as S1. pose proof S1 as (G1 & EW & Et & _).
    destruct (IH (sett (snd p) a g) G1) as [S2 D2]. { intros q Hq. rewrite Et. apply H. now right. }
    cbv zeta in *. split; [eapply tstep_trans; eassumption|]. right. apply Nat.le_lt_trans with (zt (sett (snd p) a g)); [now apply zt_le|].
    apply (zt_lt _ _ (snd p) S1); auto. cbn [sett gs gt]. unfold upd1. rewrite Nat.eqb_refl. auto.
  - apply IH; [exact G|]. intros q Hq. apply H. now right.
Qed.
Lemma t_steps (b1 b2 : bool) g : gok g ->
  let g1 := if b1 then t_by_W g else g in let g' := if b2 then t_by_s n g1 else g1 in
  tstep g g' /\ ((forall i j, In (i, j) (gOm g) -> cons g i j) -> tquiet g g' \/ (zt g' < zt g)%nat).
Proof.
  intro G. cbv zeta. set (g1 := if b1 then t_by_W g else g).
  assert (A1 : tstep g g1 /\ ((forall i j, In (i, j) (gOm g) -> cons g i j) -> tquiet g g1 \/ (zt g1 < zt g)%nat)).
  { unfold g1. destruct b1; [|split; [now apply tstep_refl | left; split; auto]]. destruct (t_fold (gOm g) g G) as [F1 F2].
    - intros [i j] Hp. destruct G as (_ & _ & _ & G4 & _). now apply G4.
    - split; [exact F1|]. intro C. apply F2. intros [i j] Hp. now apply C. }
  destruct A1 as [S1 C1]. pose proof S1 as (G1 & _). 
  assert (A2 : tstep g1 (if b2 then t_by_s n g1 else g1) /\ (tquiet g1 (if b2 then t_by_s n g1 else g1) \/ (zt (if b2 then t_by_s n g1 else g1) < zt g1)%nat)).
  { destruct b2; [|split; [now apply tstep_refl | left; split; auto]]. apply (t_zero_fold (list_prod (gK g1) (seq 0 n)) g1 G1).
    intros [j i] Hp. apply in_prod_iff in Hp. destruct Hp as [H1 H2]. apply in_seq in H2. cbn [fst snd]. split; [lia|]. destruct G1 as (_ & _ & _ & _ & G5 & G6). now apply G5. }
  destruct A2 as [S2 D2]. split; [eapply tstep_trans; eassumption|]. intro C.
  destruct (C1 C) as [[Q1 Q2]|L1]; [|right; pose proof (zt_le _ _ S2); lia].
  destruct D2 as [[Q3 Q4]|L2]; [left; split; [congruence | intro i; now rewrite Q4, Q2] | right; pose proof (zt_le _ _ S1); lia].
Qed.

(** ** One pass *)
Definition pass (Wch sch tch : bool) (g : signs) : bool * bool * bool * signs :=
  let g := unflag g in
  let g := if sch then w_by_s n g else g in
  let g := if tch then w_by_t n g else g in
  let Wc := gc g in let g := unflag g in
  let g := if Wch then s_by_W g else g in
  let g := if tch then s_by_t n g else g in
  let sc := gc g in let g := unflag g in
  let g := if Wch then t_by_W g else g in
  let g := if sch then t_by_s n g else g in
  (Wc, sc, gc g, g).
Lemma propagate_pass f Wch sch tch g : propagate (S f) n Wch sch tch g =
  if Wch || sch || tch then let '(Wc, sc, tc, g') := pass Wch sch tch g in propagate f n Wc sc tc g' else Some g.
Proof. reflexivity. Qed.
Lemma pass_ok Wch sch tch g Wc sc tc g' : gok g -> agree sch tch g -> pass Wch sch tch g = (Wc, sc, tc, g') ->
  gok g' /\ agree sc tc g' /\ ((zs g' + zt g' < zs g + zt g)%nat \/ (zs g' + zt g' <= zs g + zt g)%nat /\ sc = false /\ tc = false) /\
  (sch = false -> tch = false -> Wc = false).
Proof.
  intros G Ag E. unfold pass in E. cbv zeta in E.
  destruct (w_steps sch tch (unflag g) G Ag) as [W1 W2]. cbv zeta in W1, W2.
  set (g2 := if tch then w_by_t n (if sch then w_by_s n (unflag g) else unflag g) else if sch then w_by_s n (unflag g) else unflag g) in *.
  destruct W1 as (G2 & Es & Et & _ & _ & _ & _). cbn [unflag gs gt] in Es, Et.
  destruct (s_steps Wch tch (unflag g2) (gok_unflag _ G2)) as [S1 S2]. cbv zeta in S1, S2.
  set (g3 := if tch then s_by_t n (if Wch then s_by_W (unflag g2) else unflag g2) else if Wch then s_by_W (unflag g2) else unflag g2) in *.
  pose proof S1 as (G3 & EW3 & Et3 & EO3 & _ & _ & A3 & _ & _). cbn [unflag gW gt gOm gs] in EW3, Et3, EO3, A3.
  destruct (t_steps Wch sch (unflag g3) (gok_unflag _ G3)) as [T1 T2]. cbv zeta in T1, T2.
  set (g4 := if sch then t_by_s n (if Wch then t_by_W (unflag g3) else unflag g3) else if Wch then t_by_W (unflag g3) else unflag g3) in *.
  pose proof T1 as (G4 & EW4 & Es4 & EO4 & EK4 & _ & A4 & _ & _). cbn [unflag gW gs gOm gK gt] in EW4, Es4, EO4, EK4, A4.
  inversion E; subst Wc sc tc g'; clear E. change (gc (unflag g2)) with false in *.
  assert (Zs : zs (unflag g2) = zs g) by (unfold zs; cbn [unflag gs]; now rewrite Es).
  assert (Zt : zt (unflag g3) = zt g) by (unfold zt; cbn [unflag gt]; now rewrite Et3, Et).
  assert (Zs4 : zs g4 = zs g3) by (unfold zs; now rewrite Es4).
  pose proof (zs_le _ _ S1) as Ls. pose proof (zt_le _ _ T1) as Lt. rewrite Zs in Ls. rewrite Zt in Lt.
  split; [exact G4|]. split; [|split].
  - intros i j Ho. rewrite EO4, EO3 in Ho. destruct (A3 i) as [Ei|[Hi Hc]].
    + destruct (A4 j) as [Ej|[Hj Hc]]; [|right; right; auto]. left. intros Si Tj. rewrite EW4, EW3, Es4, Ei, Ej, Et3 in *. now apply W2.
    + right. left. split; [exact Hc | now rewrite EK4].
  - assert (D := S2 W2). destruct D as [[Q1 Q2]|D]; [|left; rewrite Zs in D; lia]. cbn [unflag gc gs] in Q1, Q2.
    assert (C3 : forall i j, In (i, j) (gOm (unflag g3)) -> cons (unflag g3) i j).
    { intros i j Ho Si Tj. cbn [unflag gW gs gt gOm] in *. rewrite EO3 in Ho. rewrite EW3, Q2, Et3 in *. now apply W2. }
    destruct (T2 C3) as [[Q3 Q4]|D]; [|left; rewrite Zt in D; lia]. cbn [unflag gc gt] in Q3. right. split; [lia|]. split; assumption.
  - intros -> ->. reflexivity.
Qed.
Theorem propagate_ends : forall fuel (Wch sch tch : bool) g, gok g -> agree sch tch g ->
  (2 * (zs g + zt g) + (if sch || tch then 2 else if Wch then 1 else 0) <= fuel)%nat -> exists g', propagate fuel n Wch sch tch g = Some g' /\ gok g'.
Proof.
  induction fuel as [|f IH]; intros Wch sch tch g G Ag H.
  - destruct Wch, sch, tch; cbn [orb] in H; try lia. exists g. auto.
  - rewrite propagate_pass. destruct (Wch || sch || tch) eqn:Fl; [|eauto]. destruct (pass Wch sch tch g) as [[[Wc sc] tc] g'] eqn:E.
    destruct (pass_ok _ _ _ _ _ _ _ _ G Ag E) as (G' & Ag' & D & NW). apply IH; [exact G' | exact Ag'|].
    destruct D as [D|(D & -> & ->)].
    + assert ((if sc || tc then 2 else if Wc then 1 else 0) <= 2)%nat by (destruct (sc || tc); [lia | destruct Wc; lia]).
      assert (1 <= (if sch || tch then 2 else if Wch then 1 else 0))%nat by (destruct sch, tch, Wch; try discriminate; cbn [orb]; lia). lia.
    + cbn [orb]. destruct sch, tch; cbn [orb] in H; try (destruct Wc; lia). rewrite (NW eq_refl eq_refl). destruct Wch; [lia | discriminate].
Qed.
Lemma zeros_le g : (zs g + zt g <= 2 * n)%nat.
Proof. unfold zs, zt. pose proof (filter_len (fun i => gs g i =? 0) (seq 0 n)). pose proof (filter_len (fun i => gt g i =? 0) (seq 0 n)). rewrite seq_length in *. lia. Qed.
(** The two calls of [split]: one sign of the matrix was guessed, or one of a row. *)
Definition units (W : smat) (s t : svec) : Prop := (forall i j, unit3 (W i j)) /\ (forall i, unit3 (s i)) /\ (forall j, unit3 (t j)).
Lemma gok_units g : gok g -> units (gW g) (gs g) (gt g).
Proof. intros (U1 & U2 & U3 & _). split; auto. Qed.
Lemma guess_row hang W s t i : units W s t -> (i < n)%nat -> s i <> 0 -> (4 * n + 3 <= hang)%nat ->
  exists g, propagate hang n false true false (start W s t [] [i]) = Some g /\ gok g.
Proof.
  intros (U1 & U2 & U3) Hi Si H. apply propagate_ends.
  - split; [exact U1|]. split; [exact U2|]. split; [exact U3|]. split; [intros a c []|]. split; [intros a [<-|[]]; auto | intros c []].
  - intros a c [].
  - pose proof (zeros_le (start W s t [] [i])). cbn [orb]. lia.
Qed.
Lemma guess_entry hang W s t i j : units W s t -> (i < n)%nat -> (j < n)%nat -> W i j <> 0 -> (4 * n + 3 <= hang)%nat ->
  exists g, propagate hang n true false false (start W s t [(i, j)] []) = Some g /\ gok g.
Proof.
  intros (U1 & U2 & U3) Hi Hj Wij H. set (g := start W s t [(i, j)] []).
  assert (G : gok g). { split; [exact U1|]. split; [exact U2|]. split; [exact U3|]. split; [intros a c [Ea|[]]; inversion Ea; subst; auto|]. split; [intros a [] | intros c []]. }
  destruct hang as [|f]; [lia|]. rewrite propagate_pass. cbn [orb]. destruct (pass true false false g) as [[[Wc sc] tc] g'] eqn:E.
  unfold pass in E. cbv zeta in E.
  destruct (s_steps true false (unflag (unflag g)) G) as [S1 _]. cbv zeta in S1. set (g3 := s_by_W (unflag (unflag g))) in *.
  pose proof S1 as (G3 & _). destruct (t_steps true false (unflag g3) G3) as [T1 _]. cbv zeta in T1.
  set (g4 := t_by_W (unflag g3)) in *. pose proof T1 as (G4 & EW4 & Es4 & EO4 & _).
  inversion E; subst Wc sc tc g'; clear E. apply propagate_ends; [exact G4| |].
  - destruct S1 as (_ & EW3 & Et3 & EO3 & _). intros a c Ho. rewrite EO4 in Ho. cbn [unflag gOm] in Ho. rewrite EO3 in Ho. cbn [unflag gOm g start] in Ho. destruct Ho as [Ea|[]]. inversion Ea; subst a c. left.
    intros Si Tj. unfold cons. rewrite EW4. cbn [unflag gW]. rewrite EW3. cbn [unflag gW]. clear EO4 EO3 T1.
    rewrite Es4 in *. cbn [unflag gs] in *. subst g4. unfold t_by_W in *. cbn [unflag gOm] in *.
    assert (EO : gOm g3 = [(i, j)]) by (unfold g3, s_by_W; cbn [unflag gOm g start fold_left fst snd gt]; destruct (t j =? 0); reflexivity). rewrite EO in *.
    cbn [fold_left fst snd unflag gs] in *. destruct (Z.eqb_spec (gs g3 i) 0) as [|N]; [contradiction|]. cbn [sett gt unflag] in *. unfold upd1 in *. rewrite Nat.eqb_refl in *.
    change (gW (unflag g3)) with (gW g3). rewrite Z.mul_comm, EW3. cbn [unflag gW]. symmetry. apply unit3_quot; [apply U1 | apply G3 | exact N].
  - pose proof (zeros_le g4). destruct (gc g3 || gc g4); [lia|]. destruct (gc (unflag g)); lia.
Qed.
End Signs.
