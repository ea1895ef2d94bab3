(** globopt: enough bisections bring the value interval below the tolerance. *)
From Coq Require Import ZArith Reals List Bool Arith Lia Lra Psatz Sorted.
From Flocq Require Import Core IEEE754.BinarySingleNaN.
From Verif Require Import Base PyNum Kernel Spec Expr XReal XArith KernelProofs ExprProofs KernelAlg KernelMore Arrays Construct SpecArray ArrayProofs ArrayMore ArrayMat ConstructProofs ConstructMore ConstructUtil Solvers SpecSolvers SolversProofs GSProofs NewtonProofs GlobProofs TrigProofs SpecGlob.
Import ListNotations.
Open Scope R_scope.

(** ** Rounded widths *)
Lemma modest_ends e : modest e -> exists l h, xval (lo e) = XFin l /\ xval (hi e) = XFin h /\ l <= h /\ num_val (lo e) = l /\ num_val (hi e) = h.
Proof. intros (_ & _ & P & _). destruct (proper_fin_x e P) as (l & h & H1 & H2 & H3 & H4 & H5). exists l, h. auto. Qed.
Lemma modest_wid e m : modest e -> exists w, returns (wid e) m w /\ exact_num w /\ xval w = XFin (rnd m (width e)).
Proof.
  intros Me. destruct (modest_ends e Me) as (l & h & Hl & Hh & _ & El & Eh). destruct Me as (_ & (sl & sh) & _ & Bl & Bh).
  destruct (XArith.num_sub_x m _ _ sh sl) as (w & Hw & Ew & Vw). exists w. split; [unfold returns, outcome, wid, sub_, mprim; now rewrite Hw|]. split; [exact Ew|].
  rewrite Vw, Hl, Hh. unfold xsub. cbn [xopp xadd]. unfold width. rewrite El, Eh. unfold xround.
  assert (N : no_overflow m (h + - l)) by (apply modest_no_overflow; [now rewrite <- Eh | rewrite Rabs_Ropp; now rewrite <- El]).
  unfold no_overflow in N. rewrite Rlt_bool_true by exact N. reflexivity.
Qed.
Lemma wid_flt e m w : modest e -> float_first [e] -> returns (wid e) m w -> exists f, w = PFlt f.
Proof.
  intros Me Hf H. unfold returns, outcome, wid, sub_, mprim in H. cbn in H. unfold num_sub, arith2 in H.
  destruct (lo e) as [z|g] eqn:E1, (hi e) as [z'|g'] eqn:E2; [destruct Hf as [[f E]|[f E]]; congruence|..]; cbn [to_double rbind] in H;
    try (destruct (int_to_double z); cbn [rbind] in H; [|discriminate]); try (destruct (int_to_double z'); cbn [rbind] in H; [|discriminate]); apply Ok_inj in H; subst w; eauto.
Qed.
Lemma widths_run Y m : Forall modest Y -> float_first Y ->
  exists ws, returns (vectorize_num wid (mkarr [length Y] Y)) m (mkarr [length Y] ws) /\ Forall2 (fun e w => xval w = XFin (rnd m (width e))) Y ws.
Proof.
  intros MY HF. destruct Y as [|e Y]; [destruct HF|].
  assert (G : exists us, Forall2 (fun e w => returns (wid e) m w) (e :: Y) us /\ Forall2 (fun e w => exact_num w /\ xval w = XFin (rnd m (width e))) (e :: Y) us).
  { clear HF. revert MY. generalize (e :: Y). clear. induction l as [|a l IH]; intro H; [exists []; split; constructor|]. inversion H as [|? ? Ha Hl]; subst.
    destruct (IH Hl) as (us & U1 & U2). destruct (modest_wid a m Ha) as (w & W1 & W2 & W3). exists (w :: us). split; constructor; auto. }
  destruct G as (us & U1 & U2). inversion U1 as [|? u ? us' Hu Hus]; subst. inversion MY as [|? ? Me _]; subst.
  destruct (wid_flt e m u Me HF Hu) as (f & ->).
  assert (C : exists vs, mapM (fun v => mlift (cast DFloat64 v)) (PFlt f :: us') m = (Ok vs, m) /\ Forall2 (fun e w => xval w = XFin (rnd m (width e))) (e :: Y) vs).
  { clear - U2. revert U2. generalize (e :: Y). generalize (PFlt f :: us'). clear. induction l as [|u us IH]; intros l' H; inversion H as [|e ? l'' ? [H1 H2] H3]; subst.
    - exists []. split; [reflexivity | constructor].
    - destruct (IH _ H3) as (vs & V1 & V2). destruct (to_double_exact u H1) as (g & G1 & G2). exists (PFlt g :: vs). split.
      + assert (E : mlift (cast DFloat64 u) m = (Ok (PFlt g), m)) by (unfold mlift; cbn [cast]; rewrite G1; reflexivity).
        cbn [mapM]. unfold mbind. rewrite E, V1. reflexivity.
      + constructor; [cbn [xval]; now rewrite G2 | exact V2]. }
  destruct C as (vs & C1 & C2). exists vs. split; [|exact C2].
  unfold vectorize_num, vectorize. cbn [adata]. rewrite keeps_returns by (unfold amapM; apply keeps_bind; [apply keeps_mapM; intro; apply keeps_wid | intro; apply keeps_ret]).
  exists (mkarr [length (e :: Y)] (PFlt f :: us')). split.
  - unfold amapM. rewrite keeps_returns by (apply keeps_mapM; intro; apply keeps_wid). exists (PFlt f :: us'). cbn [adata]. split; [apply mapM_returns; [intro; apply keeps_wid | exact U1]|]. now apply returns_ret.
  - cbn [adata dtype_of]. unfold returns, outcome, amapM, mbind. cbn [ashape adata]. rewrite C1. reflexivity.
Qed.
Lemma argmax_from_spec l : forall k v i, (forall w, In w (v :: l) -> exists r, xval w = XFin r) -> (k < i)%nat ->
  let q := argmax_from (k, v) i l in
  (fst q = k \/ (i <= fst q < i + length l)%nat /\ nth_error l (fst q - i) = Some (snd q)) /\ (fst q = k -> snd q = v) /\
  num_le v (snd q) = true /\ forall w, In w l -> num_le w (snd q) = true.
Proof.
  induction l as [|u l IH]; intros k v i F Hi; cbn [argmax_from].
  - cbv zeta. cbn [fst snd]. split; [now left|]. split; [reflexivity|]. split; [|intros w []]. destruct (F v (or_introl eq_refl)) as (r & E). rewrite num_le_x, E. apply xleb_fin. lra.
  - destruct (F v (or_introl eq_refl)) as (rv & Ev). destruct (F u (or_intror (or_introl eq_refl))) as (ru & Eu).
    assert (Nv : is_nan_num v = false) by (destruct (is_nan_num v) eqn:N; [apply is_nan_num_x in N; congruence | reflexivity]).
    assert (Nu : is_nan_num u = false) by (destruct (is_nan_num u) eqn:N; [apply is_nan_num_x in N; congruence | reflexivity]).
    cbn [snd]. rewrite Nv, Nu. cbn [negb andb orb]. destruct (num_lt v u) eqn:L.
    + destruct (IH i u (S i)) as (A1 & A2 & A3 & A4); [intros w Hw; apply F; right; exact Hw | lia|]. cbv zeta. split; [|split; [|split]].
      * right. destruct A1 as [E|(A1 & A1')]; [rewrite E, (A2 E); split; [cbn [length]; lia|]; now rewrite Nat.sub_diag|]. split; [cbn [length]; lia|].
        replace (fst (argmax_from (i, u) (S i) l) - i)%nat with (S (fst (argmax_from (i, u) (S i) l) - S i)) by lia. exact A1'.
      * intro E. destruct A1 as [E1|[A1 _]]; [rewrite E1 in E; lia | lia].
      * rewrite num_lt_x in L. rewrite num_le_x in *. destruct (xval (snd (argmax_from (i, u) (S i) l))); rewrite Ev, Eu in *; try discriminate; try reflexivity. apply xltb_fin in L. apply xleb_fin in A3. apply xleb_fin. lra.
      * intros w [<-|Hw]; auto.
    + destruct (IH k v (S i)) as (A1 & A2 & A3 & A4); [intros w [<-|Hw]; apply F; [now left | right; now right] | lia|]. cbv zeta. split; [|split; [|split]].
      * destruct A1 as [E|(A1 & A1')]; [now left|]. right. split; [cbn [length]; lia|].
        replace (fst (argmax_from (k, v) (S i) l) - i)%nat with (S (fst (argmax_from (k, v) (S i) l) - S i)) by lia. exact A1'.
      * exact A2.
      * exact A3.
      * intros w [<-|Hw]; auto. rewrite num_lt_x in L. rewrite num_le_x in *. destruct (xval (snd (argmax_from (k, v) (S i) l))); rewrite Ev, Eu in *; try discriminate; try reflexivity.
        apply xleb_fin in A3. apply xleb_fin. destruct (Rle_dec ru rv); [lra|]. exfalso. assert (xltb (XFin rv) (XFin ru) = true) by (apply xltb_fin; lra). congruence.
Qed.
(** The component globopt bisects: no other one has a larger rounded width. *)
Lemma chosen Y m ws : Y <> [] -> Forall2 (fun e w => xval w = XFin (rnd m (width e))) Y ws ->
  exists l q e, argmax ws = Some (l, q) /\ nth_error Y l = Some e /\ forall a, In a Y -> rnd m (width a) <= rnd m (width e).
Proof.
  intros N F. destruct ws as [|w ws]; [inversion F; subst; congruence|]. destruct Y as [|y Y]; [congruence|]. cbn [argmax].
  assert (FIN : forall u, In u (w :: ws) -> exists a, In a (y :: Y) /\ xval u = XFin (rnd m (width a))).
  { clear N. revert F. generalize (y :: Y), (w :: ws). induction 1 as [|a u A U H F IH]; intros v Hv; [destruct Hv|]. destruct Hv as [<-|Hv]; [exists a; split; [now left | exact H]|]. destruct (IH v Hv) as (c & C1 & C2). exists c. split; [now right | exact C2]. }
  destruct (argmax_from_spec ws 0 w 1) as (A1 & A2 & A3 & A4); [intros u Hu; destruct (FIN u Hu) as (a & _ & E); eauto | lia|].
  destruct (argmax_from (0%nat, w) 1 ws) as [l q]. cbn [fst snd] in *. exists l, q.
  assert (Q : nth_error (w :: ws) l = Some q) by (destruct A1 as [E|[A1 A1']]; [rewrite E, (A2 E); reflexivity|]; destruct l; [lia|]; cbn [nth_error]; now replace (S l - 1)%nat with l in A1' by lia).
  assert (E : exists e, nth_error (y :: Y) l = Some e /\ xval q = XFin (rnd m (width e))).
  { clear - F Q. revert l Q. induction F as [|a u A U H F IH]; intros [|l] Q; try discriminate; cbn [nth_error] in *; [injection Q as <-; eauto | now apply IH]. }
  destruct E as (e & E1 & E2). exists e. split; [reflexivity|]. split; [exact E1|].
  assert (MX : forall u, In u (w :: ws) -> num_le u q = true) by (intros u [<-|Hu]; auto).
  assert (BK : forall a, In a (y :: Y) -> exists u, In u (w :: ws) /\ xval u = XFin (rnd m (width a))).
  { clear - F. induction F as [|c u A U H F IH]; intros a Ha; [destruct Ha|]. destruct Ha as [<-|Ha]; [exists u; split; [now left | exact H]|]. destruct (IH a Ha) as (v & V1 & V2). exists v. split; [now right | exact V2]. }
  intros a Ha. destruct (BK a Ha) as (u & U1 & U2). assert (T := MX u U1). rewrite num_le_x, U2, E2 in T. now apply xleb_fin in T.
Qed.

(** ** Bisection *)
Lemma bp1 k k' : k' = (k + 1)%Z -> bpow radix2 k' = 2 * bpow radix2 k.
Proof. intros ->. rewrite bpow_plus. change (bpow radix2 1) with 2. ring. Qed.
Lemma mid_close e m d c : modest e -> (-1067 <= d)%Z -> ends_within (bpow radix2 (d + 45)) e -> returns (mid e) m c ->
  exists f, c = PFlt f /\ is_finite f = true /\ num_val (lo e) <= B2R f <= num_val (hi e) /\ Rabs (B2R f - (num_val (lo e) + num_val (hi e)) / 2) <= bpow radix2 (d - 5).
Proof.
  intros Me Hd [B1 B2] H. destruct (modest_mid e m c Me H) as (f & -> & Ff & Mf). exists f. split; [reflexivity|]. split; [exact Ff|].
  destruct (modest_ends e Me) as (l & h & Hl & Hh & Hlh & El & Eh). rewrite member_x, Hl, Hh in Mf. simpl in Mf. rewrite El, Eh in *. split; [exact Mf|].
  destruct Me as (_ & sX & _ & C1 & C2). rewrite El in C1. rewrite Eh in C2.
  destruct (mid_run e m l h sX Hl Hh (modest_no_overflow m _ _ C2 C1)) as (v & Hv & Vv). assert (v = PFlt f) by (unfold returns in *; congruence). subst v.
  cbn [xval] in Vv. rewrite (proj1 (is_finite_x f) Ff) in Vv. set (s := rnd m (h + l)) in *.
  assert (E46 : bpow radix2 (d + 46) = 2 * bpow radix2 (d + 45)) by (apply bp1; lia).
  assert (Ss : Rabs s <= bpow radix2 (d + 46)).
  { apply abs_round_le_generic; auto with typeclass_instances; [apply generic_format_bpow; unfold SpecFloat.fexp, SpecFloat.emin; lia|]. rewrite E46. eapply Rle_trans; [apply Rabs_triang | lra]. }
  assert (R1 : Rabs (s - (h + l)) <= bpow radix2 (d + 46 - 52)) by (apply rnd_err; [lia|]; rewrite E46; eapply Rle_trans; [apply Rabs_triang | lra]).
  assert (R2 : Rabs (rnd m (/ 2 * s) - / 2 * s) <= bpow radix2 (d + 45 - 52)) by (apply rnd_err; [lia|]; rewrite Rabs_mult, Rabs_pos_eq by lra; lra).
  assert (V2 : rnd m (/ 2 * s) = B2R f).
  { unfold xround in Vv. rewrite Rlt_bool_true in Vv; [now injection Vv|]. assert (S2 : Rabs (rnd m (/ 2 * s)) <= bpow radix2 1022); [|eapply Rle_lt_trans; [exact S2 | apply bpow_lt; lia]].
    apply abs_round_le_generic; auto with typeclass_instances; [apply generic_format_bpow; unfold SpecFloat.fexp, SpecFloat.emin; lia|]. rewrite Rabs_mult, (Rabs_pos_eq (/ 2)) by lra.
    assert (S3 : Rabs s <= bpow radix2 1023); [|rewrite (bp1 1022 1023) in S3 by lia; lra].
    apply abs_round_le_generic; auto with typeclass_instances; [apply generic_format_bpow; unfold SpecFloat.fexp, SpecFloat.emin; lia|]. rewrite (bp1 1022 1023) by lia. eapply Rle_trans; [apply Rabs_triang | lra]. }
  rewrite V2 in R2. replace (d + 46 - 52)%Z with (d - 6)%Z in R1 by lia. replace (d + 45 - 52)%Z with (d - 7)%Z in R2 by lia.
  assert (P6 : bpow radix2 (d - 5) = 2 * bpow radix2 (d - 6)) by (apply bp1; lia).
  assert (P7 : bpow radix2 (d - 6) = 2 * bpow radix2 (d - 7)) by (apply bp1; lia).
  assert (P0 := bpow_gt_0 radix2 (d - 7)). unfold Rabs in *. repeat destruct Rcase_abs; lra.
Qed.

Section Ends.
Context (func : list itv -> M itv) (f : list R -> R) (x0 : list itv) (m : mode) (tol : pynum) (d : Z) (K : nat).
Hypothesis HF : encloses_box x0 func f.
Hypothesis Hd : (-1067 <= d <= 970)%Z.
Hypothesis Hx0 : part_of x0 x0.
Hypothesis Hfloat : float_first x0.
Hypothesis Hends : Forall (ends_within (bpow radix2 (d + 45))) x0.
Hypothesis Hwide : Forall (fun e => width e * (9 / 16) ^ K < bpow radix2 (d - 1)) x0.
Hypothesis Hruns : forall Y, part_of x0 Y -> exists F, returns (func Y) m F /\ small_itv F.
Hypothesis Hsmall : forall Y F w, part_of x0 Y -> Forall (fun e => width e < bpow radix2 d) Y -> returns (func Y) m F -> returns (wid F) m w -> num_le tol w = false.
Notation th := (bpow radix2 (d - 1)).
Notation kf := (fun Y : list itv => keeps_gfunc func f x0 HF Y).

Definition okY (Y : list itv) : Prop := part_of x0 Y /\ float_first Y /\ Forall (fun e => ends_within (bpow radix2 (d + 45)) e /\ width e * (9 / 16) ^ K < th) Y.

(** ** How many bisections are left *)
Definition splits (w : R) : nat := length (filter (fun i => if Rle_dec th (w * (9 / 16) ^ i) then true else false) (seq 0 K)).
Lemma pow916 i : 0 < (9 / 16) ^ i. Proof. apply pow_lt. lra. Qed.
Lemma count_le (p g : nat -> bool) l : (forall i, In i l -> p i = true -> g i = true) -> (length (filter p l) <= length (filter g l))%nat.
Proof. induction l as [|i l IH]; intro H; [apply le_n|]. cbn [filter]. assert (Q := IH ltac:(intros; apply H; [now right | assumption])). destruct (p i) eqn:F; [rewrite (H i (or_introl eq_refl) F); simpl; lia|]. destruct (g i); simpl; lia. Qed.
Lemma count_shift (p : nat -> bool) k : forall s, length (filter (fun i => p (S i)) (seq s k)) = length (filter p (seq (S s) k)).
Proof. induction k as [|k IH]; intro s; [reflexivity|]. cbn [seq filter]. destruct (p (S s)); cbn [length]; now rewrite IH. Qed.
Lemma splits_mono w w' : w' <= w -> (splits w' <= splits w)%nat.
Proof.
  intro H. apply count_le. intros i _. destruct (Rle_dec th (w' * _)) as [D|]; [|discriminate]. intros _. destruct Rle_dec as [|D']; [reflexivity|]. exfalso. apply D'. eapply Rle_trans; [exact D|]. apply Rmult_le_compat_r; [apply Rlt_le, pow916 | exact H].
Qed.
Lemma splits_less w w' : th <= w -> w * (9 / 16) ^ K < th -> w' <= 9 / 16 * w -> (splits w' < splits w)%nat.
Proof.
  intros Hw Hk H. destruct K as [|k] eqn:EK; [simpl in Hk; lra|]. unfold splits. rewrite EK.
  set (g := fun i => if Rle_dec th (w * (9 / 16) ^ i) then true else false).
  assert (G0 : g 0%nat = true) by (unfold g; destruct Rle_dec as [|D]; [reflexivity | exfalso; simpl in D; lra]).
  assert (GK : g (S k) = false) by (unfold g; destruct Rle_dec; [lra | reflexivity]).
  assert (C1 : (length (filter (fun i => if Rle_dec th (w' * (9 / 16) ^ i) then true else false) (seq 0 (S k))) <= length (filter (fun i => g (S i)) (seq 0 (S k))))%nat).
  { apply count_le. intros i _. destruct (Rle_dec th (w' * _)) as [D|]; [|discriminate]. intros _. unfold g. destruct Rle_dec as [|D']; [reflexivity|]. exfalso. apply D'. eapply Rle_trans; [exact D|]. cbn [pow]. rewrite <- Rmult_assoc, (Rmult_comm w). apply Rmult_le_compat_r; [apply Rlt_le, pow916 | exact H]. }
  assert (C2 : (length (filter g (seq 0 (S k))) = S (length (filter g (seq 1 k))))%nat) by (cbn [seq filter]; rewrite G0; reflexivity).
  rewrite count_shift in C1. rewrite (seq_S k 1), filter_app, app_length in C1. cbn [plus filter] in C1. rewrite GK in C1. cbn [length] in C1. lia.
Qed.
Lemma splits_le w : (splits w <= K)%nat.
Proof. unfold splits. rewrite <- (seq_length K 0) at 2. generalize (seq 0 K). induction l as [|i l IH]; [apply le_n|]. cbn [filter]. destruct Rle_dec; simpl; lia. Qed.
Definition depth (Y : list itv) : nat := fold_right (fun e s => (splits (width e) + s)%nat) O Y.
Lemma depth_le Y : (depth Y <= K * length Y)%nat.
Proof. induction Y as [|e Y IH]; [cbn; lia|]. cbn [depth fold_right length]. fold (depth Y). assert (S := splits_le (width e)). nia. Qed.
Lemma depth_set Y l e e' : nth_error Y l = Some e -> (splits (width e') < splits (width e))%nat -> (depth (set_nth l e' Y) < depth Y)%nat.
Proof.
  intros E L. revert l E. induction Y as [|y Y IH]; intros [|l] E; try discriminate; rewrite ?set_nth_0, ?set_nth_S; cbn [depth fold_right]; fold (depth Y).
  - injection E as ->. lia.
  - fold (depth (set_nth l e' Y)). assert (A := IH l E). lia.
Qed.
Definition weight (b : box) : nat := (2 ^ depth (fst b) - 1)%nat.
Definition weights (L : list box) : nat := fold_right (fun b s => (weight b + s)%nat) O L.
Lemma weights_app L1 L2 : weights (L1 ++ L2) = (weights L1 + weights L2)%nat.
Proof. unfold weights. induction L1 as [|a L1 IH]; [reflexivity|]. cbn [app fold_right]. rewrite IH. lia. Qed.
Lemma weights_insert c L : weights (insert_box c L) = (weight c + weights L)%nat.
Proof.
  unfold insert_box, insert_at. generalize (bisect_left (S (length L)) (map snd L) (snd c) 0 (length L)). intro p. rewrite weights_app. cbn [weights fold_right]. fold (weights (skipn p L)).
  rewrite <- (firstn_skipn p L) at 3. rewrite weights_app. lia.
Qed.
Lemma two_halves a a1 a2 : (a1 < a)%nat -> (a2 < a)%nat -> (2 ^ a1 - 1 + (2 ^ a2 - 1) < 2 ^ a - 1)%nat.
Proof.
  intros H1 H2. destruct a as [|a]; [lia|]. assert (A1 := Nat.pow_le_mono_r 2 a1 a ltac:(lia) ltac:(lia)). assert (A2 := Nat.pow_le_mono_r 2 a2 a ltac:(lia) ltac:(lia)).
  assert (A3 : (0 < 2 ^ a1)%nat) by (apply Nat.neq_0_lt_0, Nat.pow_nonzero; lia). assert (A4 : (0 < 2 ^ a2)%nat) by (apply Nat.neq_0_lt_0, Nat.pow_nonzero; lia). cbn [Nat.pow]. lia.
Qed.

(** ** One bisection *)
Lemma wide_or_small Y : Forall (fun e => width e < bpow radix2 d) Y \/ exists a, In a Y /\ bpow radix2 d <= width a.
Proof.
  induction Y as [|e Y [IH|(a & H1 & H2)]]; [left; constructor| |right; exists a; split; [now right | exact H2]].
  destruct (Rlt_dec (width e) (bpow radix2 d)); [left; now constructor | right; exists e; split; [now left | lra]].
Qed.
Lemma big_chosen Y e a : In a Y -> bpow radix2 d <= width a -> (forall a, In a Y -> rnd m (width a) <= rnd m (width e)) -> th <= width e.
Proof.
  intros Ia Ha H. specialize (H a Ia).
  assert (A : bpow radix2 d <= rnd m (width a)) by (apply round_ge_generic; auto with typeclass_instances; apply generic_format_bpow; unfold SpecFloat.fexp, SpecFloat.emin; lia).
  destruct (Rle_dec th (width e)) as [|D]; [assumption|]. exfalso. assert (L : rnd m (width e) <= th) by (apply round_le_generic; auto with typeclass_instances; [apply generic_format_bpow; unfold SpecFloat.fexp, SpecFloat.emin; lia | lra]).
  assert (B := bpow_lt radix2 (d - 1) d ltac:(lia)). lra.
Qed.
Lemma halves e c e1 e2 : modest e -> ends_within (bpow radix2 (d + 45)) e -> th <= width e -> returns (mid e) m c ->
  returns (single_interval (lo e) c false false) m e1 -> returns (single_interval c (hi e) false false) m e2 ->
  (forall i, i = e1 \/ i = e2 -> ends_within (bpow radix2 (d + 45)) i /\ width i <= 9 / 16 * width e /\ width i <= width e) /\ (exists g, hi e1 = PFlt g) /\ exists g, lo e2 = PFlt g.
Proof.
  intros Me B W Hc H1 H2. destruct (mid_close e m d c Me ltac:(lia) B Hc) as (g & -> & Fg & Mg & Cg).
  destruct (single_unsorted (lo e) (PFlt g) m) as (Z1 & HZ1 & Z1l & Z1h & _). assert (Z1 = e1) by (unfold returns in *; congruence). subst Z1.
  destruct (single_unsorted (PFlt g) (hi e) m) as (Z2 & HZ2 & Z2l & Z2h & _). assert (Z2 = e2) by (unfold returns in *; congruence). subst Z2.
  assert (P : bpow radix2 (d - 5) = th / 16) by (rewrite (bp1 (d - 2) (d - 1)), (bp1 (d - 3) (d - 2)), (bp1 (d - 4) (d - 3)), (bp1 (d - 5) (d - 4)) by lia; field).
  assert (P0 := bpow_gt_0 radix2 (d - 5)). destruct B as [B1 B2]. unfold width in W.
  split; [|rewrite Z1h, Z2l; split; eauto]. intros i [->| ->]; unfold ends_within, width; rewrite ?Z1l, ?Z1h, ?Z2l, ?Z2h; cbn [num_val]; (split; [split; try assumption; apply Rabs_le_inv in B1; apply Rabs_le_inv in B2; apply Rabs_le; lra|]); unfold Rabs in Cg; destruct Rcase_abs; lra.
Qed.
Lemma F_set {A} (P : A -> Prop) l e Y : (l < length Y)%nat -> Forall P Y -> P e -> Forall P (set_nth l e Y).
Proof. intros. now apply set_nth_Forall. Qed.
Lemma ok_set Y l e e' : okY Y -> nth_error Y l = Some e -> modest e' -> (forall r, member e' r -> member e r) -> ends_within (bpow radix2 (d + 45)) e' -> width e' <= width e ->
  ((exists g, lo e' = PFlt g) \/ (exists g, hi e' = PFlt g)) -> okY (set_nth l e' Y).
Proof.
  intros ((MY & SY) & FY & BY) E Me' Sub Be' We' Fe'. assert (Hl : (l < length Y)%nat) by (apply nth_error_Some; congruence). assert (IE := nth_error_In _ _ E).
  split; [split|split].
  - now apply F_set.
  - intros xs Hxs. apply SY. exact (set_nth_F2_inv member Y xs l e e' E Sub Hxs).
  - destruct Y as [|y Y]; [simpl in Hl; lia|]. destruct l as [|l]; [rewrite set_nth_0; exact Fe' | rewrite set_nth_S; exact FY].
  - apply F_set; [exact Hl | exact BY|]. split; [exact Be'|]. rewrite Forall_forall in BY. destruct (BY e IE) as [_ W]. eapply Rle_lt_trans; [|exact W]. apply Rmult_le_compat_r; [apply Rlt_le, pow916 | exact We'].
Qed.
Lemma wid_small F : small_itv F -> exists w, returns (wid F) m w.
Proof. intros [sl sh]. destruct (XArith.num_sub_x m _ _ sh sl) as (w & Hw & _). exists w. unfold returns, outcome, wid, sub_, mprim. now rewrite Hw. Qed.

Lemma loop_ends fuel : forall L, L <> [] -> Forall (fun b => okY (fst b)) L -> (weights L <= fuel)%nat ->
  exists Y v L' F w, returns (glob_loop func fuel tol L) m ((Y, v) :: L') /\ okY Y /\ returns (func Y) m F /\ small_itv F /\ returns (wid F) m w /\ num_le tol w = false.
Proof.
  induction fuel as [|fuel IH]; intros [|[Y v] L] N OK W; try congruence; inversion OK as [|? ? OY OL]; subst; cbn [fst] in OY;
    destruct OY as (PY & FY & BY); destruct (Hruns Y PY) as (F & RF & sF); destruct (wid_small F sF) as (w & Rw); cbn [glob_loop];
    (destruct (num_le tol w) eqn:T; [|exists Y, v, L, F, w; split; [apply (bindR _ _ m F _ (kf Y) RF); apply (bindR _ _ m w _ (keeps_wid _) Rw); rewrite T; reflexivity|]; split; [exact (conj PY (conj FY BY))|]; auto]);
    (destruct (wide_or_small Y) as [S|(a & Ia & Wa)]; [rewrite (Hsmall Y F w PY S RF Rw) in T; discriminate|]).
  - exfalso. cbn [weights fold_right] in W. assert (W0 : weight (Y, v) = 0%nat) by lia. unfold weight in W0. cbn [fst] in W0.
    assert (D : (0 < depth Y)%nat).
    { assert (Sa : (0 < splits (width a))%nat). { rewrite Forall_forall in BY. destruct (BY a Ia) as [_ Wk]. assert (B := bpow_lt radix2 (d - 1) d ltac:(lia)). assert (L1 := splits_less (width a) (9 / 16 * width a) ltac:(lra) Wk ltac:(lra)). lia. }
      clear - Ia Sa. induction Y as [|y Y IH]; [destruct Ia|]. cbn [depth fold_right]. fold (depth Y). destruct Ia as [->|Ia]; [lia | assert (A := IH Ia); lia]. }
    assert (A := Nat.pow_le_mono_r 2 1 (depth Y) ltac:(lia) ltac:(lia)). cbn [Nat.pow Nat.mul Nat.add] in A. lia.
  - destruct PY as [MY SY]. destruct (widths_run Y m MY FY) as (ws & Rws & Fws).
    destruct (chosen Y m ws ltac:(intros ->; destruct FY) Fws) as (l & q & e & Am & Ne & Mx). assert (IE := nth_error_In _ _ Ne).
    assert (We := big_chosen Y e a Ia Wa Mx). assert (Me : modest e) by (rewrite Forall_forall in MY; now apply MY). assert (Be : ends_within (bpow radix2 (d + 45)) e /\ width e * (9 / 16) ^ K < th) by (rewrite Forall_forall in BY; now apply BY). destruct Be as [Be Wk].
    destruct (modest_ends e Me) as (lo0 & hi0 & Hl & Hh & _). assert (Me' := Me). destruct Me' as (_ & sE & PE & C1 & C2).
    destruct (mid_in e m sE PE (modest_no_overflow m _ _ C1 C2)) as (c & Rc & _ & _).
    destruct (single_unsorted (lo e) c m) as (e1 & R1 & _). destruct (single_unsorted c (hi e) m) as (e2 & R2 & _).
    destruct (modest_split e m c e1 e2 Me Rc R1 R2) as (M1 & M2 & I1 & I2 & _).
    destruct (halves e c e1 e2 Me Be We Rc R1 R2) as (HV & G1 & G2). destruct (HV e1 (or_introl eq_refl)) as (B1 & X1 & Y1). destruct (HV e2 (or_intror eq_refl)) as (B2 & X2 & Y2).
    assert (O1 : okY (set_nth l e1 Y)) by (apply (ok_set Y l e e1 (conj (conj MY SY) (conj FY BY)) Ne M1 I1 B1 Y1); now right).
    assert (O2 : okY (set_nth l e2 Y)) by (apply (ok_set Y l e e2 (conj (conj MY SY) (conj FY BY)) Ne M2 I2 B2 Y2); now left).
    destruct (Hruns _ (proj1 O1)) as (F1 & RF1 & _). destruct (Hruns _ (proj1 O2)) as (F2 & RF2 & _).
    assert (D1 := depth_set Y l e e1 Ne (splits_less _ _ We Wk X1)). assert (D2 := depth_set Y l e e2 Ne (splits_less _ _ We Wk X2)).
    set (L2 := insert_box (set_nth l e2 Y, lo F2) (insert_box (set_nth l e1 Y, lo F1) L)).
    destruct (IH L2) as (Yr & vr & Lr & Fr & wr & RR & Rest).
    + unfold L2. intro E. assert (In (set_nth l e2 Y, lo F2) (insert_box (set_nth l e2 Y, lo F2) (insert_box (set_nth l e1 Y, lo F1) L))) by (apply insert_box_in; now left). rewrite E in H. destruct H.
    + rewrite Forall_forall in *. intros b Hb. unfold L2 in Hb. apply insert_box_in in Hb. destruct Hb as [->|Hb]; [exact O2|]. apply insert_box_in in Hb. destruct Hb as [->|Hb]; [exact O1 | now apply OL].
    + unfold L2. rewrite !weights_insert. cbn [weights fold_right] in W. fold (weights L) in W. unfold weight in W |- *. cbn [fst] in W |- *. assert (TH := two_halves _ _ _ D1 D2). lia.
    + exists Yr, vr, Lr, Fr, wr. split; [|exact Rest].
      apply (bindR _ _ m F _ (kf Y) RF). apply (bindR _ _ m w _ (keeps_wid _) Rw). rewrite T.
      apply (bindR _ _ m _ _ (keeps_vectorize_num _ _ (fun x => keeps_wid x)) Rws). cbn [adata]. rewrite Am, Ne.
      apply (bindR _ _ m c _ (keeps_mid _) Rc). apply (bindR _ _ m e1 _ (keeps_single _ _ _ _) R1). apply (bindR _ _ m e2 _ (keeps_single _ _ _ _) R2). cbv zeta.
      apply (bindR _ _ m F1 _ (kf _) RF1). apply (bindR _ _ m F2 _ (kf _) RF2). exact RR.
Qed.
Lemma globopt_settles maxiter : (2 ^ Z.of_nat (K * length x0) <= maxiter + 2)%Z ->
  exists Y V w, returns (globopt func x0 tol maxiter) m (Y, V) /\ small_itv V /\ returns (wid V) m w /\ num_le tol w = false.
Proof.
  intro Hm. destruct (Hruns x0 Hx0) as (F & RF & _).
  destruct (loop_ends (Z.to_nat (maxiter + 1)) [(x0, lo F)]) as (Y & v & L' & V & w & R1 & OY & RV & sV & Rw & T).
  - discriminate.
  - constructor; [|constructor]. cbn [fst]. split; [exact Hx0|]. split; [exact Hfloat|]. rewrite Forall_forall in *. intros e He. split; auto.
  - cbn [weights fold_right]. unfold weight. cbn [fst]. assert (D := depth_le x0). assert (P := Nat.pow_le_mono_r 2 _ _ ltac:(lia) D).
    assert (E : Z.of_nat (2 ^ (K * length x0)) = (2 ^ Z.of_nat (K * length x0))%Z) by (rewrite Nat2Z.inj_pow; reflexivity). lia.
  - exists Y, V, w. split; [|auto]. unfold globopt. apply (bindR _ _ m F _ (kf x0) RF). apply (bindR _ _ m _ _ (keeps_glob func f x0 HF _ _ _) R1). cbv beta iota. apply (bindR _ _ m V _ (kf Y) RV). reflexivity.
Qed.
(** Every point of the returned box is optimal up to the tolerance. *)
Lemma globopt_optimal t maxiter : tol = PFlt t -> is_finite t = true -> (2 ^ Z.of_nat (K * length x0) <= maxiter + 2)%Z ->
  exists Y V, returns (globopt func x0 tol maxiter) m (Y, V) /\ (exists xs, in_box Y xs) /\ (forall xs, in_box Y xs -> in_box x0 xs) /\
  (forall xs, in_box Y xs -> member V (f xs)) /\ (forall ys, in_box x0 ys -> num_le_R (lo V) (f ys)) /\
  forall xs ys, in_box Y xs -> in_box x0 ys -> f xs < f ys + B2R t.
Proof.
  intros Et Ft Hm. destruct (globopt_settles maxiter Hm) as (Y & V & w & RG & sV & Rw & T). exists Y, V. split; [exact RG|].
  destruct (globopt_bounds func f x0 m (proj1 Hx0) HF tol maxiter Y V RG) as (RV & (z & Hz) & SY & LB & _). split; [now exists z|]. split; [exact SY|].
  assert (OY : Forall modest Y).
  { clear - RG HF Hx0. unfold globopt in RG. apply keeps_returns in RG; [|exact (kf x0)]. destruct RG as (F & HF0 & H).
    apply keeps_returns in H; [|exact (keeps_glob func f x0 HF _ _ _)]. destruct H as (L & HL & H).
    destruct (glob_loop_inv func f x0 m HF tol _ _ L (start_binv func x0 m (proj1 Hx0) F HF0) HL) as (_ & OK & _). destruct L as [|[Y' v] L]; [discriminate|].
    apply keeps_returns in H; [|exact (kf Y')]. destruct H as (V' & _ & H). apply returns_ret in H. injection H as -> ->. inversion OK as [|? ? (A & _) _]; subst. exact A. }
  assert (MV : forall xs, in_box Y xs -> member V (f xs)) by exact (proj2 HF Y m V OY SY RV). split; [exact MV|]. split; [exact LB|].
  intros xs ys Hxs Hys. assert (A := MV xs Hxs). assert (B := LB ys Hys). apply num_le_R_x in B. rewrite member_x in A. destruct sV as [sl sh].
  destruct (XArith.num_sub_x m _ _ sh sl) as (w' & Hw & _ & Vw). assert (w' = w) by (unfold returns, outcome, wid, sub_, mprim in Rw; rewrite Hw in Rw; cbn in Rw; congruence). subst w'.
  rewrite Et, num_le_x in T. cbn [xval] in T. rewrite (proj1 (is_finite_x t) Ft), Vw in T. destruct (small_double _ sl) as (gl & _ & Gl). destruct (small_double _ sh) as (gh & _ & Gh).
  destruct (xval (lo V)) as [| | |a] eqn:El, (xval (hi V)) as [| | |c] eqn:Eh; cbn in A, B; try tauto; try discriminate; cbn in T; try discriminate; cbn in A, B; try tauto.
  assert (D : c + - a < B2R t); [|lra]. destruct (Rlt_dec (c + - a) (B2R t)) as [|D]; [assumption|]. exfalso. apply Rnot_lt_le in D.
  assert (R1 : B2R t <= rnd m (c + - a)) by (apply round_ge_generic; auto with typeclass_instances; apply generic_format_B2R).
  unfold xround in T. destruct (Rlt_bool (Rabs (rnd m (c + - a))) (bpow radix2 1024)) eqn:O.
  - assert (X : xleb (XFin (B2R t)) (XFin (rnd m (c + - a))) = true) by (now apply xleb_fin). congruence.
  - destruct (Rlt_bool_spec (c + - a) 0) as [N|N]; [lra|]. destruct (overflow_to_inf m false); [discriminate|]. assert (X : xleb (XFin (B2R t)) (XFin fmaxR) = true); [|congruence]. apply xleb_fin.
    assert (IT : is_dbl (XFin (B2R t))) by (exists t; exact (proj1 (is_finite_x t) Ft)). destruct (dbl_gen _ IT) as [_ M]. apply Rabs_le_inv in M. lra.
Qed.
End Ends.
