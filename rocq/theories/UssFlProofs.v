(** Proofs about Uss in binary64. *)
From Coq Require Import ZArith Reals List Bool Arith Lia Lra.
From Flocq Require Import Core IEEE754.BinarySingleNaN.
From Verif Require Import Base PyNum Kernel Spec Expr Arrays Construct SpecArray XReal XArith KernelProofs KernelMore KernelAlg ExprProofs ArrayProofs ArrayMore ArrayMat ConstructProofs KaucherProofs
  RecogFl SpecRecogFl RecogFlProofs RecogFlCor HbrFl HbrFlProofs RohnFl GSProofs UssFl SpecUssFl.
Import ListNotations.
Open Scope R_scope.

(** ** Rounding without overflow *)
Lemma round_fits z : Rabs z <= bpow radix2 1023 -> xround mode_NE z = XFin (rnd mode_NE z).
Proof.
  intro L. unfold xround. rewrite Rlt_bool_true; [reflexivity|]. eapply Rle_lt_trans; [|apply (bpow_lt radix2 1023 1024); lia].
  apply abs_round_le_generic; auto with typeclass_instances. apply generic_format_bpow. unfold SpecFloat.fexp, SpecFloat.emin. lia.
Qed.
Lemma fadd_fits f g a b : xflt f = XFin a -> xflt g = XFin b -> Rabs (a + b) <= bpow radix2 1023 ->
  xflt (fadd mode_NE f g) = XFin (rnd mode_NE (a + b)).
Proof. intros F G L. rewrite fadd_x, F, G. cbn [xadd]. now apply round_fits. Qed.
Lemma fsub_fits f g a b : xflt f = XFin a -> xflt g = XFin b -> Rabs (a - b) <= bpow radix2 1023 ->
  xflt (fsub mode_NE f g) = XFin (rnd mode_NE (a - b)).
Proof. intros F G L. rewrite fsub_x, F, G. unfold xsub. cbn [xopp xadd]. now apply round_fits. Qed.
Lemma fmul_fits f g a b : xflt f = XFin a -> xflt g = XFin b -> Rabs (a * b) <= bpow radix2 1023 ->
  xflt (fmul mode_NE f g) = XFin (rnd mode_NE (a * b)).
Proof. intros F G L. rewrite fmul_x, F, G. cbn [xmul]. now apply round_fits. Qed.
Lemma fin_x f a : xflt f = XFin a -> is_finite f = true /\ B2R f = a.
Proof.
  intro H. assert (is_finite f = true) by (destruct f as [s|[|]| |s m e P]; try discriminate; reflexivity). split; [assumption|].
  apply is_finite_x in H0. congruence.
Qed.
Lemma bpow_split a b : bpow radix2 (a + b) = bpow radix2 a * bpow radix2 b. Proof. apply bpow_plus. Qed.

(** ** Summing in order *)
Lemma lsum_app l l' : lsum (l ++ l') = lsum l + lsum l'.
Proof. unfold lsum. induction l as [|a l IH]; cbn [app fold_right]; lra. Qed.
Lemma lsum_abs l : Rabs (lsum l) <= lsum (map Rabs l).
Proof.
  induction l as [|a l IH]; cbn [map lsum fold_right]; [rewrite Rabs_R0; lra|]. fold (lsum l). fold (lsum (map Rabs l)).
  eapply Rle_trans; [apply Rabs_triang|]. lra.
Qed.
Lemma lsum_abs_nn l : 0 <= lsum (map Rabs l). Proof. eapply Rle_trans; [apply Rabs_pos | apply lsum_abs]. Qed.
Lemma seq_dot_run l : (Z.of_nat (length l) <= 2 ^ 20)%Z -> Forall (fun p => is_finite (fst p) = true /\ is_finite (snd p) = true) l ->
  lsum (map Rabs (products l)) <= bpow radix2 1000 ->
  xflt (seq_dot l) = XFin (B2R (seq_dot l)) /\
  Rabs (B2R (seq_dot l) - lsum (products l)) <= INR (length l) * bpow radix2 (-51) * lsum (map Rabs (products l)) + INR (length l) * bpow radix2 (-1073).
Proof.
  induction l as [|[f g] l IH] using rev_ind; intros Ln Fin B.
  { split; [reflexivity|]. cbn. rewrite Rminus_0_r, Rabs_R0. lra. }
  rewrite app_length in Ln |- *. cbn [length] in Ln |- *. apply Forall_app in Fin. destruct Fin as [Fin Fp]. inversion Fp as [|? ? [Ff Fg] _]; subst. cbn [fst snd] in Ff, Fg.
  unfold products in B |- *. rewrite map_app in B |- *. rewrite map_app in B. fold (products l) in B |- *. cbn [map fst snd] in B |- *. rewrite map_app.
  rewrite !lsum_app in *. cbn [map lsum fold_right] in *. fold (lsum (products l)) in *. fold (lsum (map Rabs (products l))) in *.
  set (t := B2R f * B2R g) in *. set (T := lsum (map Rabs (products l))) in *. set (s := lsum (products l)) in *.
  assert (T0 : 0 <= T) by apply lsum_abs_nn. assert (S1 : Rabs s <= T) by apply lsum_abs. assert (T1 := Rabs_pos t).
  destruct (IH ltac:(lia) Fin ltac:(lra)) as [X E]. clear IH.
  assert (SD : seq_dot (l ++ [(f, g)]) = fadd mode_NE (seq_dot l) (fmul mode_NE f g)) by (unfold seq_dot; now rewrite fold_left_app). rewrite SD. clear SD.
  set (c := B2R (seq_dot l)) in *. set (k := INR (length l)) in *.
  assert (K0 : 0 <= k) by apply pos_INR.
  assert (K1 : k + 1 <= 1048576).
  { unfold k. rewrite INR_IZR_INZ. change 1048576 with (IZR (2 ^ 20)). rewrite <- plus_IZR. apply IZR_le. lia. }
  assert (K2 : INR (length l + 1) = k + 1) by (rewrite plus_INR; reflexivity). rewrite K2.
  assert (U1 : bpow radix2 (-51) = 4 * bpow radix2 (-53)) by (change 4 with (bpow radix2 2); rewrite <- bpow_plus; f_equal).
  assert (U2 : bpow radix2 (-1073) = 4 * bpow radix2 (-1075)) by (change 4 with (bpow radix2 2); rewrite <- bpow_plus; f_equal).
  rewrite U1, U2 in *.
  assert (V0 : 0 < bpow radix2 (-53)) by apply bpow_gt_0. assert (W0 : 0 < bpow radix2 (-1075)) by apply bpow_gt_0.
  assert (V1 : 16777216 * bpow radix2 (-53) <= 1).
  { change 16777216 with (bpow radix2 24). rewrite <- bpow_plus. change 1 with (bpow radix2 0). apply bpow_le. lia. }
  assert (W1 : bpow radix2 (-1075) * 1048576 * 4 <= 1).
  { change 1048576 with (bpow radix2 20). change 4 with (bpow radix2 2). rewrite <- !bpow_plus. change 1 with (bpow radix2 0). apply bpow_le. lia. }
  set (u := bpow radix2 (-53)) in *. set (h := bpow radix2 (-1075)) in *.
  assert (B0 : 1 <= bpow radix2 1000) by (change 1 with (bpow radix2 0); apply bpow_le; lia).
  assert (B1 : 8 * bpow radix2 1000 <= bpow radix2 1023) by (change 8 with (bpow radix2 3); rewrite <- bpow_plus; apply bpow_le; lia).
  assert (Xf := proj1 (is_finite_x f) Ff). assert (Xg := proj1 (is_finite_x g) Fg).
  assert (Q := fmul_fits f g _ _ Xf Xg ltac:(fold t; lra)). fold t in Q.
  assert (Eq := nearest_err t). fold u h in Eq. set (q := rnd mode_NE t) in *.
  assert (KU : k * (4 * u) <= 1) by nra.
  assert (Kh : k * (4 * h) <= 1) by nra.
  assert (E' : Rabs (c - s) <= T + k * (4 * h)) by (eapply Rle_trans; [exact E|]; nra).
  assert (Tu : u * Rabs t <= Rabs t) by nra.
  assert (C1 : Rabs c <= 2 * T + k * (4 * h)).
  { replace c with (c - s + s) by ring. eapply Rle_trans; [apply Rabs_triang|]. lra. }
  assert (Q1 : Rabs q <= 2 * Rabs t + h).
  { replace q with (q - t + t) by ring. eapply Rle_trans; [apply Rabs_triang|]. lra. }
  assert (D : Rabs (c + q) <= 2 * T + 2 * Rabs t + k * (4 * h) + h) by (eapply Rle_trans; [apply Rabs_triang|]; lra).
  assert (A := fadd_fits _ _ _ _ X Q ltac:(lra)). destruct (fin_x _ _ A) as [_ Bv]. rewrite Bv. split; [exact A|].
  assert (Er := nearest_err (c + q)). fold u h in Er. set (v := rnd mode_NE (c + q)) in *.
  assert (G1 : u * Rabs (c + q) <= u * (2 * T + 2 * Rabs t + k * (4 * h) + h)) by (apply Rmult_le_compat_l; lra).
  assert (G2 : u * (k * (4 * h)) <= h / 4).
  { assert (u * k <= 1 / 16) by nra. replace (u * (k * (4 * h))) with (u * k * (4 * h)) by ring. apply Rle_trans with (1 / 16 * (4 * h)); [apply Rmult_le_compat_r; lra|lra]. }
  assert (G3 : u * h <= h) by nra.
  assert (R1 : u * (2 * T + 2 * Rabs t + k * (4 * h) + h) = 2 * (u * T) + 2 * (u * Rabs t) + u * (k * (4 * h)) + u * h) by ring.
  apply Rabs_le. apply Rabs_le_inv in E, Eq, Er.
  assert (P1 : 0 <= u * T) by (apply Rmult_le_pos; lra). assert (P2 : 0 <= u * Rabs t) by (apply Rmult_le_pos; lra).
  assert (P3 : 0 <= k * (4 * u) * Rabs t) by (apply Rmult_le_pos; [nra|lra]).
  assert (R2 : (k + 1) * (4 * u) * (T + (Rabs t + 0)) = k * (4 * u) * T + k * (4 * u) * Rabs t + 4 * (u * T) + 4 * (u * Rabs t)) by ring.
  rewrite R2. split; lra.
Qed.
Theorem seq_dot_within n : (Z.of_nat n <= 2 ^ 20)%Z -> dot_within seq_dot n (INR n * bpow radix2 (-51)) (INR n * bpow radix2 (-1073)).
Proof.
  intros Ln l Hl Fin B. subst n. destruct (seq_dot_run l Ln Fin B) as [X E]. split; [|exact E]. now apply is_finite_x.
Qed.

(** ** Sums *)
Lemma Rsum_le n f g : (forall k, (k < n)%nat -> f k <= g k) -> Rsum n f <= Rsum n g.
Proof. induction n as [|n IH]; intro H; cbn [Rsum]; [lra|]. assert (A := IH (fun k Hk => H k ltac:(lia))). assert (B := H n ltac:(lia)). lra. Qed.
Lemma Rsum_abs n f : Rabs (Rsum n f) <= Rsum n (fun k => Rabs (f k)).
Proof. induction n as [|n IH]; cbn [Rsum]; [rewrite Rabs_R0; lra|]. eapply Rle_trans; [apply Rabs_triang|]. lra. Qed.
Lemma Rsum_const n c : Rsum n (fun _ => c) = INR n * c.
Proof. induction n as [|n IH]; cbn [Rsum]; [simpl; ring|]. rewrite IH, S_INR. ring. Qed.
Lemma Rsum_nn n f : (forall k, (k < n)%nat -> 0 <= f k) -> 0 <= Rsum n f.
Proof. intro H. rewrite <- (Rsum_zero n). now apply Rsum_le. Qed.
Lemma Rsum_lsum n f : lsum (map f (seq 0 n)) = Rsum n f.
Proof. induction n as [|n IH]; [reflexivity|]. rewrite seq_S, map_app, lsum_app, IH. cbn [Rsum map lsum fold_right]. simpl. ring. Qed.

Lemma dot_row fdot n g h (u v : nat -> flt) : dot_within fdot n g h ->
  (forall k, (k < n)%nat -> is_finite (u k) = true /\ is_finite (v k) = true) ->
  Rsum n (fun k => Rabs (B2R (u k) * B2R (v k))) <= bpow radix2 1000 ->
  xflt (f_row fdot n u v) = XFin (B2R (f_row fdot n u v)) /\
  Rabs (B2R (f_row fdot n u v) - Rsum n (fun k => B2R (u k) * B2R (v k))) <= g * Rsum n (fun k => Rabs (B2R (u k) * B2R (v k))) + h.
Proof.
  intros H F B. unfold f_row. set (l := map (fun k => (u k, v k)) (seq 0 n)).
  assert (P1 : lsum (products l) = Rsum n (fun k => B2R (u k) * B2R (v k))).
  { unfold products, l. rewrite map_map. cbn [fst snd]. apply Rsum_lsum. }
  assert (P2 : lsum (map Rabs (products l)) = Rsum n (fun k => Rabs (B2R (u k) * B2R (v k)))).
  { unfold products, l. rewrite !map_map. cbn [fst snd]. apply Rsum_lsum. }
  destruct (H l) as [A E].
  - unfold l. now rewrite map_length, seq_length.
  - unfold l. apply Forall_map, Forall_forall. intros k Hk. apply in_seq in Hk. cbn [fst snd]. apply F. lia.
  - now rewrite P2.
  - rewrite P1, P2 in E. split; [now apply is_finite_x | exact E].
Qed.

(** ** Arrays of doubles *)
Lemma aget_F2 {A B} (R : A -> B -> Prop) (a : arr A) (b : arr B) idx x : ashape b = ashape a -> Forall2 R (adata a) (adata b) ->
  aget a idx = Some x -> exists y, aget b idx = Some y /\ R x y.
Proof.
  intros S F. unfold aget. rewrite S. destruct (flat (ashape a) idx) as [k|]; [|discriminate]. intro H. exact (Forall2_nth _ _ _ F k x H).
Qed.
Lemma keeps_f_of a : keeps_mode (f_of a).
Proof. unfold f_of, amapM. apply keeps_bind; [apply keeps_mapM; intro; apply keeps_lift|]. intro. apply keeps_ret. Qed.
Lemma f_of_run a m : (forall v, In v (adata a) -> exists f, to_double v = Ok f) ->
  exists y, returns (f_of a) m y /\ ashape y = ashape a /\ forall idx v, aget a idx = Some v -> to_double v = Ok (f_get y idx).
Proof.
  intro T. destruct (mapM_total (fun v => mlift (to_double v)) (adata a) m ltac:(intro; apply keeps_lift)) as [l Hl].
  { intros v Hv. destruct (T v Hv) as [f Hf]. exists f. unfold returns, outcome, mlift. now rewrite Hf. }
  exists (mkarr (ashape a) l). split; [|split; [reflexivity|]].
  - unfold f_of, amapM. rewrite keeps_returns by (apply keeps_mapM; intro; apply keeps_lift). exists l. split; [exact Hl|]. now apply returns_ret.
  - intros idx v Hv. apply mapM_returns in Hl; [|intro; apply keeps_lift].
    destruct (aget_F2 _ a (mkarr (ashape a) l) idx v eq_refl Hl Hv) as (f & Hf & R). unfold f_get. rewrite Hf.
    unfold returns, outcome, mlift in R. destruct (to_double v); [cbn [fst] in R; congruence | discriminate].
Qed.
Lemma doubles g X m : (forall e, keeps_mode (g e)) -> (forall e v, returns (g e) m v -> is_double v) -> adata (adat X) <> [] ->
  (forall e, In e (adata (adat X)) -> exists v, returns (g e) m v) ->
  exists a y, returns (vectorize_num g (adat X)) m a /\ returns (f_of a) m y /\ ashape y = ashape (adat X) /\
    forall idx e, aget (adat X) idx = Some e -> returns (g e) m (PFlt (f_get y idx)).
Proof.
  intros K D N T. destruct (double_fun_exact g X m K D N T) as (a & Ha & Sa & Fa).
  assert (DD : forall v, In v (adata a) -> exists f, to_double v = Ok f).
  { intros v Hv. apply In_nth_error in Hv. destruct Hv as [k Hk]. destruct (nth_error (adata (adat X)) k) as [e|] eqn:E.
    - destruct (Forall2_nth _ _ _ Fa k e E) as (v' & Hv' & R). assert (v' = v) by congruence. subst. destruct (D _ _ R) as [f ->]. now exists f.
    - exfalso. apply nth_error_None in E. rewrite (Forall2_len _ _ _ Fa) in E. apply nth_error_None in E. congruence. }
  destruct (f_of_run a m DD) as (y & Hy & Sy & Py).
  exists a, y. split; [exact Ha|]. split; [exact Hy|]. split; [congruence|]. intros idx e He.
  destruct (aget_F2 _ (adat X) a idx e Sa Fa He) as (v & Hv & R). specialize (Py idx v Hv). destruct (D _ _ R) as [f ->]. cbn [to_double] in Py. congruence.
Qed.

(** ** One equation in the reals *)
Definition mid_at (X : aitv) (idx : list nat) : R := match aget (adat X) idx with Some e => (num_val (lo e) + num_val (hi e)) / 2 | None => 0 end.
Definition rad_at (X : aitv) (idx : list nat) : R := match aget (adat X) idx with Some e => (num_val (hi e) - num_val (lo e)) / 2 | None => 0 end.
Definition val_at (x : arr pynum) (k : nat) : R := match aget x [k] with Some v => num_val v | None => 0 end.
Definition rho (X : aitv) (idx : list nat) : R := bpow radix2 (-52) * mag_at X idx + bpow radix2 (-1073).
Lemma abs_val x k : abs_at x k = Rabs (val_at x k).
Proof. unfold abs_at, val_at. destruct aget; [reflexivity | now rewrite Rabs_R0]. Qed.
Lemma abs_nn x k : 0 <= abs_at x k. Proof. rewrite abs_val. apply Rabs_pos. Qed.
Lemma magnitude_nn e : 0 <= magnitude e.
Proof. unfold magnitude. eapply Rle_trans; [apply (Rabs_pos (num_val (lo e)))|]. apply Rmax_l. Qed.
Lemma mag_nn X idx : 0 <= mag_at X idx.
Proof. unfold mag_at. destruct aget; [apply magnitude_nn | lra]. Qed.
Lemma mid_le_mag X idx : Rabs (mid_at X idx) <= mag_at X idx.
Proof.
  unfold mid_at, mag_at, magnitude. destruct aget as [e|]; [|rewrite Rabs_R0; lra].
  assert (A := Rmax_l (Rabs (num_val (lo e))) (Rabs (num_val (hi e)))). assert (B := Rmax_r (Rabs (num_val (lo e))) (Rabs (num_val (hi e)))).
  set (g := Rmax _ _) in *. apply Rabs_le. apply Rabs_le_inv in A, B. lra.
Qed.
Lemma rad_le_mag X idx : Rabs (rad_at X idx) <= mag_at X idx.
Proof.
  unfold rad_at, mag_at, magnitude. destruct aget as [e|]; [|rewrite Rabs_R0; lra].
  assert (A := Rmax_l (Rabs (num_val (lo e))) (Rabs (num_val (hi e)))). assert (B := Rmax_r (Rabs (num_val (lo e))) (Rabs (num_val (hi e)))).
  set (g := Rmax _ _) in *. apply Rabs_le. apply Rabs_le_inv in A, B. lra.
Qed.

(** The numbers numpy works with: finite, and close to the exact ones. *)
Lemma entry_close e f q : small_itv e -> proper_fin e -> magnitude e <= bpow radix2 400 ->
  returns (mid e) mode_NE (PFlt f) -> returns (rad e) mode_NE (PFlt q) ->
  xflt f = XFin (B2R f) /\ xflt q = XFin (B2R q) /\
  Rabs (B2R f - (num_val (lo e) + num_val (hi e)) / 2) + Rabs (B2R q - (num_val (hi e) - num_val (lo e)) / 2) <= rounding_margin e.
Proof.
  intros Se Pe Me Rf Rq. assert (Be : bounded_entry e).
  { unfold bounded_entry. eapply Rle_trans; [exact Me|]. apply bpow_le. lia. }
  destruct (mid_rad_margin e Se Pe Be) as (c & p & Hm & E). destruct (mid_rad_num _ _ _ _ _ _ Hm Rf Rq) as (Nf & Nq & Xf & Xq & _).
  cbn [num_val xval] in *. subst c p. repeat split; assumption.
Qed.
Lemma entry_total e : small_itv e -> proper_fin e -> magnitude e <= bpow radix2 400 ->
  (exists v, returns (mid e) mode_NE v) /\ exists v, returns (rad e) mode_NE v.
Proof.
  intros Se Pe Me. assert (Be : bounded_entry e).
  { unfold bounded_entry. eapply Rle_trans; [exact Me|]. apply bpow_le. lia. }
  destruct (mid_rad_margin e Se Pe Be) as (c & p & (vc & vr & A & B & _) & _). eauto.
Qed.

Section Rows.
Variables (fdot : list (flt * flt) -> flt) (g h : R) (r n : nat) (A b : aitv) (x : arr pynum).
Hypothesis HD : dot_within fdot n g h.
Hypothesis Hg : 0 <= g <= 1.
Hypothesis Hh : 0 <= h <= 1.
Hypothesis Hn : (Z.of_nat n <= 2 ^ 100)%Z.
Hypothesis SY : system r n A b x.
Hypothesis MO : moderate A b x.

(** Sum of the bounds on the absolute values of the computed products. *)
Definition big (i : nat) : R := Rsum n (fun k => (mag_at A [i; k] + rho A [i; k]) * abs_at x k).
(** The exact sides of the comparison. *)
Definition left_side (i : nat) : R := rad_at b [i] + Rsum n (fun k => rad_at A [i; k] * abs_at x k).
Definition right_side (i : nat) : R := mid_at b [i] - Rsum n (fun k => mid_at A [i; k] * val_at x k).
Definition slack (i : nat) : R := rho b [i] + Rsum n (fun k => rho A [i; k] * abs_at x k) + 2 * g * big i + 2 * h.

Lemma rho_nn X idx : 0 < rho X idx.
Proof. unfold rho. assert (P := bpow_gt_0 radix2 (-52)). assert (Q := bpow_gt_0 radix2 (-1073)). assert (M := mag_nn X idx). nra. Qed.
Lemma entryA i k : (i < r)%nat -> (k < n)%nat -> exists e, aget (adat A) [i; k] = Some e /\ small_itv e /\ proper_fin e /\ magnitude e <= bpow radix2 400.
Proof.
  intros Hi Hk. destruct SY as (_ & [CA WA] & SA & _). destruct MO as (MA & _). rewrite CA in SA.
  destruct (flat (ashape (adat A)) [i; k]) as [p|] eqn:E.
  - destruct (aget_some (adat A) [i; k] p WA E) as (e & He & _). exists e. split; [exact He|]. rewrite Forall_forall in MA. apply MA. eapply aget_in; eauto.
  - exfalso. rewrite SA in E. cbn [flat size] in E. destruct (Nat.ltb_spec i r); [|lia]. destruct (Nat.ltb_spec k n); [discriminate|lia].
Qed.
Lemma entryb i : (i < r)%nat -> exists e, aget (adat b) [i] = Some e /\ small_itv e /\ proper_fin e /\ magnitude e <= bpow radix2 400.
Proof.
  intros Hi. destruct SY as (_ & _ & _ & _ & [Cb Wb] & Sb & Fb & _). destruct MO as (_ & Mb & _). rewrite Cb in Sb.
  destruct (flat (ashape (adat b)) [i]) as [p|] eqn:E.
  - destruct (aget_some (adat b) [i] p Wb E) as (e & He & _). exists e. split; [exact He|]. rewrite Forall_forall in Mb, Fb. assert (I := aget_in _ _ _ He).
    destruct (Fb e I). auto.
  - exfalso. rewrite Sb in E. cbn [flat size] in E. destruct (Nat.ltb_spec i r); [discriminate|lia].
Qed.
Lemma pointx k : (k < n)%nat -> exists v, aget x [k] = Some v /\ small_num v /\ finite_num v /\ abs_at x k <= bpow radix2 400.
Proof.
  intros Hk. destruct SY as (_ & _ & _ & _ & _ & _ & _ & Wx & Sx & Fx). destruct MO as (_ & _ & Mx).
  destruct (flat (ashape x) [k]) as [p|] eqn:E.
  - destruct (aget_some x [k] p Wx E) as (v & Hv & _). exists v. split; [exact Hv|]. rewrite Forall_forall in Mx, Fx. assert (I := aget_in _ _ _ Hv).
    destruct (Fx v I). unfold abs_at. rewrite Hv. auto.
  - exfalso. rewrite Sx in E. cbn [flat size] in E. destruct (Nat.ltb_spec k n); [discriminate|lia].
Qed.
Lemma mag_small i k : (i < r)%nat -> (k < n)%nat -> mag_at A [i; k] + rho A [i; k] <= bpow radix2 402.
Proof.
  intros Hi Hk. destruct (entryA i k Hi Hk) as (e & He & _ & _ & M). unfold rho, mag_at. rewrite He.
  assert (P : bpow radix2 (-52) <= 1) by (change 1 with (bpow radix2 0); apply bpow_le; lia). assert (P0 := bpow_ge_0 radix2 (-52)).
  assert (Q : bpow radix2 (-1073) <= bpow radix2 400) by (apply bpow_le; lia).
  replace (bpow radix2 402) with (4 * bpow radix2 400) by (change 4 with (bpow radix2 2); rewrite <- bpow_plus; reflexivity).
  assert (0 <= magnitude e) by apply magnitude_nn. assert (bpow radix2 (-52) * magnitude e <= 1 * magnitude e) by (apply Rmult_le_compat_r; lra). lra.
Qed.
Lemma big_small i : (i < r)%nat -> 0 <= big i <= bpow radix2 902.
Proof.
  intro Hi. unfold big. split.
  - apply Rsum_nn. intros k _. assert (M := mag_nn A [i; k]). assert (Q := rho_nn A [i; k]). assert (X := abs_nn x k). nra.
  - apply Rle_trans with (Rsum n (fun _ => bpow radix2 802)).
    + apply Rsum_le. intros k Hk. destruct (pointx k Hk) as (v & _ & _ & _ & X). assert (M := mag_small i k Hi Hk).
      replace (bpow radix2 802) with (bpow radix2 402 * bpow radix2 400) by (rewrite <- bpow_plus; reflexivity).
      apply Rmult_le_compat; try assumption; [|apply abs_nn]. assert (M' := mag_nn A [i; k]). assert (Q := rho_nn A [i; k]). lra.
    + rewrite Rsum_const. replace (bpow radix2 902) with (bpow radix2 100 * bpow radix2 802) by (rewrite <- bpow_plus; reflexivity).
      apply Rmult_le_compat_r; [apply bpow_ge_0|]. rewrite INR_IZR_INZ. change (bpow radix2 100) with (IZR (2 ^ 100)). now apply IZR_le.
Qed.

(** One inner product of numpy. *)
Lemma one_dot (E u : nat -> R) i (fm fx : nat -> flt) : (i < r)%nat ->
  (forall k, (k < n)%nat -> xflt (fm k) = XFin (B2R (fm k)) /\ Rabs (B2R (fm k) - E k) <= u k /\ Rabs (E k) <= mag_at A [i; k] /\ u k <= rho A [i; k]) ->
  (forall k, (k < n)%nat -> xflt (fx k) = XFin (B2R (fx k)) /\ Rabs (B2R (fx k)) = abs_at x k) ->
  xflt (f_row fdot n fm fx) = XFin (B2R (f_row fdot n fm fx)) /\
  Rabs (B2R (f_row fdot n fm fx) - Rsum n (fun k => E k * B2R (fx k))) <= Rsum n (fun k => u k * abs_at x k) + g * big i + h.
Proof.
  intros Hi Hm Hx.
  assert (L : Rsum n (fun k => Rabs (B2R (fm k) * B2R (fx k))) <= big i).
  { unfold big. apply Rsum_le. intros k Hk. destruct (Hm k Hk) as (_ & C & B & V). destruct (Hx k Hk) as [_ X]. rewrite Rabs_mult, X.
    apply Rmult_le_compat_r; [apply abs_nn|]. replace (B2R (fm k)) with (B2R (fm k) - E k + E k) by ring.
    eapply Rle_trans; [apply Rabs_triang|]. lra. }
  destruct (big_small i Hi) as [B0 B1].
  destruct (dot_row fdot n g h fm fx HD) as [F Q].
  - intros k Hk. destruct (Hm k Hk) as (X1 & _). destruct (Hx k Hk) as [X2 _]. split; now apply is_finite_x.
  - eapply Rle_trans; [exact L|]. eapply Rle_trans; [exact B1|]. apply bpow_le. lia.
  - split; [exact F|].
    assert (D : Rabs (Rsum n (fun k => B2R (fm k) * B2R (fx k)) - Rsum n (fun k => E k * B2R (fx k))) <= Rsum n (fun k => u k * abs_at x k)).
    { replace (Rsum n (fun k => B2R (fm k) * B2R (fx k)) - Rsum n (fun k => E k * B2R (fx k))) with (Rsum n (fun k => (B2R (fm k) - E k) * B2R (fx k))).
      - eapply Rle_trans; [apply Rsum_abs|]. apply Rsum_le. intros k Hk. destruct (Hm k Hk) as (_ & C & _). destruct (Hx k Hk) as [_ X].
        rewrite Rabs_mult, X. apply Rmult_le_compat_r; [apply abs_nn | exact C].
      - replace (Rsum n (fun k => E k * B2R (fx k))) with (- (-1 * Rsum n (fun k => E k * B2R (fx k)))) by ring. rewrite Rsum_scal.
        unfold Rminus at 2. rewrite Ropp_involutive, <- Rsum_add. apply Rsum_ext. intros k _. ring. }
    assert (G : g * Rsum n (fun k => Rabs (B2R (fm k) * B2R (fx k))) <= g * big i) by (apply Rmult_le_compat_l; lra).
    set (d := B2R (f_row fdot n fm fx)) in *. apply Rabs_le_inv in Q, D. apply Rabs_le. lra.
Qed.

Lemma f_mv_get a y i : (i < r)%nat -> aget (f_mv fdot r n a y) [i] = Some (f_row fdot n (fun l => f_get a [i; l]) (fun l => f_get y [l])).
Proof. intro Hi. unfold f_mv. rewrite (of_fun_get [r] _ [i] i (flat_1 r i Hi)). reflexivity. Qed.
Lemma uss_rows w T : ashape w = [r] -> returns (uss_constituent_fl fdot A b x w) mode_NE T ->
  ashape T = [r] /\ awf T /\ (0 < r)%nat /\ forall i, (i < r)%nat -> exists wi ti d p z, aget w [i] = Some wi /\ aget T [i] = Some ti /\
    returns (mul_ wi (PFlt d)) mode_NE ti /\ xflt d = xsub mode_NE (XFin (rnd mode_NE p)) (XFin (Rabs (rnd mode_NE z))) /\
    is_dbl (XFin (rnd mode_NE p)) /\ is_dbl (XFin (Rabs (rnd mode_NE z))) /\
    Rabs (p - left_side i) + Rabs (z - right_side i) <= slack i.
Proof.
  intros Sw H. assert (SY' := SY). destruct SY' as (N0 & [CA WA] & SA & GA & [Cb Wb] & Sb & Fb & Wx & Sx & Fx).
  assert (MO' := MO). destruct MO' as (MA & Mb & Mx).
  unfold uss_constituent_fl in H. rewrite SA, Sx, Nat.eqb_refl in H. cbn [negb] in H. rewrite CA in SA. rewrite Cb in Sb.
  unfold arr_rad in H. rewrite keeps_returns in H by (apply keeps_vectorize_num, keeps_rad). destruct H as (q0 & Hq0 & H).
  rewrite keeps_returns in H by apply keeps_f_of. destruct H as (q & Hq & H).
  destruct (Nat.eq_dec r 0) as [R0|R0].
  { exfalso. assert (L : adata (adat b) = []) by (apply length_zero_iff_nil; rewrite Wb, Sb, R0; reflexivity).
    unfold returns, outcome, vectorize_num, vectorize, mbind in Hq0. rewrite L in Hq0. discriminate. }
  assert (Nb : adata (adat b) <> []) by (intro L; apply (f_equal (@length itv)) in L; rewrite Wb, Sb in L; simpl in L; lia).
  assert (NA : adata (adat A) <> []) by (intro L; apply (f_equal (@length itv)) in L; rewrite WA, SA in L; simpl in L; nia).
  assert (TB : forall e, In e (adata (adat b)) -> (exists v, returns (mid e) mode_NE v) /\ exists v, returns (rad e) mode_NE v).
  { intros e He. rewrite Forall_forall in Fb, Mb. destruct (Fb e He). apply entry_total; auto. }
  assert (TA : forall e, In e (adata (adat A)) -> (exists v, returns (mid e) mode_NE v) /\ exists v, returns (rad e) mode_NE v).
  { intros e He. rewrite Forall_forall in MA. destruct (MA e He) as (? & ? & ?). apply entry_total; auto. }
  destruct (doubles rad b mode_NE keeps_rad (fun e v => rad_double e mode_NE v) Nb (fun e He => proj2 (TB e He))) as (q0' & q' & Hq0' & Hq' & Sq & Pq).
  rewrite (ret_det _ _ _ _ Hq0 Hq0') in *. rewrite (ret_det _ _ _ _ Hq Hq') in *. clear q0 q Hq0 Hq.
  rewrite keeps_returns in H by (apply keeps_vectorize_num, keeps_rad). destruct H as (G0 & HG0 & H).
  rewrite keeps_returns in H by apply keeps_f_of. destruct H as (G & HG & H).
  destruct (doubles rad A mode_NE keeps_rad (fun e v => rad_double e mode_NE v) NA (fun e He => proj2 (TA e He))) as (G0' & G' & HG0' & HG' & SG & PG).
  rewrite (ret_det _ _ _ _ HG0 HG0') in *. rewrite (ret_det _ _ _ _ HG HG') in *. clear G0 G HG0 HG.
  rewrite keeps_returns in H by apply keeps_f_of. destruct H as (y & Hy & H).
  destruct (f_of_run x mode_NE) as (y' & Hy' & Sy & Py).
  { intros v Hv. rewrite Forall_forall in Fx. destruct (Fx v Hv) as [Sv _]. destruct (to_double_exact v (small_exact v Sv)) as (f & Hf & _). now exists f. }
  rewrite (ret_det _ _ _ _ Hy Hy') in *. clear y Hy.
  assert (KB : forall f (a c : arr flt), keeps_mode (f_bin f a c)) by (intros; apply keeps_binop_arr, f_op_keeps).
  rewrite keeps_returns in H by apply KB. destruct H as (s & Hs & H).
  unfold arr_mid in H. rewrite keeps_returns in H by (apply keeps_vectorize_num, keeps_mid). destruct H as (c0 & Hc0 & H).
  rewrite keeps_returns in H by apply keeps_f_of. destruct H as (c & Hc & H).
  destruct (doubles mid b mode_NE keeps_mid (fun e v => mid_double e mode_NE v) Nb (fun e He => proj1 (TB e He))) as (c0' & c' & Hc0' & Hc' & Sc & Pc).
  rewrite (ret_det _ _ _ _ Hc0 Hc0') in *. rewrite (ret_det _ _ _ _ Hc Hc') in *. clear c0 c Hc0 Hc.
  rewrite keeps_returns in H by (apply keeps_vectorize_num, keeps_mid). destruct H as (C0 & HC0 & H).
  rewrite keeps_returns in H by apply keeps_f_of. destruct H as (C & HC & H).
  destruct (doubles mid A mode_NE keeps_mid (fun e v => mid_double e mode_NE v) NA (fun e He => proj1 (TA e He))) as (C0' & C' & HC0' & HC' & SC & PC).
  rewrite (ret_det _ _ _ _ HC0 HC0') in *. rewrite (ret_det _ _ _ _ HC HC') in *. clear C0 C HC0 HC.
  rewrite keeps_returns in H by apply KB. destruct H as (d & Hd & H).
  rewrite keeps_returns in H by apply KB. destruct H as (u & Hu & H).
  rewrite Sb in Sq, Sc.
  destruct (binop_1 (f_op fadd) q' (f_mv fdot r n G' (amap fabs y')) mode_NE s r (f_op_keeps fadd) Sq eq_refl Hs) as (Ss & Ws & Ps).
  destruct (binop_1 (f_op fsub) c' (f_mv fdot r n C' y') mode_NE d r (f_op_keeps fsub) Sc eq_refl Hd) as (Sd & Wd & Pd).
  destruct (binop_1 (f_op fsub) s (amap fabs d) mode_NE u r (f_op_keeps fsub) Ss Sd Hu) as (Su & Wu & Pu).
  assert (Km : forall p p', keeps_mode (mul_ p p')) by (intros; apply keeps_prim).
  destruct (binop_1 mul_ w (amap PFlt u) mode_NE T r Km Sw Su H) as (ST & WT & PT).
  split; [exact ST|]. split; [exact WT|]. split; [lia|]. intros i Hi.
  destruct (Ps i Hi) as (q1 & g1 & s1 & A1 & A2 & A3 & A4). rewrite f_mv_get in A2 by exact Hi. inversion A2 as [A2']. clear A2.
  destruct (Pd i Hi) as (c1 & C1 & d1 & D1 & D2 & D3 & D4). rewrite f_mv_get in D2 by exact Hi. inversion D2 as [D2']. clear D2.
  destruct (Pu i Hi) as (s2 & d2 & u1 & U1 & U2 & U3 & U4). assert (s2 = s1) by congruence. subst s2. rewrite aget_map, D3 in U2. inversion U2; subst d2. clear U2.
  destruct (PT i Hi) as (wi & u2 & ti & T1 & T2 & T3 & T4). rewrite aget_map, U3 in T2. inversion T2; subst u2. clear T2.
  assert (E1 : s1 = fadd mode_NE q1 g1) by (unfold returns, outcome, f_op, mprim in A4; cbn [fst] in A4; congruence).
  assert (E2 : d1 = fsub mode_NE c1 C1) by (unfold returns, outcome, f_op, mprim in D4; cbn [fst] in D4; congruence).
  assert (E3 : u1 = fsub mode_NE s1 (fabs d1)) by (unfold returns, outcome, f_op, mprim in U4; cbn [fst] in U4; congruence).
  destruct (entryb i Hi) as (e & He & Se & Pe & Me).
  assert (Q1 := Pq [i] e He). assert (Q2 := Pc [i] e He). unfold f_get in Q1, Q2. rewrite A1 in Q1. rewrite D1 in Q2.
  destruct (entry_close e c1 q1 Se Pe Me Q2 Q1) as (Xc & Xq & Eb).
  (* the point *)
  assert (HX : forall k, (k < n)%nat -> xflt (f_get y' [k]) = XFin (B2R (f_get y' [k])) /\ B2R (f_get y' [k]) = val_at x k).
  { intros k Hk. destruct (pointx k Hk) as (v & Hv & Sv & Fv & _). assert (P := Py [k] v Hv). destruct (to_double_exact v (small_exact v Sv)) as (f & Hf & Vf).
    assert (f = f_get y' [k]) by congruence. subst f. apply finite_num_x in Fv. rewrite Fv in Vf. destruct (fin_x _ _ Vf) as [F1 F2].
    split; [congruence|]. unfold val_at. now rewrite Hv. }
  assert (HY : forall k, (k < n)%nat -> f_get (amap fabs y') [k] = fabs (f_get y' [k])).
  { intros k Hk. unfold f_get. rewrite aget_map. destruct (aget y' [k]); reflexivity. }
  assert (HF : forall k, (k < n)%nat -> exists e, aget (adat A) [i; k] = Some e /\ 
    xflt (f_get C' [i; k]) = XFin (B2R (f_get C' [i; k])) /\ xflt (f_get G' [i; k]) = XFin (B2R (f_get G' [i; k])) /\
    Rabs (B2R (f_get C' [i; k]) - mid_at A [i; k]) + Rabs (B2R (f_get G' [i; k]) - rad_at A [i; k]) <= rho A [i; k]).
  { intros k Hk. destruct (entryA i k Hi Hk) as (e' & He' & Se' & Pe' & Me'). exists e'. split; [exact He'|].
    destruct (entry_close e' _ _ Se' Pe' Me' (PC [i; k] e' He') (PG [i; k] e' He')) as (X1 & X2 & X3). split; [exact X1|]. split; [exact X2|].
    unfold mid_at, rad_at, rho, mag_at. rewrite He'. exact X3. }
  destruct (one_dot (fun k => rad_at A [i; k]) (fun k => Rabs (B2R (f_get G' [i; k]) - rad_at A [i; k])) i (fun k => f_get G' [i; k]) (fun k => f_get (amap fabs y') [k]) Hi) as [XG EG].
  { intros k Hk. destruct (HF k Hk) as (e' & _ & _ & X2 & X3). split; [exact X2|]. split; [apply Rle_refl|]. split; [apply rad_le_mag|].
    assert (P := Rabs_pos (B2R (f_get C' [i; k]) - mid_at A [i; k])). lra. }
  { intros k Hk. destruct (HX k Hk) as [X1 X2]. rewrite (HY k Hk).
    assert (X3 : xflt (fabs (f_get y' [k])) = XFin (Rabs (val_at x k))) by (rewrite xflt_abs, X1, X2; reflexivity).
    destruct (fin_x _ _ X3) as [_ X4]. rewrite X4. split; [exact X3|]. rewrite Rabs_Rabsolu. symmetry. apply abs_val. }
  destruct (one_dot (fun k => mid_at A [i; k]) (fun k => Rabs (B2R (f_get C' [i; k]) - mid_at A [i; k])) i (fun k => f_get C' [i; k]) (fun k => f_get y' [k]) Hi) as [XC EC].
  { intros k Hk. destruct (HF k Hk) as (e' & _ & X1 & X2 & X3). split; [exact X1|]. split; [apply Rle_refl|]. split; [apply mid_le_mag|].
    assert (P := Rabs_pos (B2R (f_get G' [i; k]) - rad_at A [i; k])). lra. }
  { intros k Hk. destruct (HX k Hk) as [X1 X2]. split; [exact X1|]. rewrite X2. symmetry. apply abs_val. }
  rewrite A2' in XG, EG. rewrite D2' in XC, EC.
  rewrite (Rsum_ext n _ (fun k => rad_at A [i; k] * abs_at x k)) in EG.
  2:{ intros k Hk. f_equal. rewrite (HY k Hk). destruct (HX k Hk) as [X1 X2].
      assert (X3 : xflt (fabs (f_get y' [k])) = XFin (Rabs (val_at x k))) by (rewrite xflt_abs, X1, X2; reflexivity).
      destruct (fin_x _ _ X3) as [_ X4]. rewrite X4. symmetry. apply abs_val. }
  rewrite (Rsum_ext n _ (fun k => mid_at A [i; k] * val_at x k)) in EC by (intros k Hk; now rewrite (proj2 (HX k Hk))).
  set (p := B2R q1 + B2R g1). set (z := B2R c1 - B2R C1).
  assert (SL : Rabs (p - left_side i) + Rabs (z - right_side i) <= slack i).
  { assert (L : Rsum n (fun k => Rabs (B2R (f_get G' [i; k]) - rad_at A [i; k]) * abs_at x k) + Rsum n (fun k => Rabs (B2R (f_get C' [i; k]) - mid_at A [i; k]) * abs_at x k)
        <= Rsum n (fun k => rho A [i; k] * abs_at x k)).
    { rewrite <- Rsum_add. apply Rsum_le. intros k Hk. destruct (HF k Hk) as (_ & _ & _ & _ & X3). rewrite <- Rmult_plus_distr_r.
      apply Rmult_le_compat_r; [apply abs_nn | lra]. }
    assert (Ebb : Rabs (B2R c1 - mid_at b [i]) + Rabs (B2R q1 - rad_at b [i]) <= rho b [i]).
    { unfold mid_at, rad_at, rho, mag_at. rewrite He. exact Eb. }
    unfold p, z, left_side, right_side, slack.
    set (s3 := Rsum n (fun k => rad_at A [i; k] * abs_at x k)) in *. set (s4 := Rsum n (fun k => mid_at A [i; k] * val_at x k)) in *.
    assert (V1 : Rabs (B2R q1 + B2R g1 - (rad_at b [i] + s3)) <= Rabs (B2R q1 - rad_at b [i]) + Rabs (B2R g1 - s3)).
    { replace (B2R q1 + B2R g1 - (rad_at b [i] + s3)) with ((B2R q1 - rad_at b [i]) + (B2R g1 - s3)) by ring. apply Rabs_triang. }
    assert (V2 : Rabs (B2R c1 - B2R C1 - (mid_at b [i] - s4)) <= Rabs (B2R c1 - mid_at b [i]) + Rabs (B2R C1 - s4)).
    { replace (B2R c1 - B2R C1 - (mid_at b [i] - s4)) with ((B2R c1 - mid_at b [i]) + - (B2R C1 - s4)) by ring. eapply Rle_trans; [apply Rabs_triang|]. rewrite Rabs_Ropp. lra. }
    lra. }
  (* no overflow *)
  destruct (big_small i Hi) as [B0 B1].
  assert (LS : Rabs (left_side i) <= bpow radix2 1001 /\ Rabs (right_side i) <= bpow radix2 1001 /\ slack i <= bpow radix2 1001).
  { assert (M1 := rad_le_mag b [i]). assert (M2 := mid_le_mag b [i]). assert (M3 : mag_at b [i] <= bpow radix2 400) by (unfold mag_at; rewrite He; exact Me).
    assert (M4 : Rabs (Rsum n (fun k => rad_at A [i; k] * abs_at x k)) <= big i).
    { eapply Rle_trans; [apply Rsum_abs|]. apply Rsum_le. intros k Hk. rewrite Rabs_mult, (Rabs_pos_eq (abs_at x k)) by apply abs_nn.
      apply Rmult_le_compat_r; [apply abs_nn|]. assert (Z1 := rad_le_mag A [i; k]). assert (Z2 := rho_nn A [i; k]). lra. }
    assert (M5 : Rabs (Rsum n (fun k => mid_at A [i; k] * val_at x k)) <= big i).
    { eapply Rle_trans; [apply Rsum_abs|]. apply Rsum_le. intros k Hk. rewrite Rabs_mult, <- abs_val.
      apply Rmult_le_compat_r; [apply abs_nn|]. assert (Z1 := mid_le_mag A [i; k]). assert (Z2 := rho_nn A [i; k]). lra. }
    assert (M6 : Rsum n (fun k => rho A [i; k] * abs_at x k) <= big i).
    { apply Rsum_le. intros k Hk. apply Rmult_le_compat_r; [apply abs_nn|]. assert (Z1 := mag_nn A [i; k]). lra. }
    assert (N1 : bpow radix2 400 <= bpow radix2 902) by (apply bpow_le; lia).
    assert (N2 : 8 * bpow radix2 902 <= bpow radix2 1001) by (change 8 with (bpow radix2 3); rewrite <- bpow_plus; apply bpow_le; lia).
    assert (N3 : rho b [i] <= bpow radix2 400 + 1).
    { unfold rho. assert (P : bpow radix2 (-52) <= 1) by (change 1 with (bpow radix2 0); apply bpow_le; lia). assert (P0 := bpow_ge_0 radix2 (-52)).
      assert (Q : bpow radix2 (-1073) <= 1) by (change 1 with (bpow radix2 0); apply bpow_le; lia). assert (Z1 := mag_nn b [i]).
      assert (bpow radix2 (-52) * mag_at b [i] <= 1 * mag_at b [i]) by (apply Rmult_le_compat_r; lra). lra. }
    assert (N4 : 3 <= bpow radix2 902) by (apply Rle_trans with (bpow radix2 2); [simpl; lra | apply bpow_le; lia]).
    unfold left_side, right_side, slack. split; [|split].
    - eapply Rle_trans; [apply Rabs_triang|]. lra.
    - unfold Rminus. eapply Rle_trans; [apply Rabs_triang|]. rewrite Rabs_Ropp. lra.
    - assert (g * big i <= 1 * big i) by (apply Rmult_le_compat_r; lra). lra. }
  destruct LS as (L1 & L2 & L3).
  assert (N5 : 2 * bpow radix2 1001 <= bpow radix2 1023) by (change 2 with (bpow radix2 1) at 1; rewrite <- bpow_plus; apply bpow_le; lia).
  assert (Ap := Rabs_pos (p - left_side i)). assert (Az := Rabs_pos (z - right_side i)).
  assert (Bp : Rabs p <= bpow radix2 1023).
  { replace p with (p - left_side i + left_side i) by ring. eapply Rle_trans; [apply Rabs_triang|]. lra. }
  assert (Bz : Rabs z <= bpow radix2 1023).
  { replace z with (z - right_side i + right_side i) by ring. eapply Rle_trans; [apply Rabs_triang|]. lra. }
  assert (Fs := fadd_fits q1 g1 _ _ Xq XG Bp). fold p in Fs. rewrite <- E1 in Fs.
  assert (Fd := fsub_fits c1 C1 _ _ Xc XC Bz). fold z in Fd. rewrite <- E2 in Fd.
  assert (Fa : xflt (fabs d1) = XFin (Rabs (rnd mode_NE z))) by (rewrite xflt_abs, Fd; reflexivity).
  exists wi, ti, u1, p, z. split; [exact T1|]. split; [exact T3|]. split; [exact T4|]. split; [rewrite E3, fsub_x, Fs, Fa; reflexivity|].
  split; [rewrite <- Fs; apply flt_dbl|]. split; [rewrite <- Fa; apply flt_dbl | exact SL].
Qed.
End Rows.

(** ** The margin *)
Lemma sums_close n A b x i : let S := mag_at b [i] + Rsum n (fun k => mag_at A [i; k] * abs_at x k) in let X := Rsum n (abs_at x) in
  big n A x i <= (1 + bpow radix2 (-52)) * S + bpow radix2 (-1073) * X /\
  rho b [i] + Rsum n (fun k => rho A [i; k] * abs_at x k) = bpow radix2 (-52) * S + bpow radix2 (-1073) * (1 + X) /\
  0 <= S /\ 0 <= X /\ Rabs (left_side n A b x i) <= S.
Proof.
  intros S X. assert (M := mag_nn b [i]).
  assert (M0 : 0 <= Rsum n (fun k => mag_at A [i; k] * abs_at x k)).
  { apply Rsum_nn. intros k _. apply Rmult_le_pos; [apply mag_nn | apply abs_nn]. }
  assert (Q : Rsum n (fun k => rho A [i; k] * abs_at x k) = bpow radix2 (-52) * Rsum n (fun k => mag_at A [i; k] * abs_at x k) + bpow radix2 (-1073) * X).
  { unfold X. rewrite !Rsum_scal, <- Rsum_add. apply Rsum_ext. intros k _. unfold rho. ring. }
  assert (P := bpow_gt_0 radix2 (-52)).
  split; [|split; [|split; [|split]]].
  - unfold big. rewrite (Rsum_ext n _ (fun k => mag_at A [i; k] * abs_at x k + rho A [i; k] * abs_at x k)) by (intros; ring).
    rewrite Rsum_add, Q. unfold S. set (p := bpow radix2 (-52)) in *. nra.
  - rewrite Q. unfold rho, S. ring.
  - unfold S. lra.
  - unfold X. apply Rsum_nn. intros. apply abs_nn.
  - unfold left_side, S. eapply Rle_trans; [apply Rabs_triang|]. apply Rplus_le_compat; [apply rad_le_mag|].
    eapply Rle_trans; [apply Rsum_abs|]. apply Rsum_le. intros k Hk. rewrite Rabs_mult, (Rabs_pos_eq (abs_at x k)) by apply abs_nn.
    apply Rmult_le_compat_r; [apply abs_nn | apply rad_le_mag].
Qed.
Lemma margin_covers g h n A b x i : 0 <= g <= 1 -> 0 <= h ->
  slack g h n A b x i + 3 * bpow radix2 (-53) * (Rabs (left_side n A b x i) + slack g h n A b x i) + 3 * bpow radix2 (-1075) <= uss_margin g h n A b x i /\
  0 <= slack g h n A b x i /\ slack g h n A b x i <= uss_margin g h n A b x i.
Proof.
  intros Hg Hh. destruct (sums_close n A b x i) as (B & R & S0 & X0 & L). unfold slack, uss_margin. 
  assert (B0 : 0 <= big n A x i).
  { apply Rsum_nn. intros k _. assert (M := mag_nn A [i; k]). assert (Q := rho_nn A [i; k]). assert (Y := abs_nn x k). nra. }
  set (S := mag_at b [i] + Rsum n (fun k => mag_at A [i; k] * abs_at x k)) in *. set (X := Rsum n (abs_at x)) in *.
  rewrite R. set (G := big n A x i) in *. set (l := Rabs (left_side n A b x i)) in *. assert (L0 : 0 <= l) by apply Rabs_pos.
  assert (E1 : bpow radix2 (-52) = 2 * bpow radix2 (-53)) by (change 2 with (bpow radix2 1); rewrite <- bpow_plus; reflexivity).
  assert (E2 : bpow radix2 (-49) = 16 * bpow radix2 (-53)) by (change 16 with (bpow radix2 4); rewrite <- bpow_plus; reflexivity).
  assert (E3 : bpow radix2 (-1073) = 4 * bpow radix2 (-1075)) by (change 4 with (bpow radix2 2); rewrite <- bpow_plus; reflexivity).
  assert (E4 : bpow radix2 (-1070) = 32 * bpow radix2 (-1075)) by (change 32 with (bpow radix2 5); rewrite <- bpow_plus; reflexivity).
  rewrite E1, E3 in *. rewrite E2, E4. assert (U0 := bpow_gt_0 radix2 (-53)). assert (T0 := bpow_gt_0 radix2 (-1075)).
  assert (U1 : 64 * bpow radix2 (-53) <= 1) by (change 64 with (bpow radix2 6); rewrite <- bpow_plus; change 1 with (bpow radix2 0); apply bpow_le; lia).
  set (u := bpow radix2 (-53)) in *. set (t := bpow radix2 (-1075)) in *. clear E1 E2 E3 E4 R.
  assert (GX : 0 <= t * X) by (apply Rmult_le_pos; lra). assert (GS : 0 <= g * S) by (apply Rmult_le_pos; lra). assert (US : 0 <= u * S) by (apply Rmult_le_pos; lra).
  (* g * G *)
  assert (P1 : g * G <= g * ((1 + 2 * u) * S + 4 * t * X)) by (apply Rmult_le_compat_l; lra).
  assert (P2 : g * (4 * t * X) <= 4 * (t * X)) by nra.
  assert (P3 : g * ((1 + 2 * u) * S) <= (1 + 1 / 32) * (g * S)) by nra.
  assert (P4 : g * G <= (1 + 1 / 32) * (g * S) + 4 * (t * X)) by (replace (g * ((1 + 2 * u) * S + 4 * t * X)) with (g * ((1 + 2 * u) * S) + g * (4 * t * X)) in P1 by ring; lra).
  assert (P0 : 0 <= g * G) by (apply Rmult_le_pos; lra).
  set (s := 2 * u * S + 4 * t * (1 + X) + 2 * g * G + 2 * h).
  assert (Sb : s <= 2 * (u * S) + 4 * t + 12 * (t * X) + (2 + 1 / 16) * (g * S) + 2 * h).
  { unfold s. replace (2 * g * G) with (2 * (g * G)) by ring. replace (4 * t * (1 + X)) with (4 * t + 4 * (t * X)) by ring. lra. }
  assert (Sn : 0 <= s).
  { unfold s. replace (2 * g * G) with (2 * (g * G)) by ring. replace (4 * t * (1 + X)) with (4 * t + 4 * (t * X)) by ring. lra. }
  assert (Us : u * s <= 1 / 64 * s) by nra.
  assert (Ul : u * l <= u * S) by (apply Rmult_le_compat_l; lra).
  replace ((3 * g + 16 * u) * S) with (3 * (g * S) + 16 * (u * S)) by ring. replace (32 * t * (1 + X)) with (32 * t + 32 * (t * X)) by ring.
  replace (3 * u * (l + s)) with (3 * (u * l) + 3 * (u * s)) by ring.
  split; [|split]; lra.
Qed.

(** ** What the value says *)
Lemma rnd_abs z : Rabs (rnd mode_NE z) = rnd mode_NE (Rabs z).
Proof. symmetry. exact (round_NE_abs radix2 fexp z). Qed.
Lemma rnd_mono a c : a <= c -> rnd mode_NE a <= rnd mode_NE c.
Proof. intro H. apply round_le; auto with typeclass_instances. Qed.
Lemma compare_pos p z : Rabs (rnd mode_NE z) <= rnd mode_NE p -> Rabs z <= p + 3 * bpow radix2 (-53) * Rabs p + 3 * bpow radix2 (-1075).
Proof.
  intro H. assert (Ep := nearest_err p). assert (Ez := nearest_err z).
  assert (U0 := bpow_gt_0 radix2 (-53)). assert (T0 := bpow_gt_0 radix2 (-1075)).
  assert (U1 : 64 * bpow radix2 (-53) <= 1) by (change 64 with (bpow radix2 6); rewrite <- bpow_plus; change 1 with (bpow radix2 0); apply bpow_le; lia).
  set (u := bpow radix2 (-53)) in *. set (t := bpow radix2 (-1075)) in *.
  assert (Z1 : Rabs z <= Rabs (rnd mode_NE z) + (u * Rabs z + t)).
  { assert (T := Rabs_triang (rnd mode_NE z) (z - rnd mode_NE z)). replace (rnd mode_NE z + (z - rnd mode_NE z)) with z in T by ring.
    rewrite Rabs_minus_sym in Ez. lra. }
  apply Rabs_le_inv in Ep. assert (Z0 := Rabs_pos z). assert (P0 := Rabs_pos p). assert (Pp := Rle_abs p).
  assert (Zp : Rabs z <= 2 * Rabs p + 4 * t).
  { assert (u * Rabs z <= 1 / 64 * Rabs z) by nra. assert (u * Rabs p <= 1 / 64 * Rabs p) by nra. lra. }
  assert (u * Rabs z <= u * (2 * Rabs p + 4 * t)) by (apply Rmult_le_compat_l; lra).
  assert (u * t <= 1 / 64 * t) by nra. replace (u * (2 * Rabs p + 4 * t)) with (2 * (u * Rabs p) + 4 * (u * t)) in H0 by ring. lra.
Qed.
Lemma left_nn r n A b x i : system r n A b x -> moderate A b x -> (i < r)%nat -> 0 <= left_side n A b x i /\ 0 <= rad_at b [i] /\ forall k, (k < n)%nat -> 0 <= rad_at A [i; k].
Proof.
  intros SY MO Hi. assert (Rb : 0 <= rad_at b [i]).
  { destruct (entryb r n A b x SY MO i Hi) as (e & He & _ & Pe & _). unfold rad_at. rewrite He. destruct Pe as [_ L]. lra. }
  assert (RA : forall k, (k < n)%nat -> 0 <= rad_at A [i; k]).
  { intros k Hk. destruct (entryA r n A b x SY MO i k Hi Hk) as (e & He & _ & Pe & _). unfold rad_at. rewrite He. destruct Pe as [_ L]. lra. }
  split; [|split; assumption]. unfold left_side. apply Rplus_le_le_0_compat; [exact Rb|]. apply Rsum_nn. intros k Hk. apply Rmult_le_pos; [now apply RA | apply abs_nn].
Qed.
(** The share of the radii to use in equation [i], and the matrix that does it. *)
Definition share (a c : R) : R := if Rle_dec (Rabs a) c then (if Req_EM_T c 0 then 0 else a / c) else if Rle_dec 0 a then 1 else -1.
Lemma share_ok a c d : 0 <= c -> 0 <= d -> Rabs a <= c + d -> -1 <= share a c <= 1 /\ Rabs (a - share a c * c) <= d.
Proof.
  intros Hc Hd H. unfold share. destruct (Rle_dec (Rabs a) c) as [L|L].
  - destruct (Req_EM_T c 0) as [E|E].
    + split; [lra|]. subst c. assert (P := Rabs_pos a). assert (a = 0) by (apply Rabs_eq_R0; lra). subst a. replace (0 - 0 * 0) with 0 by ring. rewrite Rabs_R0. lra.
    + replace (a / c * c) with a by (field; exact E). replace (a - a) with 0 by ring. rewrite Rabs_R0. split; [|lra]. apply Rabs_le_inv in L.
      assert (C : 0 < c) by lra. split; [apply Rmult_le_reg_r with c | apply Rmult_le_reg_r with c]; try assumption; unfold Rdiv; rewrite Rmult_assoc, Rinv_l by exact E; lra.
  - destruct (Rle_dec 0 a) as [N|N].
    + rewrite (Rabs_pos_eq a) in * by lra. split; [lra|]. apply Rabs_le. lra.
    + rewrite (Rabs_left a) in * by lra. split; [lra|]. apply Rabs_le. lra.
Qed.
Definition sign1 (v : R) : R := if Rle_dec 0 v then 1 else -1.
Lemma sign1_abs v : sign1 v * v = Rabs v.
Proof. unfold sign1. destruct (Rle_dec 0 v); [rewrite Rabs_pos_eq; lra | rewrite Rabs_left; lra]. Qed.
Lemma sign1_bound v : -1 <= sign1 v <= 1. Proof. unfold sign1. destruct Rle_dec; lra. Qed.
Definition pick (n : nat) (A b : aitv) (x : arr pynum) (i k : nat) : R :=
  mid_at A [i; k] + share (right_side n A b x i) (Rsum n (fun l => rad_at A [i; l] * abs_at x l)) * (sign1 (val_at x k) * rad_at A [i; k]).
Lemma pick_row n A b x i : row_value n (pick n A b x) x i =
  Rsum n (fun k => mid_at A [i; k] * val_at x k) + share (right_side n A b x i) (Rsum n (fun l => rad_at A [i; l] * abs_at x l)) * Rsum n (fun l => rad_at A [i; l] * abs_at x l).
Proof.
  unfold row_value, pick. set (s := share _ _). rewrite Rsum_scal, <- Rsum_add. apply Rsum_ext. intros k _. fold (val_at x k).
  rewrite abs_val, <- sign1_abs. ring.
Qed.
Lemma aget_2_lt {T} (a : arr T) p q i k v : ashape a = [p; q] -> aget a [i; k] = Some v -> (i < p)%nat /\ (k < q)%nat.
Proof.
  intros S H. unfold aget in H. rewrite S in H. cbn [flat size] in H. destruct (Nat.ltb_spec i p); [|discriminate]. destruct (Nat.ltb_spec k q); [tauto | discriminate].
Qed.

Lemma keeps_uss fdot A b x w : keeps_mode (uss_constituent_fl fdot A b x w).
Proof.
unfold uss_constituent_fl. destruct (shp A) as [|? [|? [|]]]; try (intro; reflexivity). destruct (ashape x) as [|? [|]]; try (intro; reflexivity).
    assert (KB : forall f (a c : arr flt), keeps_mode (f_bin f a c)) by (intros; apply keeps_binop_arr, f_op_keeps).
    repeat first [apply keeps_bind; [first [unfold arr_rad, arr_mid; apply keeps_vectorize_num; first [apply keeps_rad | apply keeps_mid] | apply keeps_f_of | apply KB] | intro]
      | destruct negb; [intro; reflexivity|] ].
    apply keeps_binop_arr. intros; apply keeps_prim.
Qed.

Theorem uss_fl_margin fdot g h r n A b x w t : dot_within fdot n g h -> 0 <= g <= 1 -> 0 <= h <= 1 -> (Z.of_nat n <= 2 ^ 100)%Z ->
  system r n A b x -> moderate A b x -> weights_from 1 r w ->
  returns (uss_value_fl fdot A b x w) mode_NE t -> num_le (PInt 0) t = true ->
  exists P, in_matrix A P /\ in_rhs_by b (uss_margin g h n A b x) (row_value n P x).
Proof.
  intros HD Hg Hh Hn SY MO (Ww & Sw & Fw) H Ht.
  unfold uss_value_fl in H. rewrite keeps_returns in H by apply keeps_uss. destruct H as (T & HT & H).
  unfold returns, outcome, mlift in H. cbn [fst] in H.
  destruct (uss_rows fdot g h r n A b x HD Hg Hh Hn SY MO w T Sw HT) as (ST & WT & R0 & PR).
  assert (Nt : is_nan_num t = false).
  { destruct (is_nan_num t) eqn:E; [|reflexivity]. exfalso. apply is_nan_num_x in E. rewrite num_le_x, E in Ht. discriminate. }
  destruct (np_min_spec T t H Nt) as [_ MIN].
  exists (pick n A b x). split.
  - intros i k e He. destruct SY as (_ & [CA WA] & SA & _). rewrite CA in SA. destruct (aget_2_lt _ _ _ _ _ _ SA He) as [Hi Hk].
    destruct MO as (MA & _). rewrite Forall_forall in MA. destruct (MA e (aget_in _ _ _ He)) as (_ & Pe & _). apply member_fin; [exact Pe|].
    unfold pick. set (s := share _ _).
    assert (S1 : -1 <= s <= 1).
    { unfold s, share. destruct Rle_dec as [L|L]; [|destruct Rle_dec; lra]. destruct (Req_EM_T _ 0) as [E|E]; [lra|]. apply Rabs_le_inv in L.
      set (c := Rsum n (fun l => rad_at A [i; l] * abs_at x l)) in *. assert (C : 0 < c) by lra.
      split; apply Rmult_le_reg_r with c; try assumption; unfold Rdiv; rewrite Rmult_assoc, Rinv_l by exact E; lra. }
    assert (S2 := sign1_bound (val_at x k)). assert (S3 : -1 <= s * sign1 (val_at x k) <= 1) by nra.
    rewrite <- Rmult_assoc. set (v := s * sign1 (val_at x k)) in *. unfold mid_at, rad_at. rewrite He. destruct Pe as [_ L]. nra.
  - intros i e He. assert (Hi : (i < r)%nat).
    { destruct SY as (_ & _ & _ & _ & [Cb _] & Sb & _). rewrite Cb in Sb. exact (aget_1_lt (adat b) r i e Sb He). }
    destruct (PR i Hi) as (wi & ti & d & p & z & Hwi & Hti & Rti & Xd & Dp & Dz & SL).
    destruct (MIN ti (aget_in _ _ _ Hti)) as [_ Lt].
    assert (L0 : xleb (XFin 0) (xval ti) = true).
    { rewrite num_le_x in Lt, Ht. eapply xleb_trans; [|exact Lt]. exact Ht. }
    rewrite Forall_forall in Fw. destruct (Fw wi (aget_in _ _ _ Hwi)) as (Swi & Fwi & W1).
    assert (Xt : xval ti = xmul mode_NE (XFin (num_val wi)) (xflt d)).
    { destruct (XArith.num_mul_x mode_NE wi (PFlt d) Swi I) as (t' & Ht' & _ & Xt'). unfold returns, outcome, mul_, mprim in Rti. cbn [fst] in Rti.
      rewrite Ht' in Rti. inversion Rti; subst t'. rewrite Xt'. apply finite_num_x in Fwi. now rewrite Fwi. }
    rewrite Xt in L0. apply mul_sign in L0; [|apply flt_dbl | exact W1]. rewrite Xd in L0. apply sub_sign in L0; [|assumption|assumption].
    apply compare_pos in L0. destruct (margin_covers g h n A b x i Hg (proj1 Hh)) as (MC & SN & _).
    destruct (left_nn r n A b x i SY MO Hi) as (LN & RB & RA). rewrite (Rabs_pos_eq (left_side n A b x i)) in MC by exact LN.
    assert (Ap := Rabs_pos (p - left_side n A b x i)). assert (Az := Rabs_pos (z - right_side n A b x i)).
    assert (Pl : p <= left_side n A b x i + Rabs (p - left_side n A b x i)) by (assert (Q := Rle_abs (p - left_side n A b x i)); lra).
    assert (Pa : Rabs p <= left_side n A b x i + slack g h n A b x i).
    { replace p with (p - left_side n A b x i + left_side n A b x i) at 1 by ring. eapply Rle_trans; [apply Rabs_triang|]. rewrite (Rabs_pos_eq (left_side n A b x i)) by exact LN. lra. }
    assert (Zr : Rabs (right_side n A b x i) <= Rabs z + Rabs (z - right_side n A b x i)).
    { replace (right_side n A b x i) with (z + - (z - right_side n A b x i)) at 1 by ring. eapply Rle_trans; [apply Rabs_triang|]. rewrite Rabs_Ropp. lra. }
    assert (U0 := bpow_gt_0 radix2 (-53)).
    assert (U2 : 3 * bpow radix2 (-53) * Rabs p <= 3 * bpow radix2 (-53) * (left_side n A b x i + slack g h n A b x i)) by (apply Rmult_le_compat_l; lra).
    assert (FIN : Rabs (right_side n A b x i) <= left_side n A b x i + uss_margin g h n A b x i) by lra.
    assert (T0 := bpow_gt_0 radix2 (-1075)).
    assert (UM : 0 <= uss_margin g h n A b x i).
    { assert (0 <= 3 * bpow radix2 (-53) * (left_side n A b x i + slack g h n A b x i)) by (apply Rmult_le_pos; lra). lra. }
    destruct (share_ok (right_side n A b x i) (Rsum n (fun l => rad_at A [i; l] * abs_at x l)) (rad_at b [i] + uss_margin g h n A b x i)) as [_ SH].
    + apply Rsum_nn. intros k Hk. apply Rmult_le_pos; [now apply RA | apply abs_nn].
    + lra.
    + unfold left_side in FIN. lra.
    + rewrite pick_row. assert (RS : right_side n A b x i = mid_at b [i] - Rsum n (fun k => mid_at A [i; k] * val_at x k)) by reflexivity.
      set (s := share (right_side n A b x i) (Rsum n (fun l => rad_at A [i; l] * abs_at x l)) * Rsum n (fun l => rad_at A [i; l] * abs_at x l)) in *.
      clearbody s. rewrite RS in SH. set (v := Rsum n (fun k => mid_at A [i; k] * val_at x k)) in *. clearbody v.
      apply Rabs_le_inv in SH. unfold mid_at, rad_at in SH. rewrite He in SH. lra.
Qed.

Theorem uss_fl_excludes fdot g h r n A b x w t : dot_within fdot n g h -> 0 <= g <= 1 -> 0 <= h <= 1 -> (Z.of_nat n <= 2 ^ 100)%Z ->
  system r n A b x -> moderate A b x -> weights_from 0 r w ->
  returns (uss_value_fl fdot A b x w) mode_NE t -> num_lt t (PInt 0) = true ->
  forall P, in_matrix A P -> ~ in_rhs_by b (fun i => - uss_margin g h n A b x i) (row_value n P x).
Proof.
  intros HD Hg Hh Hn SY MO (Ww & Sw & Fw) H Ht P HP IN.
  unfold uss_value_fl in H. rewrite keeps_returns in H by apply keeps_uss. destruct H as (T & HT & H).
  unfold returns, outcome, mlift in H. cbn [fst] in H.
  destruct (uss_rows fdot g h r n A b x HD Hg Hh Hn SY MO w T Sw HT) as (ST & WT & R0 & PR).
  assert (Nt : is_nan_num t = false).
  { destruct (is_nan_num t) eqn:E; [|reflexivity]. exfalso. apply is_nan_num_x in E. rewrite num_lt_x, E in Ht. discriminate. }
  destruct (np_min_spec T t H Nt) as [INT _]. apply In_nth_error in INT. destruct INT as [i Ei].
  assert (Hi : (i < r)%nat).
  { assert (L : (i < length (adata T))%nat) by (apply nth_error_Some; congruence). rewrite WT, ST in L. cbn [size] in L. lia. }
  destruct (PR i Hi) as (wi & ti & d & p & z & Hwi & Hti & Rti & Xd & Dp & Dz & SL).
  assert (ti = t) by (rewrite (aget_1 T r i ST Hi) in Hti; congruence). subst ti.
  rewrite Forall_forall in Fw. destruct (Fw wi (aget_in _ _ _ Hwi)) as (Swi & Fwi & W1).
  assert (Xt : xval t = xmul mode_NE (XFin (num_val wi)) (xflt d)).
  { destruct (XArith.num_mul_x mode_NE wi (PFlt d) Swi I) as (t' & Ht' & _ & Xt'). unfold returns, outcome, mul_, mprim in Rti. cbn [fst] in Rti.
    rewrite Ht' in Rti. inversion Rti; subst t'. rewrite Xt'. apply finite_num_x in Fwi. now rewrite Fwi. }
  assert (LT : p < Rabs z).
  { apply Rnot_le_lt. intro L. apply rnd_mono in L. rewrite <- rnd_abs in L.
    assert (D0 : xleb (XFin 0) (xflt d) = true) by (rewrite Xd; now apply sub_sign).
    assert (DP : xflt d <> XPInf).
    { intro Q. revert Xd. rewrite Q. unfold xsub. cbn [xopp xadd]. intro Xd.
      assert (B := xround_le_dbl mode_NE (rnd mode_NE p + - Rabs (rnd mode_NE z)) (rnd mode_NE p) Dp ltac:(assert (Y := Rabs_pos (rnd mode_NE z)); lra)).
      rewrite <- Xd in B. discriminate. }
    assert (Q := mul_sign_nn mode_NE (num_val wi) (xflt d) W1 D0 DP). rewrite <- Xt in Q. rewrite num_lt_x in Ht. change (xval (PInt 0)) with (XFin 0) in Ht.
    destruct (xval t) as [| | |v]; try discriminate. apply xleb_fin in Q. apply xltb_fin in Ht. lra. }
  destruct (margin_covers g h n A b x i Hg (proj1 Hh)) as (_ & SN & MC).
  destruct (left_nn r n A b x i SY MO Hi) as (LN & RB & RA).
  assert (Zr : Rabs z <= Rabs (right_side n A b x i) + Rabs (z - right_side n A b x i)).
  { replace z with (right_side n A b x i + (z - right_side n A b x i)) at 1 by ring. apply Rabs_triang. }
  assert (Pl : left_side n A b x i - Rabs (p - left_side n A b x i) <= p).
  { rewrite Rabs_minus_sym. assert (Q := Rle_abs (left_side n A b x i - p)). lra. }
  assert (FIN : left_side n A b x i - uss_margin g h n A b x i < Rabs (right_side n A b x i)) by lra.
  destruct (entryb r n A b x SY MO i Hi) as (e & He & _ & _ & _). specialize (IN i e He).
  assert (RV : Rabs (row_value n P x i - Rsum n (fun k => mid_at A [i; k] * val_at x k)) <= Rsum n (fun l => rad_at A [i; l] * abs_at x l)).
  { unfold row_value. fold (val_at x).
    replace (Rsum n (fun k => P i k * match aget x [k] with Some v => num_val v | None => 0 end) - Rsum n (fun k => mid_at A [i; k] * val_at x k))
      with (Rsum n (fun k => (P i k - mid_at A [i; k]) * val_at x k)).
    - eapply Rle_trans; [apply Rsum_abs|]. apply Rsum_le. intros k Hk. rewrite Rabs_mult, <- abs_val. apply Rmult_le_compat_r; [apply abs_nn|].
      destruct (entryA r n A b x SY MO i k Hi Hk) as (e' & He' & _ & Pe' & _). assert (M := HP i k e' He'). apply member_fin in M; [|exact Pe'].
      unfold mid_at, rad_at. rewrite He'. apply Rabs_le. lra.
    - replace (Rsum n (fun k => mid_at A [i; k] * val_at x k)) with (- (-1 * Rsum n (fun k => mid_at A [i; k] * val_at x k))) by ring. rewrite Rsum_scal.
      unfold Rminus at 2. rewrite Ropp_involutive, <- Rsum_add. apply Rsum_ext. intros k _. unfold val_at. ring. }
  revert FIN. apply Rle_not_lt.
  unfold left_side, right_side. set (v := Rsum n (fun k => mid_at A [i; k] * val_at x k)) in *. clearbody v. set (y := row_value n P x i) in *. clearbody y.
  set (q := Rsum n (fun l => rad_at A [i; l] * abs_at x l)) in *. clearbody q. unfold mid_at, rad_at. rewrite He. apply Rabs_le_inv in RV. apply Rabs_le. lra.
Qed.
