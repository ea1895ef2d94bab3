(** The printed form of a number is the nearest six-digit decimal. *)
From Coq Require Import ZArith Reals List Bool Ascii String Lia Lra Psatz.
From Flocq Require Import Core IEEE754.BinarySingleNaN.
From Verif Require Import Base PyNum Kernel Spec XReal XArith Repr SpecRepr.
Import ListNotations.
Open Scope Z_scope.

(** ** Decimal exponent *)
Lemma exp_up_spec fuel : forall num den, 0 < den -> den <= num -> num < den * 10 ^ Z.of_nat fuel ->
  let k := exp_up fuel num den in 0 <= k /\ den * 10 ^ k <= num < den * 10 ^ (k + 1).
Proof.
  induction fuel as [|f IH]; intros num den D L F; cbn [exp_up]; cbv zeta.
  - change (10 ^ Z.of_nat 0) with 1 in F. lia.
  - destruct (Z.ltb_spec num (10 * den)) as [H|H]; [change (10 ^ 0) with 1; change (10 ^ (0 + 1)) with 10; lia|].
    destruct (IH num (10 * den)) as (K & A & B); [lia | lia | |].
    + rewrite Nat2Z.inj_succ, Z.pow_succ_r in F by lia. nia.
    + set (k := exp_up f num (10 * den)) in *. clearbody k. split; [lia|]. replace (1 + k) with (Z.succ k) by lia. replace (Z.succ k + 1) with (Z.succ (k + 1)) by lia. rewrite !Z.pow_succ_r by lia. split; nia.
Qed.
Lemma exp_down_spec fuel : forall num den, 0 < num -> num < den -> den <= num * 10 ^ Z.of_nat fuel ->
  let k := exp_down fuel num den in 1 <= k /\ num * 10 ^ (k - 1) < den <= num * 10 ^ k.
Proof.
  induction fuel as [|f IH]; intros num den D L F; cbn [exp_down]; cbv zeta.
  - change (10 ^ Z.of_nat 0) with 1 in F. lia.
  - destruct (Z.leb_spec den (10 * num)) as [H|H]; [change (10 ^ (1 - 1)) with 1; change (10 ^ 1) with 10; lia|].
    destruct (IH (10 * num) den) as (K & A & B); [lia | lia | |].
    + rewrite Nat2Z.inj_succ, Z.pow_succ_r in F by lia. nia.
    + set (k := exp_down f (10 * num) den) in *. clearbody k. split; [lia|]. replace (1 + k - 1) with (Z.succ (k - 1)) by lia. replace (1 + k) with (Z.succ k) by lia. rewrite !Z.pow_succ_r by lia. split; nia.
Qed.
Lemma pow2_10 n : 0 <= n -> 2 ^ n <= 10 ^ n.
Proof. intro H. apply Z.pow_le_mono_l. lia. Qed.
Lemma fuel_ok a : 0 < a -> a < 10 ^ Z.of_nat (Z.to_nat (Z.log2 a + 1)).
Proof. intro H. assert (L := Z.log2_nonneg a). rewrite Z2Nat.id by lia. destruct (Z.log2_spec a H) as [_ B]. assert (P := pow2_10 (Z.log2 a + 1) ltac:(lia)). unfold Z.succ in B. lia. Qed.
Notation p10 := (powerRZ 10).
Lemma p10_pos k : (0 < p10 k)%R.
Proof. apply powerRZ_lt. lra. Qed.
Lemma p10_add a b : p10 (a + b) = (p10 a * p10 b)%R.
Proof. apply powerRZ_add. lra. Qed.
Lemma p10_Z k : 0 <= k -> p10 k = IZR (10 ^ k).
Proof. intro H. rewrite <- (Z2Nat.id k H). set (n := Z.to_nat k). clearbody n. rewrite <- pow_powerRZ. induction n as [|n IH]; [reflexivity|]. rewrite Nat2Z.inj_succ, Z.pow_succ_r, mult_IZR, <- IH by lia. reflexivity. Qed.
Lemma p10_0 : p10 0 = 1%R. Proof. reflexivity. Qed.
Lemma dec_exp_spec num den : 0 < num -> 0 < den -> let e := dec_exp num den in (p10 e <= IZR num / IZR den < p10 (e + 1))%R.
Proof.
  intros N D. cbv zeta. unfold dec_exp. assert (ND : (0 < IZR num)%R) by now apply IZR_lt. assert (DD : (0 < IZR den)%R) by now apply IZR_lt.
  assert (G : forall e, (p10 e * IZR den <= IZR num < p10 (e + 1) * IZR den)%R -> (p10 e <= IZR num / IZR den < p10 (e + 1))%R).
  { intros e [A B]. split; [apply Rmult_le_reg_r with (IZR den) | apply Rmult_lt_reg_r with (IZR den)]; try assumption; unfold Rdiv; rewrite Rmult_assoc, Rinv_l by lra; lra. }
  apply G. destruct (Z.leb_spec den num) as [L|L].
  - destruct (exp_up_spec (Z.to_nat (Z.log2 num + 1)) num den D L) as (K & A & B); [assert (F := fuel_ok num N); nia|].
    set (k := exp_up _ num den) in *. clearbody k. rewrite !p10_Z by lia. rewrite <- !mult_IZR. split; [apply IZR_le | apply IZR_lt]; lia.
  - destruct (exp_down_spec (Z.to_nat (Z.log2 den + 1)) num den N L) as (K & A & B); [assert (F := fuel_ok den D); nia|].
    set (k := exp_down _ num den) in *. clearbody k.
    assert (Q1 : (p10 (- k) * p10 k = 1)%R) by (rewrite <- p10_add; replace (- k + k) with 0 by lia; reflexivity).
    assert (Q2 : (p10 (- k + 1) * p10 (k - 1) = 1)%R) by (rewrite <- p10_add; replace (- k + 1 + (k - 1)) with 0 by lia; reflexivity).
    apply IZR_lt in A. apply IZR_le in B. rewrite mult_IZR, <- p10_Z in A, B by lia.
    assert (P1 := p10_pos (- k)). assert (P2 := p10_pos (- k + 1)). split.
    + apply Rle_trans with (p10 (- k) * (IZR num * p10 k))%R; [apply Rmult_le_compat_l; lra|]. replace (p10 (- k) * (IZR num * p10 k))%R with (p10 (- k) * p10 k * IZR num)%R by ring. rewrite Q1. lra.
    + apply Rle_lt_trans with (p10 (- k + 1) * (IZR num * p10 (k - 1)))%R; [replace (p10 (- k + 1) * (IZR num * p10 (k - 1)))%R with (p10 (- k + 1) * p10 (k - 1) * IZR num)%R by ring; rewrite Q2; lra|]. apply Rmult_lt_compat_l; lra.
Qed.
Lemma round_even_spec num den : 0 < den -> 0 <= num -> let n := round_even num den in
  2 * Z.abs (n * den - num) <= den /\ 0 <= n /\ (2 * Z.abs (n * den - num) = den -> Z.even n = true).
Proof.
  intros D N. cbv zeta. unfold round_even. assert (E := Z.div_mod num den ltac:(lia)). assert (B := Z.mod_pos_bound num den D). assert (Q := Z.div_pos num den N D).
  set (q := num / den) in *. set (r := num mod den) in *. clearbody q r.
  destruct (Z.ltb_spec (2 * r) den); [|destruct (Z.ltb_spec den (2 * r)); [|destruct (Z.even q) eqn:EQ]]; (split; [nia|]); (split; [nia|]); intro T; try (exfalso; nia); try exact EQ.
  rewrite Z.add_1_r, Z.even_succ, <- Z.negb_even, EQ. reflexivity.
Qed.

(** ** The six digits *)
(** [x] lies between 10^e and 10^(e+1); [n] is an integer nearest to x * 10^(5-e). *)
Lemma nearest_core x e n : (p10 e <= x)%R -> (Rabs (IZR n * p10 (e - 5) - x) <= / 2 * p10 (e - 5))%R ->
  (forall q, six_digits q -> (Rabs (IZR n * p10 (e - 5) - x) <= Rabs (q - x))%R) /\
  forall q, six_digits q -> q <> (IZR n * p10 (e - 5))%R -> Rabs (q - x) = Rabs (IZR n * p10 (e - 5) - x) -> (Rabs (IZR n * p10 (e - 5) - x) = / 2 * p10 (e - 5))%R.
Proof.
  intros X H. set (u := p10 (e - 5)) in *. assert (U : (0 < u)%R) by apply p10_pos.
  assert (E5 : (p10 e = 100000 * u)%R) by (unfold u; replace e with (5 + (e - 5)) at 1 by lia; rewrite p10_add; simpl (p10 5); lra).
  assert (M2 : forall z : Z, z <> n -> (u <= Rabs (IZR z * u - x) + Rabs (IZR n * u - x))%R).
  { intros z D. assert (C : (u <= Rabs (IZR z * u - IZR n * u))%R).
    { rewrite <- Rmult_minus_distr_r, Rabs_mult, (Rabs_pos_eq u) by lra. rewrite <- minus_IZR, <- abs_IZR. assert (1 <= IZR (Z.abs (z - n)))%R by (apply IZR_le; lia). nra. }
    replace (IZR z * u - IZR n * u)%R with ((IZR z * u - x) - (IZR n * u - x))%R in C by ring. assert (T := Rabs_triang (IZR z * u - x) (- (IZR n * u - x))). rewrite Rabs_Ropp in T. unfold Rminus in *. lra. }
  assert (M : forall z : Z, (Rabs (IZR n * u - x) <= Rabs (IZR z * u - x))%R).
  { intro z. destruct (Z.eq_dec z n) as [->|D]; [lra|]. specialize (M2 z D). lra. }
  assert (W : forall q, six_digits q -> (exists z, q = IZR z * u)%R \/ (q < p10 e)%R).
  { intros q (v & k & Bv & ->). destruct (Z_le_gt_dec (e - 5) k) as [L|L].
  - left. exists (v * 10 ^ (k - (e - 5))). symmetry. rewrite mult_IZR, <- p10_Z by lia. unfold u. rewrite Rmult_assoc, <- p10_add. do 2 f_equal. lia.
  - assert (Q : (IZR v * p10 k <= p10 e)%R).
    { assert (P0 := p10_pos k). apply Rle_trans with (1000000 * p10 k)%R; [apply Rmult_le_compat_r; [lra|]; apply IZR_le; lia|].
      replace (1000000 * p10 k)%R with (p10 (6 + k)) by (rewrite p10_add; simpl (p10 6); lra). destruct (Z.eq_dec (6 + k) e) as [->|D]; [lra|].
      replace e with ((6 + k) + (e - (6 + k))) by lia. rewrite (p10_add (6 + k)). assert (P1 := p10_pos (6 + k)). rewrite (p10_Z (e - (6 + k))) by lia. assert (1 <= IZR (10 ^ (e - (6 + k))))%R by (apply IZR_le; apply Z.pow_le_mono_r with (b := 0); lia). nra. }
    destruct Q as [Q|Q]; [now right|]. left. exists 100000. rewrite Q, E5. reflexivity. }
  assert (ME := M 100000). rewrite <- E5 in ME. split.
  - intros q Hq. destruct (W q Hq) as [[z ->]|L]; [apply M|]. eapply Rle_trans; [exact ME|]. rewrite (Rabs_left1 (p10 e - x)), Rabs_left1; lra.
  - intros q Hq NE T. destruct (W q Hq) as [[z ->]|L].
    + assert (D : z <> n) by (intros ->; apply NE; reflexivity). specialize (M2 z D). lra.
    + exfalso. rewrite (Rabs_left1 (p10 e - x)) in ME by lra. rewrite (Rabs_left1 (q - x)) in T by lra. lra.
Qed.

Lemma six_spec num den : 0 < num -> 0 < den -> let (n, k) := six num den in
  100000 <= n < 1000000 /\ nearest_six (IZR num / IZR den) (IZR n * p10 (k - 5)) /\ (k = dec_exp num den \/ k = dec_exp num den + 1).
Proof.
  intros N D. unfold six. assert (S := dec_exp_spec num den N D). cbv zeta in S. set (e := dec_exp num den) in *. clearbody e. cbv zeta.
  set (n := if 5 - e <? 0 then _ else _). set (x := (IZR num / IZR den)%R) in *.
  assert (DD : (0 < IZR den)%R) by now apply IZR_lt.
  assert (A : (Rabs (IZR n * p10 (e - 5) - x) <= / 2 * p10 (e - 5))%R /\ 0 <= n /\ ((Rabs (IZR n * p10 (e - 5) - x) = / 2 * p10 (e - 5))%R -> Z.even n = true)).
  { unfold n. assert (P := p10_pos (e - 5)). destruct (Z.ltb_spec (5 - e) 0) as [L|L].
    - assert (PZ : 0 < 10 ^ (e - 5)) by (apply Z.pow_pos_nonneg; lia). destruct (round_even_spec num (den * 10 ^ (e - 5)) ltac:(nia) ltac:(lia)) as (R1 & R2 & R3). set (r := round_even _ _) in *. clearbody r.
      set (u := p10 (e - 5)) in *.
      assert (EQ : (Rabs (IZR r * u - x) * (2 * IZR den) = IZR (2 * Z.abs (r * (den * 10 ^ (e - 5)) - num)))%R).
      { rewrite mult_IZR, abs_IZR, minus_IZR, !mult_IZR, <- p10_Z by lia. fold u.
        replace (IZR r * u - x)%R with ((IZR r * (IZR den * u) - IZR num) * / IZR den)%R by (unfold x; field; lra). rewrite Rabs_mult, (Rabs_pos_eq (/ IZR den)) by (apply Rlt_le, Rinv_0_lt_compat; lra). field. lra. }
      assert (DU : (IZR (den * 10 ^ (e - 5)) = IZR den * u)%R) by (rewrite mult_IZR, <- p10_Z by lia; reflexivity).
      split; [apply IZR_le in R1; rewrite <- EQ, DU in R1; nra|]. split; [exact R2|]. intro T. apply R3. apply eq_IZR. rewrite <- EQ, DU, T. lra.
    - assert (PZ : 0 < 10 ^ (5 - e)) by (apply Z.pow_pos_nonneg; lia). destruct (round_even_spec (num * 10 ^ (5 - e)) den D ltac:(nia)) as (R1 & R2 & R3). set (r := round_even _ _) in *. clearbody r.
      set (u := p10 (e - 5)) in *. assert (UV : (p10 (5 - e) * u = 1)%R) by (unfold u; rewrite <- p10_add; replace (5 - e + (e - 5)) with 0 by lia; reflexivity). set (v := p10 (5 - e)) in *.
      assert (EQ : (Rabs (IZR r * u - x) * (2 * IZR den) = u * IZR (2 * Z.abs (r * den - num * 10 ^ (5 - e))))%R).
      { rewrite mult_IZR, abs_IZR, minus_IZR, !mult_IZR, <- p10_Z by lia. fold v.
        replace (IZR r * u - x)%R with ((IZR r * IZR den - IZR num * v) * (u * / IZR den))%R by (unfold x; replace (IZR r * u - IZR num / IZR den)%R with (IZR r * u - (v * u) * (IZR num / IZR den))%R by (rewrite UV; ring); field; lra).
        assert (ID : (0 < / IZR den)%R) by (apply Rinv_0_lt_compat; lra). rewrite Rabs_mult, (Rabs_pos_eq (u * / IZR den)) by nra. field. lra. }
      split; [apply IZR_le in R1; apply Rmult_le_reg_r with (2 * IZR den)%R; [lra|]; rewrite EQ; nra|]. split; [exact R2|]. intro T. apply R3. apply eq_IZR. rewrite T in EQ. apply Rmult_eq_reg_l with u; [|lra]. rewrite <- EQ. lra. }
  destruct A as (A & N0 & AE). assert (U := p10_pos (e - 5)).
  assert (E5 : (p10 e = 100000 * p10 (e - 5))%R) by (replace e with (5 + (e - 5)) at 1 by lia; rewrite p10_add; simpl (p10 5); lra).
  assert (E6 : (p10 (e + 1) = 1000000 * p10 (e - 5))%R) by (replace (e + 1) with (6 + (e - 5)) at 1 by lia; rewrite p10_add; simpl (p10 6); lra).
  assert (B : 100000 <= n <= 1000000).
  { rewrite E5, E6 in S. set (u := p10 (e - 5)) in *. destruct S as [S1 S2]. unfold Rabs in A. split.
    - apply Z.lt_succ_r. apply lt_IZR. rewrite succ_IZR. destruct Rcase_abs in A; nra.
    - apply Z.lt_succ_r. apply lt_IZR. rewrite succ_IZR. destruct Rcase_abs in A; nra. }
  destruct (nearest_core x e n (proj1 S) A) as [C CT]. change (10 ^ 6) with 1000000. change (10 ^ 5) with 100000.
  destruct (Z.eqb_spec n 1000000) as [En|En].
  - split; [lia|]. split; [|now right]. rewrite En in C, CT. replace (IZR 100000 * p10 (e + 1 - 5))%R with (IZR 1000000 * p10 (e - 5))%R by (replace (e + 1 - 5) with (1 + (e - 5)) by lia; rewrite p10_add; simpl (p10 1); lra).
    assert (SD : (IZR 1000000 * p10 (e - 5) = IZR 100000 * p10 (e + 1 - 5))%R) by (replace (e + 1 - 5) with (1 + (e - 5)) by lia; rewrite p10_add; simpl (p10 1); lra).
    split; [|split; [exact C|]]; [exists 100000, (e + 1 - 5); split; [lia | exact SD]|]. intros q _ _ _. exists 100000, (e + 1 - 5). split; [lia|]. split; [reflexivity | exact SD].
  - split; [lia|]. split; [|now left]. split; [exists n, (e - 5); split; [lia | reflexivity]|]. split; [exact C|].
    intros q Hq NE T. exists n, (e - 5). split; [lia|]. split; [|reflexivity]. apply AE. exact (CT q Hq NE T).
Qed.

(** ** Reading digits *)
Definition isdig (d : Z) : Prop := 0 <= d <= 9.
Definition val (l : list Z) (v : Z) : Z := fold_left (fun v d => 10 * v + d) l v.
Lemma isdig_cases d : isdig d -> d = 0 \/ d = 1 \/ d = 2 \/ d = 3 \/ d = 4 \/ d = 5 \/ d = 6 \/ d = 7 \/ d = 8 \/ d = 9.
Proof. unfold isdig. lia. Qed.
Lemma digit_dig d : isdig d -> digit (dig d) = Some d.
Proof. intro H. apply isdig_cases in H. repeat (destruct H as [->|H]; [reflexivity|]). subst. reflexivity. Qed.
Lemma sign_dig d t : isdig d -> sign_of (String (dig d) t) = (1, String (dig d) t).
Proof. intro H. apply isdig_cases in H. repeat (destruct H as [->|H]; [reflexivity|]). subst. reflexivity. Qed.
Definition nodig (t : string) : Prop := match t with EmptyString => True | String c _ => digit c = None end.
Lemma leading_str l t : Forall isdig l -> nodig t -> forall v n, leading (str l ++ t) v n = (val l v, n + Z.of_nat (List.length l), t).
Proof.
  intros H T. induction H as [|d l Hd H IH]; intros v n.
  - cbn [str fold_right append val fold_left List.length]. replace (n + Z.of_nat 0) with n by lia. destruct t as [|c t]; [reflexivity|]. cbn [leading]. unfold nodig in T. now rewrite T.
  - change (str (d :: l) ++ t)%string with (String (dig d) (str l ++ t)). cbn [leading]. rewrite digit_dig by exact Hd. rewrite IH. cbn [val fold_left List.length]. rewrite Nat2Z.inj_succ. do 2 f_equal. lia.
Qed.
Lemma leading_str0 l : Forall isdig l -> forall v n, leading (str l) v n = (val l v, n + Z.of_nat (List.length l), EmptyString).
Proof. intros H v n. assert (E : (str l ++ "")%string = str l) by (clear; induction l as [|d l IH]; [reflexivity|]; change (str (d :: l) ++ "")%string with (String (dig d) (str l ++ "")); now rewrite IH). rewrite <- E. apply leading_str; [exact H | exact I]. Qed.
Lemma val_app l l' v : val (l ++ l') v = val l' (val l v).
Proof. apply fold_left_app. Qed.
Lemma val_zeros k v : val (repeat 0 k) v = v * 10 ^ Z.of_nat k.
Proof. revert v. induction k as [|k IH]; intro v; [cbn; lia|]. cbn [repeat val fold_left]. fold (val (repeat 0 k) (10 * v + 0)). rewrite IH, Nat2Z.inj_succ, Z.pow_succ_r by lia. ring. Qed.
Lemma val_digits k : forall n, 0 <= n < 10 ^ Z.of_nat k -> val (digits_of k n) 0 = n.
Proof.
  induction k as [|k IH]; intros n H; [change (10 ^ Z.of_nat 0) with 1 in H; cbn; lia|]. cbn [digits_of]. rewrite val_app. rewrite Nat2Z.inj_succ, Z.pow_succ_r in H by lia.
  rewrite IH; [cbn [val fold_left]; assert (E := Z.div_mod n 10 ltac:(lia)); lia|]. split; [apply Z.div_pos; lia | apply Z.div_lt_upper_bound; lia].
Qed.
Lemma digits_len k : forall n, List.length (digits_of k n) = k.
Proof. induction k as [|k IH]; intro n; [reflexivity|]. cbn [digits_of]. rewrite app_length, IH. simpl. lia. Qed.
Lemma digits_dig k : forall n, 0 <= n -> Forall isdig (digits_of k n).
Proof. induction k as [|k IH]; intros n H; [constructor|]. cbn [digits_of]. apply Forall_app. split; [apply IH; apply Z.div_pos; lia|]. constructor; [|constructor]. unfold isdig. assert (B := Z.mod_pos_bound n 10 ltac:(lia)). lia. Qed.
Lemma strip_spec l : exists j, l = (strip l ++ repeat 0 j)%list.
Proof.
  induction l as [|d l (j & IH)]; [now exists O|]. cbn [strip]. destruct (strip l) as [|s0 s] eqn:E.
  - destruct (Z.eqb_spec d 0) as [->|D]; [exists (S j) | exists j]; cbn [app repeat] in *; now rewrite IH at 1.
  - exists j. cbn [app] in *. now rewrite IH at 1.
Qed.

(** ** The layout is read back *)
Definition body (sg : Z) (s1 : string) : option (Z * Z) :=
  let '(v, n, s2) := leading s1 0 0 in
  let '(w, k, s3) := match s2 with String "." t => leading t v 0 | _ => (v, 0, s2) end in
  if n =? 0 then None else
  match s3 with
  | EmptyString => Some (sg * w, - k)
  | String "e" t =>
      let (sx, t1) := sign_of t in
      let '(x, j, t2) := leading t1 0 0 in
      match t2 with EmptyString => if j =? 0 then None else Some (sg * w, sx * x - k) | _ => None end
  | _ => None
  end.
Lemma literal_body s : literal s = let (sg, s1) := sign_of s in body sg s1.
Proof. reflexivity. Qed.
Lemma exponent_read e : Z.abs e < 1000 -> exists sx t1 x j, sign_of (exponent e) = (sx, t1) /\ leading t1 0 0 = (x, j, EmptyString) /\ 0 < j /\ sx * x = e.
Proof.
  intro H. unfold exponent. set (l := if Z.abs e <? 100 then _ else _).
  assert (L : Forall isdig l /\ val l 0 = Z.abs e /\ (0 < List.length l)%nat).
  { unfold l. destruct (Z.ltb_spec (Z.abs e) 100); (split; [apply digits_dig; lia|]); (split; [apply val_digits|rewrite digits_len; lia]); [change (10 ^ Z.of_nat 2) with 100 | change (10 ^ Z.of_nat 3) with 1000]; lia. }
  clearbody l. destruct L as (L1 & L2 & L3). destruct (Z.ltb_spec e 0).
  - exists (-1), (str l), (Z.abs e), (Z.of_nat (List.length l)). split; [reflexivity|]. rewrite leading_str0, L2 by exact L1. split; [now rewrite Z.add_0_l|]. lia.
  - exists 1, (str l), (Z.abs e), (Z.of_nat (List.length l)). split; [reflexivity|]. rewrite leading_str0, L2 by exact L1. split; [now rewrite Z.add_0_l|]. lia.
Qed.
Lemma body_int sg s1 v n : leading s1 0 0 = (v, n, EmptyString) -> 0 < n -> body sg s1 = Some (sg * v, 0).
Proof. intros L N. unfold body. rewrite L. destruct (Z.eqb_spec n 0); [lia | reflexivity]. Qed.
Lemma body_frac sg s1 v n u w k : leading s1 0 0 = (v, n, String "." u) -> 0 < n -> leading u v 0 = (w, k, EmptyString) -> body sg s1 = Some (sg * w, - k).
Proof. intros L N M. unfold body. rewrite L, M. destruct (Z.eqb_spec n 0); [lia | reflexivity]. Qed.
Lemma body_exp sg s1 v n e : leading s1 0 0 = (v, n, String "e" (exponent e)) -> 0 < n -> Z.abs e < 1000 -> body sg s1 = Some (sg * v, e).
Proof.
  intros L N E. destruct (exponent_read e E) as (sx & t1 & x & j & E1 & E2 & J & SX). unfold body. rewrite L. destruct (Z.eqb_spec n 0); [lia|]. rewrite E1, E2. destruct (Z.eqb_spec j 0); [lia|]. do 2 f_equal. lia.
Qed.
Lemma body_frac_exp sg s1 v n u w k e : leading s1 0 0 = (v, n, String "." u) -> 0 < n -> leading u v 0 = (w, k, String "e" (exponent e)) -> Z.abs e < 1000 -> body sg s1 = Some (sg * w, e - k).
Proof.
  intros L N M E. destruct (exponent_read e E) as (sx & t1 & x & j & E1 & E2 & J & SX). unfold body. rewrite L, M. destruct (Z.eqb_spec n 0); [lia|]. rewrite E1, E2. destruct (Z.eqb_spec j 0); [lia|]. do 2 f_equal. lia.
Qed.
Lemma str_app l l' t : (str (l ++ l') ++ t)%string = (str l ++ (str l' ++ t))%string.
Proof. induction l as [|d l IH]; [reflexivity|]. change (str ((d :: l) ++ l') ++ t)%string with (String (dig d) (str (l ++ l') ++ t)). now rewrite IH. Qed.
Lemma len_pos (ds : list Z) : ds <> [] -> 0 < Z.of_nat (List.length ds).
Proof. destruct ds; [congruence | simpl; lia]. Qed.
Lemma layout_reads ds p sg : Forall isdig ds -> ds <> [] -> -998 <= p <= 998 ->
  exists v k, body sg (layout ds p) = Some (sg * v, k) /\ (IZR v * p10 k = IZR (val ds 0) * p10 (p - Z.of_nat (List.length ds)))%R.
Proof.
  intros H N B. unfold layout. destruct ((p <=? -4) || (6 <? p)) eqn:C.
  - destruct ds as [|d ds]; [congruence|]. inversion H as [|? ? Hd Hds]; subst. cbn [firstn tl].
    assert (H1 : Forall isdig [d]) by (constructor; [exact Hd | constructor]). destruct ds as [|d' ds].
    + exists (val [d] 0), (p - 1). split; [|cbn [List.length]; do 2 f_equal; lia]. apply (body_exp sg _ (val [d] 0) 1); [|lia|lia].
      rewrite leading_str; [reflexivity | exact H1 | reflexivity].
    + exists (val (d :: d' :: ds) 0), (p - 1 - Z.of_nat (List.length (d' :: ds))). split; [|cbn [List.length]; do 2 f_equal; lia].
      apply (body_frac_exp sg _ (val [d] 0) 1 (str (d' :: ds) ++ "e" ++ exponent (p - 1))%string); [|lia| |lia].
      * rewrite leading_str; [reflexivity | exact H1 | reflexivity].
      * rewrite leading_str; [reflexivity | exact Hds | reflexivity].
  - apply orb_false_elim in C. destruct C as [C1 C2]. apply Z.leb_gt in C1. apply Z.ltb_ge in C2. destruct (Z.leb_spec p 0) as [P|P].
    + set (l := (repeat 0 (Z.to_nat (- p)) ++ ds)%list). assert (Hl : Forall isdig l) by (apply Forall_app; split; [apply Forall_forall; intros z Hz; apply repeat_spec in Hz; subst; unfold isdig; lia | exact H]).
      exists (val l 0), (- Z.of_nat (List.length l)). split.
      * apply (body_frac sg _ 0 1 (str l)); [reflexivity | lia|]. now rewrite leading_str0.
      * unfold l. rewrite val_app, val_zeros, app_length, repeat_length. do 2 f_equal. lia.
    + destruct (Z.leb_spec (Z.of_nat (List.length ds)) p) as [Q|Q].
      * set (l := (ds ++ repeat 0 (Z.to_nat p - List.length ds))%list). assert (Hl : Forall isdig l) by (apply Forall_app; split; [exact H | apply Forall_forall; intros z Hz; apply repeat_spec in Hz; subst; unfold isdig; lia]).
        exists (val l 0), 0. split.
        -- apply (body_int sg _ (val l 0) (Z.of_nat (List.length l))); [now rewrite leading_str0|]. unfold l. rewrite app_length. assert (T := len_pos ds N). lia.
        -- unfold l. rewrite val_app, val_zeros, mult_IZR, <- p10_Z by lia. rewrite p10_0, Rmult_1_r. do 2 f_equal. lia.
      * assert (F1 : Forall isdig (firstn (Z.to_nat p) ds) /\ Forall isdig (skipn (Z.to_nat p) ds)) by (apply Forall_app; now rewrite firstn_skipn). destruct F1 as [F1 F2].
        exists (val ds 0), (- Z.of_nat (List.length (skipn (Z.to_nat p) ds))). split.
        -- apply (body_frac sg _ (val (firstn (Z.to_nat p) ds) 0) (Z.of_nat (List.length (firstn (Z.to_nat p) ds))) (str (skipn (Z.to_nat p) ds))).
           ++ rewrite leading_str; [reflexivity | exact F1 | reflexivity].
           ++ rewrite firstn_length_le by lia. lia.
           ++ rewrite leading_str0 by exact F2. rewrite <- val_app, firstn_skipn. reflexivity.
        -- rewrite skipn_length. do 2 f_equal. lia.
Qed.
Lemma layout_first ds p : Forall isdig ds -> ds <> [] -> exists d t, isdig d /\ layout ds p = String (dig d) t.
Proof.
  intros H N. unfold layout. destruct ds as [|d ds]; [congruence|]. inversion H as [|? ? Hd Hds]; subst. destruct ((p <=? -4) || (6 <? p)); [cbn; eauto|].
  destruct (Z.leb_spec p 0); [exists 0; eexists; split; [unfold isdig; lia | reflexivity]|]. destruct (Z.of_nat (List.length (d :: ds)) <=? p); [cbn; eauto|]. destruct (Z.to_nat p) eqn:E; [lia|]. cbn. eauto.
Qed.

(** ** Positive doubles *)
Lemma strip_six n : 100000 <= n < 1000000 -> let ds := strip (digits_of 6 n) in Forall isdig ds /\ ds <> [] /\ (List.length ds <= 6)%nat /\ IZR n = (IZR (val ds 0) * p10 (6 - Z.of_nat (List.length ds)))%R.
Proof.
  intro B. cbv zeta. destruct (strip_spec (digits_of 6 n)) as (j & E). set (ds := strip (digits_of 6 n)) in *. clearbody ds.
  assert (V := val_digits 6 n ltac:(change (10 ^ Z.of_nat 6) with 1000000; lia)). assert (F := digits_dig 6 n ltac:(lia)). assert (L := digits_len 6 n). rewrite E in V, F, L. rewrite app_length, repeat_length in L. apply Forall_app in F. rewrite val_app, val_zeros in V.
  split; [apply F|]. split; [intros ->; cbn in V; lia|]. split; [lia|]. rewrite <- V, mult_IZR, <- p10_Z by lia. do 2 f_equal. lia.
Qed.
Lemma dec_exp_bounds m e : (-1074 <= e <= 971) -> Zpos m < 2 ^ 53 -> -990 <= dec_exp (if 0 <=? e then Zpos m * 2 ^ e else Zpos m) (if 0 <=? e then 1 else 2 ^ (- e)) <= 990.
Proof.
  intros He Hm. set (num := if 0 <=? e then _ else _). set (den := if 0 <=? e then 1 else _).
  assert (P2 : forall k, 0 <= k -> 0 < 2 ^ k) by (intros; apply Z.pow_pos_nonneg; lia).
  assert (B : 0 < num < 2 ^ 1024 /\ 0 < den <= 2 ^ 1074).
  { unfold num, den. destruct (Z.leb_spec 0 e) as [L|L].
    - split; [|split; [lia|]; apply Z.lt_le_incl; apply Z.pow_gt_1; lia]. assert (A := P2 e L). split; [nia|]. replace (2 ^ 1024) with (2 ^ 53 * 2 ^ 971) by reflexivity. assert (C := Z.pow_le_mono_r 2 e 971 ltac:(lia) ltac:(lia)). nia.
    - assert (C := Z.pow_le_mono_r 2 (- e) 1074 ltac:(lia) ltac:(lia)). assert (A := P2 (- e) ltac:(lia)). split; [|lia]. split; [lia|]. eapply Z.lt_trans; [exact Hm|]. apply Z.pow_lt_mono_r; lia. }
  clearbody num den. destruct B as [[N1 N2] [D1 D2]]. unfold dec_exp. destruct (Z.leb_spec den num) as [L|L].
  - destruct (exp_up_spec (Z.to_nat (Z.log2 num + 1)) num den D1 L) as (K & A & _); [assert (F := fuel_ok num N1); nia|]. set (k := exp_up _ num den) in *. clearbody k. split; [lia|].
    destruct (Z_le_gt_dec k 990) as [|G]; [assumption|]. exfalso. assert (C := Z.pow_le_mono_r 10 990 k ltac:(lia) ltac:(lia)). assert (E : 2 ^ 1024 < 10 ^ 990) by (vm_compute; reflexivity). nia.
  - destruct (exp_down_spec (Z.to_nat (Z.log2 den + 1)) num den N1 L) as (K & A & _); [assert (F := fuel_ok den D1); nia|]. set (k := exp_down _ num den) in *. clearbody k. split; [|lia].
    destruct (Z_le_gt_dec k 990) as [|G]; [lia|]. exfalso. assert (C := Z.pow_le_mono_r 10 989 (k - 1) ltac:(lia) ltac:(lia)). assert (E : 2 ^ 1074 < 10 ^ 989) by (vm_compute; reflexivity). nia.
Qed.
Lemma fmt_pos_reads m e sg : (-1074 <= e <= 971) -> Zpos m < 2 ^ 53 ->
  exists v k r, body sg (fmt_pos m e) = Some (sg * v, k) /\ r = (IZR v * p10 k)%R /\ nearest_six (F2R (Float radix2 (Zpos m) e)) r.
Proof.
  intros He Hm. unfold fmt_pos. assert (DB := dec_exp_bounds m e He Hm). set (num := if 0 <=? e then _ else _) in *. set (den := if 0 <=? e then 1 else _) in *.
  assert (NP : 0 < num) by (unfold num; destruct (Z.leb_spec 0 e); [assert (0 < 2 ^ e) by (apply Z.pow_pos_nonneg; lia); nia | lia]). assert (DP : 0 < den) by (unfold den; destruct (Z.leb_spec 0 e); [lia | apply Z.pow_pos_nonneg; lia]).
  assert (X : F2R (Float radix2 (Zpos m) e) = (IZR num / IZR den)%R).
  { unfold F2R. cbn [Defs.Fnum Defs.Fexp]. unfold num, den. destruct (Z.leb_spec 0 e) as [L|L].
    - rewrite mult_IZR. rewrite <- (IZR_Zpower radix2 e L). simpl. field.
    - replace e with (- - e) at 1 by lia. rewrite bpow_opp, <- (IZR_Zpower radix2 (- e)) by lia. reflexivity. }
  assert (S := six_spec num den NP DP). destruct (six num den) as [n k]. destruct S as (B & NS & KE). destruct (strip_six n B) as (F & NE & LE & VE). set (ds := strip (digits_of 6 n)) in *.
  destruct (layout_reads ds (k + 1) sg F NE ltac:(lia)) as (v & j & RB & RV). exists v, j, (IZR v * p10 j)%R. split; [exact RB|]. split; [reflexivity|]. rewrite X, RV.
  replace (IZR (val ds 0) * p10 (k + 1 - Z.of_nat (List.length ds)))%R with (IZR n * p10 (k - 5))%R; [exact NS|]. rewrite VE, Rmult_assoc, <- p10_add. do 2 f_equal. lia.
Qed.
Lemma fmt_pos_first m e : exists d t, isdig d /\ fmt_pos m e = String (dig d) t.
Proof.
  unfold fmt_pos. set (num := if 0 <=? e then _ else _) in *. set (den := if 0 <=? e then 1 else _) in *.
  assert (NP : 0 < num) by (unfold num; destruct (Z.leb_spec 0 e); [assert (0 < 2 ^ e) by (apply Z.pow_pos_nonneg; lia); nia | lia]). assert (DP : 0 < den) by (unfold den; destruct (Z.leb_spec 0 e); [lia | apply Z.pow_pos_nonneg; lia]).
  assert (S := six_spec num den NP DP). destruct (six num den) as [n k]. destruct S as (B & _). destruct (strip_six n B) as (F & NE & _). now apply layout_first.
Qed.
Lemma six_opp r : six_digits r -> six_digits (- r).
Proof. intros (v & k & B & ->). exists (- v), k. split; [lia|]. rewrite opp_IZR. ring. Qed.
Lemma nearest_opp x r : nearest_six x r -> nearest_six (- x) (- r).
Proof.
  intros (A & B & T). assert (E1 : (- r - - x = - (r - x))%R) by ring. assert (E2 : forall q, (q - - x = - (- q - x))%R) by (intro; ring).
  split; [now apply six_opp|]. split; [intros q Hq; specialize (B (- q)%R (six_opp q Hq)); rewrite E1, E2, !Rabs_Ropp; exact B|].
  intros q Hq NE HT. rewrite E1, E2, !Rabs_Ropp in HT. destruct (T (- q)%R (six_opp q Hq)) as (v & k & Bv & Ev & ->); [intro Z; apply NE; rewrite <- Z; ring | exact HT|].
  exists (- v), k. split; [lia|]. split; [now rewrite Z.even_opp|]. rewrite opp_IZR. ring.
Qed.
(** Every finite double prints as a decimal literal of a nearest six-digit number. *)
Lemma fmt_reads f : is_finite f = true -> exists r, reads (fmt f) r /\ nearest_six (B2R f) r.
Proof.
  destruct f as [s|s| |s m e E]; try discriminate; intros _.
  - exists 0%R. split; [destruct s; [exists 0, 0 | exists 0, 0]; (split; [reflexivity | lra])|]. cbn [B2R]. split; [exists 0, 0; split; [lia | lra]|]. split; [intros q _; rewrite Rminus_0_r, Rabs_R0; apply Rabs_pos|].
    intros q _ NE T. rewrite !Rminus_0_r, Rabs_R0 in T. exfalso. apply NE. unfold Rabs in T. destruct Rcase_abs in T; lra.
  - assert (BB : (-1074 <= e <= 971) /\ Zpos m < 2 ^ 53).
    { apply andb_prop in E. destruct E as [E1 E2]. apply Zeq_bool_eq in E1. apply Z.leb_le in E2. unfold SpecFloat.fexp, SpecFloat.emin in *. rewrite Digits.Zpos_digits2_pos in E1. assert (D := Digits.Zdigits_correct radix2 (Zpos m)). split; [lia|].
      assert (DL : Digits.Zdigits radix2 (Zpos m) <= 53) by lia. assert (P := Z.pow_le_mono_r 2 (Digits.Zdigits radix2 (Zpos m)) 53 ltac:(lia) DL). change (Zpower radix2 (Digits.Zdigits radix2 (Zpos m))) with (2 ^ (Digits.Zdigits radix2 (Zpos m))) in D. lia. }
    destruct BB as [B1 B2]. destruct (fmt_pos_first m e) as (d & t & Hd & FE). cbn [fmt B2R]. destruct s; cbn [append cond_Zopp].
    + destruct (fmt_pos_reads m e (-1) B1 B2) as (v & k & r & RB & -> & NS). exists (- (IZR v * p10 k))%R. split.
      * exists (-1 * v), k. split; [rewrite literal_body; exact RB|]. rewrite mult_IZR. ring.
      * change (Z.neg m) with (- Z.pos m). rewrite F2R_Zopp. now apply nearest_opp.
    + destruct (fmt_pos_reads m e 1 B1 B2) as (v & k & r & RB & -> & NS). exists (IZR v * p10 k)%R. split; [|exact NS].
      exists (1 * v), k. split; [rewrite literal_body, FE, sign_dig by exact Hd; rewrite <- FE; exact RB | rewrite mult_IZR; ring].
Qed.
Lemma nearest_mono x y a b : nearest_six x a -> nearest_six y b -> (x < y)%R -> (a <= b)%R.
Proof.
  intros (A1 & A2 & _) (B1 & B2 & _) L. destruct (Rle_dec a b) as [|D]; [assumption|]. exfalso. specialize (A2 b B1). specialize (B2 a A1). unfold Rabs in *. repeat destruct Rcase_abs in A2; repeat destruct Rcase_abs in B2; lra.
Qed.
Lemma nearest_exact x a : nearest_six x a -> six_digits x -> a = x.
Proof. intros (_ & B & _) S. specialize (B x S). replace (x - x)%R with 0%R in B by ring. rewrite Rabs_R0 in B. unfold Rabs in B. destruct Rcase_abs; lra. Qed.

(** ** Intervals *)
Lemma exact_double x : exact_num x -> finite_num x -> exists f, to_double x = Ok f /\ is_finite f = true /\ B2R f = num_val x.
Proof.
  intros E F. destruct (to_double_exact x E) as (f & H1 & H2). exists f. split; [exact H1|]. apply finite_num_x in F. rewrite F in H2. assert (Ff : is_finite f = true) by (destruct f as [|[]| |]; simpl in *; congruence). split; [exact Ff|].
  apply is_finite_x in Ff. rewrite Ff in H2. now injection H2.
Qed.
Lemma repr_finite X : exact_num (lo X) -> exact_num (hi X) -> finite_itv X ->
  exists s t a b, repr X = Ok ("'[" ++ s ++ ", " ++ t ++ "]'")%string /\ reads s a /\ reads t b /\ nearest_six (num_val (lo X)) a /\ nearest_six (num_val (hi X)) b.
Proof.
  intros E1 E2 [F1 F2]. destruct (exact_double _ E1 F1) as (f & Tf & Ff & Vf). destruct (exact_double _ E2 F2) as (g & Tg & Fg & Vg). destruct (fmt_reads f Ff) as (a & R1 & N1). destruct (fmt_reads g Fg) as (b & R2 & N2).
  exists (fmt f), (fmt g), a, b. split; [unfold repr, fmt_num; rewrite Tf; cbn [rbind]; rewrite Tg; reflexivity|]. rewrite Vf in N1. rewrite Vg in N2. auto.
Qed.
Lemma reads_unique s a b : reads s a -> reads s b -> a = b.
Proof. intros (v & k & E & ->) (v' & k' & E' & ->). congruence. Qed.
(** The same text for equal endpoints, so the order is kept also then. *)
Lemma repr_ordered X : exact_num (lo X) -> exact_num (hi X) -> finite_itv X -> (num_val (lo X) <= num_val (hi X))%R ->
  exists s t a b, repr X = Ok ("'[" ++ s ++ ", " ++ t ++ "]'")%string /\ reads s a /\ reads t b /\ (a <= b)%R.
Proof.
  intros E1 E2 [F1 F2] L. destruct (exact_double _ E1 F1) as (f & Tf & Ff & Vf). destruct (exact_double _ E2 F2) as (g & Tg & Fg & Vg). destruct (fmt_reads f Ff) as (a & R1 & N1). destruct (fmt_reads g Fg) as (b & R2 & N2).
  exists (fmt f), (fmt g), a, b. split; [unfold repr, fmt_num; rewrite Tf; cbn [rbind]; rewrite Tg; reflexivity|]. split; [exact R1|]. split; [exact R2|]. rewrite <- Vf, <- Vg in L.
  destruct (Rle_lt_or_eq_dec _ _ L) as [L1|L1]; [exact (nearest_mono _ _ _ _ N1 N2 L1)|].
  destruct (Req_dec (B2R f) 0) as [Z|Z].
  - assert (S0 : six_digits 0) by (exists 0, 0; split; [lia | lra]). rewrite Z in *. rewrite <- L1 in N2. rewrite (nearest_exact _ _ N1 S0), (nearest_exact _ _ N2 S0). lra.
  - assert (f = g); [|subst g; rewrite (reads_unique _ _ _ R1 R2); lra]. apply B2R_inj; [| |exact L1].
    + destruct f; try discriminate; [simpl in Z; lra | reflexivity].
    + destruct g; try discriminate; [simpl in L1; lra | reflexivity].
Qed.
Lemma repr_exact X : exact_num (lo X) -> exact_num (hi X) -> finite_itv X -> six_digits (num_val (lo X)) -> six_digits (num_val (hi X)) ->
  exists s t, repr X = Ok ("'[" ++ s ++ ", " ++ t ++ "]'")%string /\ reads s (num_val (lo X)) /\ reads t (num_val (hi X)).
Proof.
  intros E1 E2 F S1 S2. destruct (repr_finite X E1 E2 F) as (s & t & a & b & R & Rs & Rt & N1 & N2). exists s, t. rewrite (nearest_exact _ _ N1 S1) in Rs. rewrite (nearest_exact _ _ N2 S2) in Rt. auto.
Qed.
Lemma fmt_special : fmt finf = "inf"%string /\ fmt fninf = "-inf"%string /\ fmt fnan = "nan"%string.
Proof. repeat split. Qed.
(** Six digits are not rounded outward. *)
Definition third : flt := fdiv mode_NE (fl 1 0) (fl 3 0).
Lemma repr_not_outward : exists X s t a b, proper_fin X /\ repr X = Ok ("'[" ++ s ++ ", " ++ t ++ "]'")%string /\ reads s a /\ reads t b /\ exists r, member X r /\ ~ (a <= r <= b)%R.
Proof.
  exists (mkitv Classical (PInt 0) (PFlt third)), "0"%string, "0.333333"%string, 0%R, (333333 * p10 (-6))%R.
  assert (T : B2R third = (6004799503160661 * / 18014398509481984)%R) by (vm_compute; reflexivity || (vm_compute; lra)).
  split; [|split; [|split; [|split]]].
  - split; [split; [exact I | reflexivity]|]. cbn [lo hi num_val]. rewrite T. lra.
  - vm_compute. reflexivity.
  - exists 0, 0. split; [reflexivity | lra].
  - exists 333333, (-6). split; reflexivity.
  - exists (B2R third). split; [|rewrite T; simpl; lra]. apply member_x. cbn [lo hi xval]. rewrite (proj1 (is_finite_x third) eq_refl). rewrite T. simpl. lra.
Qed.
(** Different intervals may print alike. *)
Lemma repr_not_injective : exists X Y, proper_fin X /\ proper_fin Y /\ num_val (hi X) <> num_val (hi Y) /\ repr X = repr Y.
Proof.
  exists (mkitv Classical (PInt 0) (PInt 1000001)), (mkitv Classical (PInt 0) (PInt 1000002)). split; [|split; [|split]].
  - split; [split; exact I | cbn [lo hi num_val]; lra].
  - split; [split; exact I | cbn [lo hi num_val]; lra].
  - cbn [lo hi num_val]. lra.
  - vm_compute. reflexivity.
Qed.
(** Huge ints cannot be printed. *)
Lemma repr_overflow : exists X, kd X = Classical /\ (num_val (lo X) <= num_val (hi X))%R /\ repr X = Err OverflowError.
Proof. exists (mkitv Classical (PInt 0) (PInt (2 ^ 1024))). split; [reflexivity|]. split; [cbn [lo hi num_val]; apply IZR_le; apply Z.pow_nonneg; lia|]. vm_compute. reflexivity. Qed.
Lemma repr_special k x y s t : fmt_num x = Ok s -> fmt_num y = Ok t ->
  repr (mkitv k x (PFlt finf)) = Ok ("'[" ++ s ++ ", inf]'")%string /\
  repr (mkitv k (PFlt fninf) y) = Ok ("'[-inf, " ++ t ++ "]'")%string /\
  repr (mkitv k (PFlt fnan) (PFlt fnan)) = Ok "'[nan, nan]'"%string.
Proof.
  intros E1 E2. unfold repr. cbn [lo hi]. rewrite E1, E2. split; [|split]; reflexivity.
Qed.
