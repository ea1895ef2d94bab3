(** Proofs about the loop of PPS. *)
From Coq Require Import Reals List Arith Bool ZArith Lia Lra Psatz.
From Verif Require Import Exact SpecExact ExactProofs Estim SpecEstim EstimProofs Pss Pps SpecPps PpsProofs.
Import ListNotations.
Open Scope R_scope.

Lemma pbind_ok {A B} (x : pres A) (f : A -> pres B) y : pbind x f = POk y -> exists a, x = POk a /\ f a = POk y.
Proof. destruct x; simpl; intros; try discriminate. eauto. Qed.
Lemma por_ok {A} (x : option A) y : por x = POk y -> x = Some y.
Proof. destruct x; simpl; intro E; inversion E; reflexivity. Qed.

(** ** Interval facts *)
Lemma r_mul_in X Y a c : inI X a -> inI Y c -> inI (r_mul X Y) (a * c).
Proof.
  unfold inI, r_mul; cbn [rl rh]. intros [A1 A2] [C1 C2].
  set (p1 := rl X * rl Y). set (p2 := rl X * rh Y). set (p3 := rh X * rl Y). set (p4 := rh X * rh Y).
  assert (L : (p1 <= a * c \/ p2 <= a * c \/ p3 <= a * c \/ p4 <= a * c) /\ (a * c <= p1 \/ a * c <= p2 \/ a * c <= p3 \/ a * c <= p4)).
  { unfold p1, p2, p3, p4. split.
    - destruct (Rle_lt_dec 0 c); [destruct (Rle_lt_dec 0 (rl X)) | destruct (Rle_lt_dec 0 (rh X))].
      + left. nra.
      + right; left. nra.
      + right; right; left. nra.
      + right; right; right. nra.
    - destruct (Rle_lt_dec 0 c); [destruct (Rle_lt_dec 0 (rh X)) | destruct (Rle_lt_dec 0 (rl X))].
      + right; right; right. nra.
      + right; right; left. nra.
      + right; left. nra.
      + left. nra. }
  destruct L as [L U]. unfold Rmin, Rmax. repeat destruct (Rle_dec _ _); split; lra.
Qed.
Lemma ge0_iff x : ge0 x = true -> 0 <= rl x /\ 0 <= rh x.
Proof. unfold ge0. destruct (Rle_dec 0 (rl x)); [|discriminate]. destruct (Rle_dec 0 (rh x)); [auto | discriminate]. Qed.
Lemma le0_iff x : le0 x = true -> rl x <= 0 /\ rh x <= 0.
Proof. unfold le0. destruct (Rle_dec (rl x) 0); [|discriminate]. destruct (Rle_dec (rh x) 0); [auto | discriminate]. Qed.

Section Loop.
Variables (hbr : imat -> ivec -> option ivec) (inverse : imat -> option imat) (solve : mat -> vec -> option vec).
Variables (n nu : nat) (tol : R) (hang : nat) (A : imat) (b : ivec) (x v : vec) (M Z : mat).
Hypothesis Hnu : (nu < n)%nat.
Hypothesis Hhbr : estimates_enclose hbr n A b.
Hypothesis Hinv : inverses_enclose inverse n A.
Hypothesis Hsolve : solutions_exact solve n.
Hypothesis HM : in_imat n n A M.
Hypothesis Hv : in_ivec n b v.
Hypothesis Hx : solves n n M v x.
Hypothesis HZ : inverse_of n M Z.
Hypothesis Hmin : forall x', united n n A b x' -> x nu <= x' nu.
Hypothesis HZ0 : forall i, (i < n)%nat -> Z nu i <> 0.
Hypothesis Hx0 : forall j, (j < n)%nat -> x j <> 0.

Definition Sst : svec := fun i => if Rlt_dec 0 (Z nu i) then (-1)%Z else 1%Z.
Definition Tst : svec := fun j => if Rlt_dec 0 (x j) then 1%Z else (-1)%Z.
Lemma HS : forall i, Sst i = 1%Z \/ Sst i = (-1)%Z.
Proof. intro i. unfold Sst. destruct (Rlt_dec 0 (Z nu i)); auto. Qed.
Lemma HT : forall i, Tst i = 1%Z \/ Tst i = (-1)%Z.
Proof. intro i. unfold Tst. destruct (Rlt_dec 0 (x i)); auto. Qed.
Lemma ST_lower i j : (i < n)%nat -> (j < n)%nat -> Z nu i * x j < 0 -> (Sst i * Tst j = 1)%Z.
Proof.
  intros Hi Hj P. unfold Sst, Tst. pose proof (HZ0 i Hi). pose proof (Hx0 j Hj).
  destruct (Rlt_dec 0 (Z nu i)); destruct (Rlt_dec 0 (x j)); try reflexivity; exfalso; nra.
Qed.
Lemma ST_upper i j : (i < n)%nat -> (j < n)%nat -> 0 < Z nu i * x j -> (Sst i * Tst j = -1)%Z.
Proof.
  intros Hi Hj P. unfold Sst, Tst. pose proof (HZ0 i Hi). pose proof (Hx0 j Hj).
  destruct (Rlt_dec 0 (Z nu i)); destruct (Rlt_dec 0 (x j)); try reflexivity; exfalso; nra.
Qed.
Lemma ZX_cases i j : (i < n)%nat -> (j < n)%nat -> Z nu i * x j < 0 \/ 0 < Z nu i * x j.
Proof. intros Hi Hj. pose proof (HZ0 i Hi). pose proof (Hx0 j Hj). apply Rdichotomy. now apply Rmult_integral_contrapositive_currified. Qed.

Definition pok (Q : imat) (r : ivec) : Prop := inside_mat n Q A /\ inside_vec n r b.
Definition iok (p : pitem) : Prop := pok (pQ p) (pr p).
(** the optimal system is in [Q], [r] *)
Definition hold (Q : imat) (r : ivec) : Prop := in_imat n n Q M /\ in_ivec n r v.
Definition kn (W : smat) (s t : svec) : Prop := known_W n Sst Tst W /\ known_v n s Sst /\ known_v n t Tst.
Definition good (p : pitem) : Prop :=
  iok p /\ hold (pQ p) (pr p) /\ in_imat n n (pY p) Z /\ in_ivec n (px p) x /\ kn (pW p) (ps p) (pt p) /\ pg p <= x nu.

Lemma low_of_A Q i j : inside_mat n Q A -> in_imat n n Q M -> (i < n)%nat -> (j < n)%nat -> Z nu i * x j < 0 -> M i j = rl (Q i j).
Proof.
  intros I H Hi Hj P. pose proof (entry_lower n nu A b x v M Z HM Hv Hx HZ Hmin i j Hi Hj P) as E.
  destruct (I i j Hi Hj) as [[I1 I2] I3]. destruct (H i j Hi Hj). lra.
Qed.
Lemma up_of_A Q i j : inside_mat n Q A -> in_imat n n Q M -> (i < n)%nat -> (j < n)%nat -> 0 < Z nu i * x j -> M i j = rh (Q i j).
Proof.
  intros I H Hi Hj P. pose proof (entry_upper n nu A b x v M Z HM Hv Hx HZ Hmin i j Hi Hj P) as E.
  destruct (I i j Hi Hj) as [[I1 I2] I3]. destruct (H i j Hi Hj). lra.
Qed.
Lemma low_of_b r i : inside_vec n r b -> in_ivec n r v -> (i < n)%nat -> 0 < Z nu i -> v i = rl (r i).
Proof.
  intros I H Hi P. pose proof (rhs_lower n nu A b x v M Z HM Hv Hx HZ Hmin i Hi P) as E.
  destruct (I i Hi) as [[I1 I2] I3]. destruct (H i Hi). lra.
Qed.
Lemma up_of_b r i : inside_vec n r b -> in_ivec n r v -> (i < n)%nat -> Z nu i < 0 -> v i = rh (r i).
Proof.
  intros I H Hi P. pose proof (rhs_upper n nu A b x v M Z HM Hv Hx HZ Hmin i Hi P) as E.
  destruct (I i Hi) as [[I1 I2] I3]. destruct (H i Hi). lra.
Qed.

(** ** The monotony test *)
Lemma mono_inside d q lo hi : lo <= rl q <= rh q /\ rh q <= hi -> lo <= rl (mono_entry d q) <= rh (mono_entry d q) /\ rh (mono_entry d q) <= hi.
Proof. intros [[H1 H2] H3]. unfold mono_entry. destruct (ge0 d); destruct (le0 d); cbn [rl rh r_point]; lra. Qed.
Lemma mono_iok p : iok p -> iok (monotony nu p).
Proof. intros [H1 H2]. split; [intros i j Hi Hj | intros i Hi]; apply mono_inside; auto. Qed.
Lemma mono_good p : good p -> good (monotony nu p).
Proof.
  intros (I & (H1 & H2) & HY & HX & (K1 & K2 & K3) & G). destruct I as [I1 I2]. split; [apply mono_iok; now split|]. split; [split|].
  - intros i j Hi Hj. cbn [pQ monotony]. unfold mono_entry.
    assert (D : inI (deriv nu (pY p) (px p) i j) (- (Z nu i * x j))).
    { unfold deriv, r_neg. pose proof (r_mul_in _ _ _ _ (HY nu i Hnu Hi) (HX j Hj)) as [P1 P2]. split; cbn [rl rh]; lra. }
    destruct D as [D1 D2]. destruct (ge0 _) eqn:E1; destruct (le0 _) eqn:E2; try apply ge0_iff in E1; try apply le0_iff in E2.
    + exfalso. destruct (ZX_cases i j Hi Hj); lra.
    + assert (P : Z nu i * x j < 0) by (destruct (ZX_cases i j Hi Hj); lra). rewrite (low_of_A _ i j I1 H1 Hi Hj P). split; cbn [rl rh r_point]; lra.
    + assert (P : 0 < Z nu i * x j) by (destruct (ZX_cases i j Hi Hj); lra). rewrite (up_of_A _ i j I1 H1 Hi Hj P). split; cbn [rl rh r_point]; lra.
    + now apply H1.
  - intros i Hi. cbn [pr monotony]. unfold mono_entry. destruct (HY nu i Hnu Hi) as [D1 D2]. pose proof (HZ0 i Hi).
    destruct (ge0 _) eqn:E1; destruct (le0 _) eqn:E2; try apply ge0_iff in E1; try apply le0_iff in E2.
    + exfalso. apply Rdichotomy in H. destruct H; lra.
    + assert (P : 0 < Z nu i) by (apply Rdichotomy in H; destruct H; lra). rewrite (low_of_b _ i I2 H2 Hi P). split; cbn [rl rh r_point]; lra.
    + assert (P : Z nu i < 0) by (apply Rdichotomy in H; destruct H; lra). rewrite (up_of_b _ i I2 H2 Hi P). split; cbn [rl rh r_point]; lra.
    + now apply H2.
  - split; [exact HY|]. split; [exact HX|]. split; [|exact G]. split; [|split; [|exact K3]].
    + intros i j Hi Hj. cbn [pW monotony]. unfold mono_sign.
      assert (D : inI (deriv nu (pY p) (px p) i j) (- (Z nu i * x j))).
      { unfold deriv, r_neg. pose proof (r_mul_in _ _ _ _ (HY nu i Hnu Hi) (HX j Hj)) as [P1 P2]. split; cbn [rl rh]; lra. }
      destruct D as [D1 D2]. destruct (le0 _) eqn:E2; [|destruct (ge0 _) eqn:E1]; try apply ge0_iff in E1; try apply le0_iff in E2.
      * right. symmetry. apply ST_upper; auto. destruct (ZX_cases i j Hi Hj); lra.
      * right. symmetry. apply ST_lower; auto. destruct (ZX_cases i j Hi Hj); lra.
      * now apply K1.
    + intros i Hi. cbn [ps monotony]. unfold mono_sign. destruct (HY nu i Hnu Hi) as [D1 D2]. pose proof (HZ0 i Hi) as NZ.
      destruct (le0 _) eqn:E2; [|destruct (ge0 _) eqn:E1]; try apply ge0_iff in E1; try apply le0_iff in E2.
      * right. unfold Sst. destruct (Rlt_dec 0 (Z nu i)); [exfalso; lra | reflexivity].
      * right. unfold Sst. destruct (Rlt_dec 0 (Z nu i)); [reflexivity | exfalso; apply Rdichotomy in NZ; destruct NZ; lra].
      * now apply K2.
Qed.

(** ** One split *)
Definition low (omega : option R) : Prop := match omega with Some w => w <= x nu | None => False end.
Definition high (omega : option R) : Prop := match omega with Some w => x nu <= w | None => True end.
Lemma lt_inf_cases g omega : lt_inf g omega = true \/ exists w, omega = Some w /\ w <= g.
Proof. unfold lt_inf. destruct omega as [w|]; [|auto]. destruct (Rlt_dec g w); [auto|]. right. exists w. split; [reflexivity | lra]. Qed.

Lemma mids_in Q : inside_mat n Q A -> in_imat n n A (mids Q).
Proof. intros I i j Hi Hj. destruct (I i j Hi Hj) as [[I1 I2] I3]. unfold mids, r_mid. split; lra. Qed.
Lemma mid_in r : inside_vec n r b -> in_ivec n b (fun i => r_mid (r i)).
Proof. intros I i Hi. destruct (I i Hi) as [[I1 I2] I3]. unfold r_mid. split; lra. Qed.

Lemma split_spec ind fl Q r Y0 g Wch sch omega h rest LL' Mn : pok Q r -> psorted rest ->
  split hbr inverse solve n nu hang ind fl Q r Y0 g Wch sch omega None (h :: rest, []) = POk (LL', Mn) ->
  exists rest', LL' = (h :: rest', []) /\ psorted rest' /\ (forall y, In y rest -> In y rest') /\
    (forall y, In y rest' -> In y rest \/ iok y) /\ x nu <= Mn nu /\
    (hold Q r -> in_imat n n Y0 Z -> fine n Sst Tst g -> (exists p, In p rest' /\ good p) \/ low omega).
Proof.
  intros [I1 I2] Srt E. unfold split in E.
  apply pbind_ok in E. destruct E as (vx & E1 & E). apply por_ok in E1.
  apply pbind_ok in E. destruct E as (Mn' & E2 & E). apply por_ok in E2. cbv zeta in E.
  apply pbind_ok in E. destruct E as (g' & E3 & E).
  assert (HMn : x nu <= Mn' nu).
  { apply Hmin. exists (mids Q), (fun i => r_mid (r i)). split; [now apply mids_in|]. split; [now apply mid_in|]. now apply Hsolve. }
  assert (Hg : hold Q r -> rl (vx nu) <= x nu /\ in_ivec n vx x).
  { intros [H1 H2]. assert (in_ivec n vx x) as Hin by (apply (Hhbr Q r); auto; exists M, v; auto). split; [|exact Hin]. apply Hin. exact Hnu. }
  destruct (lt_inf_cases (rl (vx nu)) omega) as [LT|(w & W1 & W2)].
  - rewrite LT in E, E3. cbn [andb] in E3. apply pbind_ok in E. destruct E as (Y & E4 & E). cbn [lt_inf] in E.
    inversion E; subst LL' Mn'; clear E. set (new := mkp _ _ _ _ _ _ _ _).
    destruct (insert_item_spec new h rest Srt) as (rest' & R1 & R2 & R3). rewrite R1. exists rest'.
    split; [reflexivity|]. split; [exact R2|]. split; [intros; apply R3; auto|]. split.
    { intros y Iy. apply R3 in Iy. destruct Iy as [-> |Iy]; [right; split; assumption | now left]. }
    split; [exact HMn|]. intros H HY Fg. left. exists new. split; [apply R3; auto|].
    destruct (Hg H) as [Hg1 Hg2]. split; [split; assumption|]. split; [exact H|]. split; [|split; [exact Hg2|split; [|exact Hg1]]].
    + unfold new; cbn [pY]. destruct fl; [|inversion E4; subst; exact HY]. apply por_ok in E4. apply (Hinv Q Y M Z); auto. apply H.
    + unfold new; cbn [pW ps pt]. assert (F' : fine n Sst Tst g').
      { destruct ind; [|inversion E3; subst; exact Fg]. destruct (propagate _ _ _ _ _ _) as [g2|] eqn:EP; [|discriminate]. inversion E3; subst g2.
        eapply (fine_propagate n Sst Tst HS HT); eauto. }
      destruct F' as [F' _]. exact F'.
  - assert (LF : lt_inf (rl (vx nu)) omega = false).
    { rewrite W1. unfold lt_inf. destruct (Rlt_dec (rl (vx nu)) w); [exfalso; lra | reflexivity]. }
    rewrite LF in E. inversion E; subst LL' Mn'. exists rest. split; [reflexivity|]. split; [exact Srt|]. split; [auto|]. split; [auto|]. split; [exact HMn|].
    intros H _ _. right. rewrite W1. cbn [low]. destruct (Hg H). lra.
Qed.

(** ** One element *)
Lemma argmax_le k f : (argmax k f <= k)%nat.
Proof. induction k; simpl; [lia|]. destruct (Rlt_dec _ _); lia. Qed.
Lemma mat_arg_lt f i j : mat_arg n f = (i, j) -> (i < n)%nat /\ (j < n)%nat.
Proof.
  unfold mat_arg. cbv zeta. set (k := argmax _ _). assert (K : (k <= n * n - 1)%nat) by apply argmax_le. intro E; inversion E; subst.
  assert (0 < n * n)%nat by (apply Nat.mul_pos_pos; lia). split; [apply Nat.div_lt_upper_bound; lia | apply Nat.mod_upper_bound; lia].
Qed.
Lemma vec_arg_lt f : (vec_arg n f < n)%nat.
Proof. unfold vec_arg. pose proof (argmax_le (n - 1) f). lia. Qed.
Lemma inside_upd2 Q i j c : inside_mat n Q A -> (i < n)%nat -> (j < n)%nat -> rl (Q i j) <= c <= rh (Q i j) -> inside_mat n (upd2 Q i j (r_point c)) A.
Proof.
  intros I Hi Hj C k l Hk Hl. destruct (upd2_cases Q i j (r_point c) k l) as [(-> & -> & E)|E]; rewrite E; [|auto].
  destruct (I i j Hi Hj) as [[I1 I2] I3]. cbn [rl rh r_point]. lra.
Qed.
Lemma inside_upd1 r i c : inside_vec n r b -> (i < n)%nat -> rl (r i) <= c <= rh (r i) -> inside_vec n (upd1 r i (r_point c)) b.
Proof.
  intros I Hi C k Hk. destruct (upd1_cases r i (r_point c) k) as [(-> & E)|E]; rewrite E; [|auto].
  destruct (I i Hi) as [[I1 I2] I3]. cbn [rl rh r_point]. lra.
Qed.
Lemma hold_upd2 Q i j c : in_imat n n Q M -> M i j = c -> in_imat n n (upd2 Q i j (r_point c)) M.
Proof.
  intros I Hc k l Hk Hl. destruct (upd2_cases Q i j (r_point c) k l) as [(-> & -> & E)|E]; rewrite E; [|auto]. split; cbn [rl rh r_point]; lra.
Qed.
Lemma hold_upd1 r i c : in_ivec n r v -> v i = c -> in_ivec n (upd1 r i (r_point c)) v.
Proof.
  intros I Hc k Hk. destruct (upd1_cases r i (r_point c) k) as [(-> & E)|E]; rewrite E; [|auto]. split; cbn [rl rh r_point]; lra.
Qed.

Definition outcome (rest : list pitem) (omega : option R) (isgood : Prop) (r : lists * R) : Prop :=
  exists h rest', fst r = (h :: rest', []) /\ psorted rest' /\ (forall y, In y rest -> In y rest') /\ (forall y, In y rest' -> In y rest \/ iok y) /\
    x nu <= snd r /\ (isgood -> (exists p, In p rest' /\ good p) \/ low omega).

Lemma one_child ind fl Q r Y0 g Wch sch omega h rest LL' (isgood : Prop) :
  pok Q r -> psorted rest ->
  (isgood -> hold Q r /\ in_imat n n Y0 Z /\ fine n Sst Tst g) ->
  pbind (split hbr inverse solve n nu hang ind fl Q r Y0 g Wch sch omega None (h :: rest, [])) (fun r1 => POk (fst r1, vnu nu (snd r1))) = POk LL' ->
  outcome rest omega isgood LL'.
Proof.
  intros P Srt G E. apply pbind_ok in E. destruct E as ([L1 M1] & E1 & E). cbn [fst snd] in E. inversion E; subst LL'; clear E.
  destruct (split_spec _ _ _ _ _ _ _ _ _ _ _ _ _ P Srt E1) as (r' & S1 & S2 & S3 & S4 & S5 & S6).
  exists h, r'. cbn [fst snd]. repeat (split; [assumption|]). intro Hg. destruct (G Hg) as (G1 & G2 & G3). auto.
Qed.
Lemma two_children ind1 fl1 Q1 r1 Y1 g1 W1 s1 ind2 fl2 Q2 r2 Y2 g2 W2 s2 omega h rest LL' (isgood : Prop) :
  pok Q1 r1 -> pok Q2 r2 -> psorted rest ->
  (isgood -> (hold Q1 r1 /\ in_imat n n Y1 Z /\ fine n Sst Tst g1) \/ (hold Q2 r2 /\ in_imat n n Y2 Z /\ fine n Sst Tst g2)) ->
  pbind (split hbr inverse solve n nu hang ind1 fl1 Q1 r1 Y1 g1 W1 s1 omega None (h :: rest, [])) (fun a1 =>
  pbind (split hbr inverse solve n nu hang ind2 fl2 Q2 r2 Y2 g2 W2 s2 omega None (fst a1)) (fun a2 => POk (fst a2, Rmin (vnu nu (snd a1)) (vnu nu (snd a2))))) = POk LL' ->
  outcome rest omega isgood LL'.
Proof.
  intros P1 P2 Srt G E. apply pbind_ok in E. destruct E as ([L1 M1] & E1 & E). cbn [fst snd] in E.
  apply pbind_ok in E. destruct E as ([L2 M2] & E2 & E). cbn [fst snd] in E. inversion E; subst LL'; clear E.
  destruct (split_spec _ _ _ _ _ _ _ _ _ _ _ _ _ P1 Srt E1) as (r' & S1 & S2 & S3 & S4 & S5 & S6). subst L1.
  destruct (split_spec _ _ _ _ _ _ _ _ _ _ _ _ _ P2 S2 E2) as (r'' & T1 & T2 & T3 & T4 & T5 & T6).
  exists h, r''. cbn [fst snd]. split; [exact T1|]. split; [exact T2|]. split; [auto|]. split.
  { intros y Iy. destruct (T4 y Iy) as [Iy'|]; auto. }
  split; [unfold vnu, Rmin; destruct (Rle_dec _ _); assumption|]. intro Hg. destruct (G Hg) as [(G1 & G2 & G3)|(G1 & G2 & G3)]; [|auto].
  destruct (S6 G1 G2 G3) as [(p & Ip & Gp)|]; [left; exists p; auto | auto].
Qed.

Lemma fine_start W s t Om K : kn W s t -> Forall (fun p => (fst p < n)%nat /\ (snd p < n)%nat) Om -> Forall (fun k => (k < n)%nat) K -> fine n Sst Tst (start W s t Om K).
Proof. intros K1 F1 F2. split; [exact K1|]. split; [exact F1|]. split; [exact F2 | constructor]. Qed.

Lemma descend_spec p omega rest out : iok p -> psorted rest ->
  descend hbr inverse solve n nu hang p omega None (rest, []) = POk out -> outcome rest omega (good p) out.
Proof.
  intros Ip Srt E. unfold descend in E. cbv zeta in E. pose proof (mono_iok p Ip) as Iq. assert (Gq := mono_good p). revert E Iq Gq. generalize (monotony nu p) as q.
  intros q E Iq Gq. destruct (mat_arg n (mat_size nu q)) as [im jm] eqn:Earg. destruct (mat_arg_lt _ _ _ Earg) as [Him Hjm].
  set (k2 := vec_arg n (vec_size nu q)) in *. assert (Hk2 : (k2 < n)%nat) by apply vec_arg_lt.
  set (W := refine n im jm (pW q)) in *. cbn [fst snd] in E. destruct Iq as [I1 I2].
  destruct (I1 im jm Him Hjm) as [[Q1 Q2] Q3]. destruct (I2 k2 Hk2) as [[B1 B2] B3].
  assert (KW : good q -> known_W n Sst Tst W).
  { intros (_ & _ & _ & _ & (K1 & _) & _). apply (known_refine n Sst Tst HS HT). exact K1. }
  assert (Klow : good q -> forall i j, (i < n)%nat -> (j < n)%nat -> (Sst i * Tst j = 1)%Z -> M i j = rl (pQ q i j)).
  { intros (_ & (H1 & _) & _) i j Hi Hj Es. apply low_of_A; auto. destruct (ZX_cases i j Hi Hj) as [|C]; [assumption|]. rewrite (ST_upper i j Hi Hj C) in Es. discriminate. }
  assert (Kup : good q -> forall i j, (i < n)%nat -> (j < n)%nat -> (Sst i * Tst j = -1)%Z -> M i j = rh (pQ q i j)).
  { intros (_ & (H1 & _) & _) i j Hi Hj Es. apply up_of_A; auto. destruct (ZX_cases i j Hi Hj) as [C|]; [|assumption]. rewrite (ST_lower i j Hi Hj C) in Es. discriminate. }
  assert (Rlow : good q -> forall i, (i < n)%nat -> (Sst i = -1)%Z -> v i = rl (pr q i)).
  { intros (_ & (_ & H2) & _) i Hi Es. apply low_of_b; auto. unfold Sst in Es. destruct (Rlt_dec 0 (Z nu i)); [assumption | discriminate]. }
  assert (Rup : good q -> forall i, (i < n)%nat -> (Sst i = 1)%Z -> v i = rh (pr q i)).
  { intros (_ & (_ & H2) & _) i Hi Es. apply up_of_b; auto. unfold Sst in Es. destruct (Rlt_dec 0 (Z nu i)); [discriminate|].
    pose proof (HZ0 i Hi) as NZ. apply Rdichotomy in NZ. destruct NZ; lra. }
  assert (ST : forall i j, (Sst i * Tst j = 1)%Z \/ (Sst i * Tst j = -1)%Z).
  { intros i j. destruct (HS i) as [-> | ->]; destruct (HT j) as [-> | ->]; auto. }
  assert (FO : Forall (fun p : nat * nat => (fst p < n)%nat /\ (snd p < n)%nat) [(im, jm)]) by (constructor; [now split | constructor]).
  assert (FK : Forall (fun k => (k < n)%nat) [k2]) by (constructor; [exact Hk2 | constructor]).
  assert (outcome rest omega (good q) out) as OUT; [|destruct OUT as (h & r' & O1 & O2 & O3 & O4 & O5 & O6); exists h, r'; repeat (split; [assumption|]); auto].
  destruct (Rlt_dec _ _) as [_|_].
  - destruct (W im jm =? 0)%Z eqn:E0; [|destruct (W im jm =? 1)%Z eqn:E1].
    + eapply two_children; [| | exact Srt | | exact E].
      * split; [apply inside_upd2; auto; lra | exact I2].
      * split; [apply inside_upd2; auto; lra | exact I2].
      * intro Gd. pose proof Gd as (_ & (H1 & H2) & HY & _ & (K1 & K2 & K3) & _). destruct (ST im jm) as [Es|Es].
        -- left. split; [split; [apply hold_upd2; auto | exact H2]|]. split; [exact HY|]. apply fine_start; auto.
           split; [|split; assumption]. apply known_upd2; [auto|]. intros _ _. right. now rewrite Es.
        -- right. split; [split; [apply hold_upd2; auto | exact H2]|]. split; [exact HY|]. apply fine_start; auto.
           split; [|split; assumption]. apply known_upd2; [auto|]. intros _ _. right. now rewrite Es.
    + eapply one_child; [| exact Srt | | exact E].
      * split; [apply inside_upd2; auto; lra | exact I2].
      * intro Gd. pose proof Gd as (_ & (H1 & H2) & HY & _ & (K1 & K2 & K3) & _). apply Z.eqb_eq in E1.
        assert (Es : (Sst im * Tst jm = 1)%Z) by (destruct (KW Gd im jm Him Hjm) as [F|F]; rewrite E1 in F; [discriminate | congruence]).
        split; [split; [apply hold_upd2; auto | exact H2]|]. split; [exact HY|]. apply fine_start; auto. split; [auto | split; assumption].
    + eapply one_child; [| exact Srt | | exact E].
      * split; [apply inside_upd2; auto; lra | exact I2].
      * intro Gd. pose proof Gd as (_ & (H1 & H2) & HY & _ & (K1 & K2 & K3) & _). apply Z.eqb_neq in E0. apply Z.eqb_neq in E1.
        assert (Es : (Sst im * Tst jm = -1)%Z) by (destruct (KW Gd im jm Him Hjm) as [F|F]; [contradiction|]; destruct (ST im jm); [congruence | assumption]).
        split; [split; [apply hold_upd2; auto | exact H2]|]. split; [exact HY|]. apply fine_start; auto. split; [auto | split; assumption].
  - destruct (ps q k2 =? 0)%Z eqn:E0; [|destruct (ps q k2 =? 1)%Z eqn:E1].
    + eapply two_children; [| | exact Srt | | exact E].
      * split; [exact I1 | apply inside_upd1; auto; lra].
      * split; [exact I1 | apply inside_upd1; auto; lra].
      * intro Gd. pose proof Gd as (_ & (H1 & H2) & HY & _ & (K1 & K2 & K3) & _). destruct (HS k2) as [Es|Es].
        -- right. split; [split; [exact H1 | apply hold_upd1; auto]|]. split; [exact HY|]. apply fine_start; auto.
           split; [auto|split; [|assumption]]. apply known_upd1; [auto|]. intros _. right. now rewrite Es.
        -- left. split; [split; [exact H1 | apply hold_upd1; auto]|]. split; [exact HY|]. apply fine_start; auto.
           split; [auto|split; [|assumption]]. apply known_upd1; [auto|]. intros _. right. now rewrite Es.
    + eapply one_child; [| exact Srt | | exact E].
      * split; [exact I1 | apply inside_upd1; auto; lra].
      * intro Gd. pose proof Gd as (_ & (H1 & H2) & HY & _ & (K1 & K2 & K3) & _). apply Z.eqb_eq in E1.
        assert (Es : (Sst k2 = 1)%Z) by (destruct (K2 k2 Hk2) as [F|F]; rewrite E1 in F; [discriminate | congruence]).
        split; [split; [exact H1 | apply hold_upd1; auto]|]. split; [exact HY|]. apply fine_start; auto. split; [auto | split; assumption].
    + eapply one_child; [| exact Srt | | exact E].
      * split; [exact I1 | apply inside_upd1; auto; lra].
      * intro Gd. pose proof Gd as (_ & (H1 & H2) & HY & _ & (K1 & K2 & K3) & _). apply Z.eqb_neq in E0. apply Z.eqb_neq in E1.
        assert (Es : (Sst k2 = -1)%Z) by (destruct (K2 k2 Hk2) as [F|F]; [contradiction|]; destruct (HS k2); [congruence | assumption]).
        split; [split; [exact H1 | apply hold_upd1; auto]|]. split; [exact HY|]. apply fine_start; auto. split; [auto | split; assumption].
Qed.

(** ** The loop *)
Definition below (oc : option R) : Prop := match oc with Some o => o <= x nu | None => True end.
Definition Inv (L : list pitem) (omega : option R) : Prop :=
  psorted L /\ (forall y, In y L -> iok y) /\ high omega /\ ((exists p, In p L /\ good p) \/ (low omega /\ forall y, In y L -> pg y <= x nu)).
Lemma result_below oc g : below oc -> result oc = POk g -> g <= x nu.
Proof. unfold result. destruct oc; intros H E; inversion E; subst; exact H. Qed.
Lemma Inv_head p L omega : Inv (p :: L) omega -> pg p <= x nu.
Proof.
  intros (I1 & _ & _ & [(q & Iq & Gq)|(_ & H)]); [|apply H; now left].
  destruct Gq as (_ & _ & _ & _ & _ & Gq). destruct Iq as [-> |Iq]; [exact Gq|]. pose proof (psorted_head _ _ _ I1 Iq). lra.
Qed.
Lemma loop_below : forall fuel L omega oc g, Inv L omega -> below oc ->
  pps_loop hbr inverse solve n nu tol hang fuel (L, []) omega None oc = POk g -> g <= x nu.
Proof.
  induction fuel as [|f IH]; intros L omega oc g HI Hoc E; cbn [pps_loop fst snd] in E.
  - destruct L as [|p rest]; [discriminate|]. destruct (exact_mat n (pQ p)); [now apply (result_below oc)|]. destruct (far tol omega (pg p)); now apply (result_below oc).
  - destruct L as [|p rest]; [discriminate|]. destruct (exact_mat n (pQ p)); [now apply (result_below oc)|]. destruct (far tol omega (pg p)); [|now apply (result_below oc)].
    apply pbind_ok in E. destruct E as ([[L' Lk'] mu] & E1 & E). pose proof HI as (J1 & J2 & J3 & J4).
    destruct (descend_spec p omega rest _ (J2 p (or_introl eq_refl)) (psorted_tail _ _ J1) E1) as (h & r' & O1 & O2 & O3 & O4 & O5 & O6).
    cbn [fst snd] in O1, O5. inversion O1; subst L' Lk'; clear O1. cbn [fst snd tl filter] in E.
    set (om' := lower_mu omega mu) in *.
    assert (Hom : high om' /\ (low omega -> low om') /\ exists w, om' = Some w).
    { unfold om', lower_mu. destruct omega as [w|]; cbn [high low] in *.
      - destruct (Rlt_dec mu w); split; auto; split; eauto; intros; lra.
      - split; [exact O5|]. split; [tauto | eauto]. }
    destruct Hom as (Hom1 & Hom2 & w & Hw).
    assert (E' : match filter (not_above om') r' with [] => result om' | p' :: _ => pps_loop hbr inverse solve n nu tol hang f (filter (not_above om') r', []) om' None (Some (pg p')) end = POk g).
    { destruct r' as [|a r'']; exact E. }
    clear E. assert (Inv (filter (not_above om') r') om' \/ (filter (not_above om') r' = [] /\ low om')) as [HI'|[HN HL]].
    + assert (X : (exists q, In q r' /\ good q) \/ low omega).
      { destruct J4 as [(q & [-> |Iq] & Gq)|[HL _]]; [apply O6; exact Gq | left; exists q; auto | now right]. }
      left. split; [now apply psorted_filter|]. split.
      { intros y Iy. apply filter_In in Iy. destruct Iy as [Iy _]. destruct (O4 y Iy) as [Iy'|]; [apply J2; now right | assumption]. }
      split; [exact Hom1|]. destruct X as [(q & Iq & Gq)|HL].
      * left. exists q. split; [|exact Gq]. apply filter_In. split; [exact Iq|]. rewrite Hw in *. cbn [not_above high] in *.
        destruct Gq as (_ & _ & _ & _ & _ & Gq). destruct (Rle_dec (pg q) w); [reflexivity | exfalso; lra].
      * right. split; [auto|]. intros y Iy. apply filter_In in Iy. destruct Iy as [_ Iy]. pose proof (Hom2 HL) as HL'. rewrite Hw in HL', Iy. cbn [low not_above] in HL', Iy.
        destruct (Rle_dec (pg y) w); [lra | discriminate].
    + destruct (filter (not_above om') r') as [|p' r2] eqn:EF.
      * destruct HI' as (_ & _ & _ & [(q & [] & _)|[HL _]]). rewrite Hw in *. cbn [result low] in *. inversion E'; subst. exact HL.
      * eapply IH; [exact HI' | | exact E']. cbn [below]. eapply Inv_head; eauto.
    + rewrite HN in E'. rewrite Hw in *. cbn [result low] in *. inversion E'; subst. exact HL.
Qed.
Lemma algo_below inv_A maxiter g : inverse A = Some inv_A -> pps_algo hbr inverse solve n nu tol hang A b inv_A maxiter = POk g -> g <= x nu.
Proof.
  intros EA E. unfold pps_algo in E. apply pbind_ok in E. destruct E as (vx & E1 & E). apply por_ok in E1.
  assert (IA : inside_mat n A A) by (intros i j Hi Hj; destruct (HM i j Hi Hj); lra).
  assert (Ib : inside_vec n b b) by (intros i Hi; destruct (Hv i Hi); lra).
  assert (HX : in_ivec n vx x) by (apply (Hhbr A b); auto; exists M, v; auto).
  eapply loop_below; [| | exact E]; [|exact I]. split; [|split; [|split; [exact I|]]].
  - intros i j Hij Hj. cbn [length] in Hj. assert (i = 0 /\ j = 0)%nat as [-> ->] by lia. apply Rle_refl.
  - intros y [<-|[]]. split; assumption.
  - left. eexists. split; [now left|]. split; [split; assumption|]. cbn [pQ pr pY px pW ps pt pg]. split; [split; assumption|].
    split; [apply (Hinv A inv_A M Z); auto|]. split; [exact HX|]. split; [|apply (HX nu Hnu)].
    split; [|split]; intros ?; intros; now left.
Qed.
End Loop.
