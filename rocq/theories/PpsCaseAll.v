(** The system of PpsCase.v, both components of the answer. *)
From Coq Require Import Reals List Arith Bool ZArith Lia Lra Psatz.
From Verif Require Import Exact SpecExact ExactProofs Estim SpecEstim EstimProofs Pss Pps SpecPps PpsProofs PpsLoop PpsMore PpsCase EstimMat.
Import ListNotations.
Open Scope R_scope.

Definition ca_Y : imat := fun i j => if (i =? j)%nat then mkr (/ 5) (/ 2) else mkr (- / 5) 0.
Definition ca_inv (Q : imat) : option imat := Some ca_Y.
Lemma ca_inverses : inverses_enclose ca_inv 2 cs_A.
Proof.
  intros Q Y M Z HQ E HM HZ. inversion E; subst Y; clear E. destruct (cs_entries Q M HQ HM) as (M1 & M2 & M3 & M4).
  destruct (HZ 0%nat 0%nat ltac:(lia) ltac:(lia)) as [K1 _]. destruct (HZ 0%nat 1%nat ltac:(lia) ltac:(lia)) as [K2 _].
  destruct (HZ 1%nat 0%nat ltac:(lia) ltac:(lia)) as [K3 _]. destruct (HZ 1%nat 1%nat ltac:(lia) ltac:(lia)) as [K4 _]. cbn [total Nat.eqb] in *.
  revert K1 K2 K3 K4. generalize dependent (M 0%nat 0%nat). generalize dependent (M 0%nat 1%nat). generalize dependent (M 1%nat 0%nat). generalize dependent (M 1%nat 1%nat).
  intros d Hd e He c Hc a Ha K1 K2 K3 K4.
  set (D := a * d - c * e). assert (HD : 8 <= D <= 16) by (unfold D; split; nra).
  assert (D * Z 0%nat 0%nat = d) as Z1 by (unfold D; nra). assert (D * Z 0%nat 1%nat = - c) as Z2 by (unfold D; nra).
  assert (D * Z 1%nat 0%nat = - e) as Z3 by (unfold D; nra). assert (D * Z 1%nat 1%nat = a) as Z4 by (unfold D; nra).
  assert (QQ : forall z p, D * z = p -> z = p / D) by (intros z p <-; field; lra).
  apply QQ in Z1. apply QQ in Z2. apply QQ in Z3. apply QQ in Z4.
  assert (BD : forall p l h, (l * D <= p) -> (p <= h * D) -> l <= p / D <= h).
  { intros p l h L U. split; [apply (Rmult_le_reg_r D); [lra|] | apply (Rmult_le_reg_r D); [lra|]]; unfold Rdiv; rewrite Rmult_assoc, Rinv_l by lra; lra. }
  intros i j Hi Hj. destruct (below2 i Hi) as [-> | ->]; destruct (below2 j Hj) as [-> | ->]; unfold inI; cbn [ca_Y Nat.eqb rl rh].
  - rewrite Z1. apply BD; unfold D; nra.
  - rewrite Z2. apply BD; lra.
  - rewrite Z3. apply BD; lra.
  - rewrite Z4. apply BD; unfold D; nra.
Qed.
Definition swap2 (i : nat) : nat := (1 - i)%nat.
Lemma ca_swap b x : (forall i, b i = b O) -> united 2 2 cs_A b x -> united 2 2 cs_A b (fun j => x (swap2 j)).
Proof.
  intros Hb (M & v & HM & Hv & Hx). exists (fun i j => M (swap2 i) (swap2 j)), (fun i => v (swap2 i)). split; [|split].
  - intros i j Hi Hj. assert (T := HM (swap2 i) (swap2 j) ltac:(unfold swap2; lia) ltac:(unfold swap2; lia)). revert T. all2; exact (fun T => T).
  - intros i Hi. assert (T := Hv (swap2 i) ltac:(unfold swap2; lia)). now rewrite Hb in T |- *.
  - intros i Hi. assert (T := Hx (swap2 i) ltac:(unfold swap2; lia)). unfold times in *. cbn [total] in *. rewrite <- T. all2; cbn [swap2 Nat.sub]; ring.
Qed.
Lemma ca_generic b x y : (forall i, b i = b O) -> generic_minimum 2 cs_A b 0 (vec2 x y) -> generic_minimum 2 cs_A b 1 (vec2 y x).
Proof.
  intros Hb [Mi (M & v & Z & HM & Hv & Hx & HZ & N1 & N2)]. split.
  { intros z U. apply (ca_swap b z Hb) in U. apply Mi in U. exact U. }
  exists (fun i j => M (swap2 i) (swap2 j)), (fun i => v (swap2 i)), (fun i j => Z (swap2 i) (swap2 j)). split; [|split; [|split; [|split; [|split]]]].
  - intros i j Hi Hj. assert (T := HM (swap2 i) (swap2 j) ltac:(unfold swap2; lia) ltac:(unfold swap2; lia)). revert T. all2; exact (fun T => T).
  - intros i Hi. assert (T := Hv (swap2 i) ltac:(unfold swap2; lia)). now rewrite Hb in T |- *.
  - intros i Hi. assert (T := Hx (swap2 i) ltac:(unfold swap2; lia)). unfold times in *. cbn [total] in *. rewrite <- T. all2; cbn [swap2 Nat.sub vec2]; ring.
  - intros i j Hi Hj. assert (T := HZ (swap2 i) (swap2 j) ltac:(unfold swap2; lia) ltac:(unfold swap2; lia)). cbn [total] in *. revert T. all2; cbn [swap2 Nat.sub Nat.eqb]; intros [T1 T2]; lra.
  - intros i Hi. apply (N1 (swap2 i)). unfold swap2. lia.
  - intros i Hi. assert (T := N2 (swap2 i) ltac:(unfold swap2; lia)). revert T. all2; exact (fun T => T).
Qed.

Definition ca_start (r : ivec) (X : rit) : pitem := mkp (rl X) cs_A r ca_Y (fun _ => X) (fun _ _ => 0%Z) (fun _ => 0%Z) (fun _ => 0%Z).
Section Run.
Variables (r : ivec) (X : rit) (nu : nat).
Hypothesis Hnu : (nu < 2)%nat.
Hypothesis HX : X = (if Rlt_dec 0 (rl (r 0%nat)) then mkr (/ 2) 3 else mkr (-3) (- / 2)).
Hypothesis Hr : forall i, rl (r i) <= rh (r i).
Definition ca_q : pitem := monotony nu (ca_start r X).
Lemma ca_row j : ca_Y nu j = mkr (/ 5) (/ 2) \/ ca_Y nu j = mkr (- / 5) 0.
Proof. unfold ca_Y. destruct (nu =? j)%nat; auto. Qed.
Ltac rmm := unfold Rmin, Rmax; repeat (destruct (Rle_dec _ _)).
Lemma ca_deriv i j : let d := deriv nu ca_Y (fun _ => X) i j in (0 <= rl d /\ 0 < rh d) \/ (rl d < 0 /\ rh d <= 0).
Proof.
  cbv zeta. unfold deriv, r_neg, r_mul. cbn [rl rh]. rewrite HX. destruct (ca_row i) as [-> | ->]; destruct (Rlt_dec 0 _); cbn [rl rh]; rmm; lra.
Qed.
Lemma mono_point d q : (0 <= rl d /\ 0 < rh d) \/ (rl d < 0 /\ rh d <= 0) -> mono_entry d q = mkr (rl q) (rl q) \/ mono_entry d q = mkr (rh q) (rh q).
Proof.
  unfold mono_entry. intros [[D1 D2]|[D1 D2]].
  - rewrite ge0_t, le0_f by lra. now left.
  - rewrite ge0_f, le0_t by lra. now right.
Qed.
Lemma ca_entry i j : exists a, pQ ca_q i j = mkr a a /\ rl (cs_A i j) <= a <= rh (cs_A i j).
Proof.
  unfold ca_q. cbn [monotony pQ pY px ca_start]. destruct (mono_point _ (cs_A i j) (ca_deriv i j)) as [-> | ->]; eexists; (split; [reflexivity|]); unfold cs_A; destruct (i =? j)%nat; cbn [rl rh]; lra.
Qed.
Lemma ca_rhs i : (exists a, pr ca_q i = mkr a a /\ rl (r i) <= a <= rh (r i)) /\ (ps ca_q i = 1%Z \/ ps ca_q i = (-1)%Z).
Proof.
  unfold ca_q. cbn [monotony pr ps pY ca_start]. unfold mono_entry, mono_sign. assert (T := Hr i).
  destruct (ca_row i) as [-> | ->].
  - rewrite ge0_t, le0_f by (cbn [rl rh]; lra). split; [|now right]. eexists. split; [reflexivity|]. lra.
  - rewrite ge0_f, le0_t by (cbn [rl rh]; lra). split; [|now left]. eexists. split; [reflexivity|]. lra.
Qed.
Lemma ca_ms i j : mat_size nu ca_q i j = 0.
Proof. destruct (ca_entry i j) as (a & E & _). unfold mat_size. rewrite E. unfold wid; cbn [rl rh]. ring. Qed.
Lemma ca_varg : vec_arg 2 (vec_size nu ca_q) = 0%nat /\ vec_size nu ca_q 0 = 0.
Proof.
  assert (V : forall i, vec_size nu ca_q i = 0) by (intro i; unfold vec_size; destruct (ca_rhs i) as [(a & -> & _) _]; unfold wid; cbn [rl rh]; ring).
  split; [|apply V]. unfold vec_arg. change (2 - 1)%nat with 1%nat. cbn [argmax]. rewrite !V. destruct (Rlt_dec 0 0); [exfalso; lra | reflexivity].
Qed.
Lemma ca_exact : exact_mat 2 (pQ ca_q) = true.
Proof.
  unfold exact_mat. apply forallb_forall. intros [i j] H. cbn [fst snd].
  destruct (ca_entry i j) as (a & E & _). rewrite E. unfold r_rad; cbn [rl rh]. destruct (Req_EM_T _ _); [reflexivity | exfalso; lra].
Qed.
(** Both signs lead to the same call of split. *)
Lemma ca_split hang rr : (forall M v x, in_imat 2 2 cs_A M -> in_ivec 2 r v -> solves 2 2 M v x -> rl X <= x nu) ->
  (forall i, (i < 2)%nat -> exists a, rr i = mkr a a /\ rl (r i) <= a <= rh (r i)) -> (0 < rl (rr O) <-> 0 < rl (r O)) -> forall W s t,
  exists mu g, rl X <= vnu nu mu /\ split cs_hbr ca_inv cs_solve 2 nu hang false false (pQ ca_q) rr ca_Y (start W s t [] []) false false None None ([ca_q], []) =
    POk (([ca_q; mkp (rl X) (pQ ca_q) rr ca_Y (fun _ => X) (gW g) (gs g) (gt g)], []), mu).
Proof.
  intros HB Hrr Sg W s t. unfold split. cbn [cs_hbr por pbind].
  destruct (ca_entry 0%nat 0%nat) as (a & EA & IA). destruct (ca_entry 0%nat 1%nat) as (c & EC & IC).
  destruct (ca_entry 1%nat 0%nat) as (e & EE & IE). destruct (ca_entry 1%nat 1%nat) as (d & EDD & ID).
  cbn [cs_A Nat.eqb rl rh] in IA, IC, IE, ID.
  set (vv := fun i => r_mid (rr i)).
  destruct (cs_solve (mids (pQ ca_q)) vv) as [Mn|] eqn:ES.
  2:{ exfalso. revert ES. unfold cs_solve, mids. rewrite EA, EC, EE, EDD. unfold r_mid; cbn [rl rh]. cbv zeta. destruct (Req_EM_T _ _) as [E0|]; [|discriminate]. intros _. nra. }
  assert (HMn : rl X <= Mn nu).
  { apply (HB (mids (pQ ca_q)) vv); [| |now apply cs_solutions].
    - intros i j Hi Hj. unfold mids, r_mid. all2; rewrite ?EA, ?EC, ?EE, ?EDD; unfold inI; cbn [cs_A Nat.eqb rl rh]; lra.
    - intros i Hi. unfold vv. destruct (Hrr i Hi) as (z & -> & Hz). unfold inI, r_mid; cbn [rl rh]. lra. }
  cbn [por pbind lt_inf andb ca_inv].
  assert (EX : (if Rlt_dec 0 (rl (rr 0%nat)) then mkr (/ 2) 3 else mkr (-3) (- / 2)) = X).
  { rewrite HX. destruct (Rlt_dec 0 (rl (rr 0%nat))), (Rlt_dec 0 (rl (r 0%nat))); try reflexivity; exfalso; tauto. }
  rewrite EX. exists Mn, (start W s t [] []). split; [exact HMn|].
  unfold insert_item. cbn [length map pg bisect Nat.ltb Nat.leb]. change ((0 + 1) / 2)%nat with 0%nat. cbn [nth].
  destruct (Rlt_dec (pg ca_q) (rl X)); cbn [bisect Nat.ltb Nat.leb insert_at pbind fst snd]; reflexivity.
Qed.
Lemma ca_run tol hang f : (forall i a, rl (r i) <= a <= rh (r i) -> (0 < a <-> 0 < rl (r O))) ->
  (forall M v x, in_imat 2 2 cs_A M -> in_ivec 2 r v -> solves 2 2 M v x -> rl X <= x nu) ->
  pps_algo cs_hbr ca_inv cs_solve 2 nu tol hang cs_A r ca_Y (Z.of_nat f) = POk (rl X).
Proof.
  intros Sg HB. unfold pps_algo. cbn [cs_hbr por pbind]. replace (Z.to_nat (Z.of_nat f + 1)) with (S f) by lia.
  cbn [pps_loop fst snd pQ pg]. rewrite cs_not_exact. cbn [far].
  match goal with |- context [descend _ _ _ _ _ _ ?p _ _ _] => assert (Ep : p = ca_start r X) by (unfold ca_start; rewrite HX; reflexivity); rewrite Ep; clear Ep end.
  assert (ED : exists r' W s t mu, rl X <= mu /\ descend cs_hbr ca_inv cs_solve 2 nu hang (ca_start r X) None None ([], []) =
    POk (([ca_q; mkp (rl X) (pQ ca_q) r' ca_Y (fun _ => X) W s t], []), mu)).
  { unfold descend. cbv zeta. fold ca_q. destruct (mat_arg 2 (mat_size nu ca_q)) as [im jm] eqn:Earg.
    destruct ca_varg as [VA V0]. rewrite VA, V0, ca_ms.
    destruct (Rlt_dec 0 0) as [|_]; [exfalso; lra|]. cbn [fst snd].
    assert (RR : forall z, (forall a, pr ca_q 0%nat = mkr a a -> z = mkr a a) -> (forall i, (i < 2)%nat -> exists a, upd1 (pr ca_q) 0%nat z i = mkr a a /\ rl (r i) <= a <= rh (r i)) /\ (0 < rl (upd1 (pr ca_q) 0%nat z 0%nat) <-> 0 < rl (r O))).
    { intros z Hz. split.
      - intros i Hi. destruct (ca_rhs i) as [(a & E & B) _]. destruct (below2 i Hi) as [-> | ->]; unfold upd1; cbn [Nat.eqb]; exists a; (split; [|exact B]); [now apply Hz|exact E].
      - unfold upd1. cbn [Nat.eqb]. destruct (ca_rhs O) as [(a & E & B) _]. rewrite (Hz a E). cbn [rl]. now apply (Sg O). }
    assert (PY : pY ca_q = ca_Y) by reflexivity. rewrite PY.
    destruct (ca_rhs O) as [_ [E|E]]; rewrite E; cbn [Z.eqb Pos.eqb].
    - destruct (RR (r_point (rh (pr ca_q O)))) as [R1 R2]; [intros a ->; reflexivity|].
      destruct (ca_split hang _ HB R1 R2 (refine 2 im jm (pW ca_q)) (ps ca_q) (pt ca_q)) as (mu & g & Hmu & ES). rewrite ES. cbn [pbind fst snd]. do 5 eexists. split; [exact Hmu|reflexivity].
    - destruct (RR (r_point (rl (pr ca_q O)))) as [R1 R2]; [intros a ->; reflexivity|].
      destruct (ca_split hang _ HB R1 R2 (refine 2 im jm (pW ca_q)) (ps ca_q) (pt ca_q)) as (mu & g & Hmu & ES). rewrite ES. cbn [pbind fst snd]. do 5 eexists. split; [exact Hmu|reflexivity]. }
  destruct ED as (r' & W & s & t & mu & Hmu & ED). rewrite ED. cbn [pbind fst snd tl filter lower_mu not_above pg].
  destruct (Rle_dec (rl X) mu) as [_|]; [|contradiction].
  destruct f; cbn [pps_loop fst snd pQ]; rewrite ca_exact; reflexivity.
Qed.
End Run.

Theorem pps_case_all : forall tol hang (maxiter : nat), estimates_enclose cs_hbr 2 cs_A cs_b /\ estimates_enclose cs_hbr 2 cs_A (negated cs_b) /\ inverses_enclose ca_inv 2 cs_A /\ solutions_exact cs_solve 2 /\
  (forall nu, (nu < 2)%nat -> exists low high, generic_minimum 2 cs_A cs_b nu low /\ generic_minimum 2 cs_A (negated cs_b) nu high) /\
  pps_all cs_hbr ca_inv cs_solve (fun _ => 1) hang 2 cs_A cs_b tol (Z.of_nat maxiter) = POk [mkr (/ 2) (- -3); mkr (/ 2) (- -3)].
Proof.
  intros tol hang f. split; [exact cs_est1|]. split; [exact cs_est2|]. split; [exact ca_inverses|]. split; [exact cs_solutions|]. split.
  { intros nu Hnu. destruct (below2 nu Hnu) as [-> | ->].
    - exists (vec2 (18 / 23) (43 / 23)), (vec2 (- (43 / 23)) (- (18 / 23))). split; [exact cs_min|exact cs_max].
    - exists (vec2 (43 / 23) (18 / 23)), (vec2 (- (18 / 23)) (- (43 / 23))). split; apply ca_generic; try reflexivity; [exact cs_min|exact cs_max]. }
  assert (R1 : forall nu, (nu < 2)%nat -> pps_algo cs_hbr ca_inv cs_solve 2 nu tol hang cs_A cs_b ca_Y (Z.of_nat f) = POk (/ 2)).
  { intros nu Hnu. rewrite (ca_run cs_b (mkr (/ 2) 3) nu Hnu); [reflexivity| | | |].
    - cbn [cs_b rl]. destruct (Rlt_dec 0 5); [reflexivity | exfalso; lra].
    - intro i. cbn [cs_b rl rh]. lra.
    - intros i a Ha. cbn [cs_b rl rh] in *. split; intro; lra.
    - intros M v x HM Hv Hx.
      assert (K : in_ivec 2 (fun _ => mkr (/ 2) 3) x).
      { apply (cs_est1 cs_A cs_b (fun _ => mkr (/ 2) 3) x). - intros i j Hi Hj. all2; cbn [cs_A Nat.eqb rl rh]; lra. - intros i Hi. cbn [cs_b rl rh]; lra.
        - unfold cs_hbr. cbn [cs_b rl rh]. destruct (Rlt_dec 0 5); [reflexivity | exfalso; lra].
        - exists M, v. auto. }
      now apply (K nu). }
  assert (R2 : forall nu, (nu < 2)%nat -> pps_algo cs_hbr ca_inv cs_solve 2 nu tol hang cs_A (fun i => r_neg (cs_b i)) ca_Y (Z.of_nat f) = POk (-3)).
  { intros nu Hnu. change (fun i => r_neg (cs_b i)) with (negated cs_b). rewrite (ca_run (negated cs_b) (mkr (-3) (- / 2)) nu Hnu); [reflexivity| | | |].
    - unfold negated; cbn [cs_b rl rh]. destruct (Rlt_dec 0 (- (6))); [exfalso; lra | reflexivity].
    - intro i. unfold negated; cbn [cs_b rl rh]. lra.
    - intros i a Ha. unfold negated in *. cbn [cs_b rl rh] in *. split; intro; lra.
    - intros M v x HM Hv Hx.
      assert (K : in_ivec 2 (fun _ => mkr (-3) (- / 2)) x).
      { apply (cs_est2 cs_A (negated cs_b) (fun _ => mkr (-3) (- / 2)) x). - intros i j Hi Hj. all2; cbn [cs_A Nat.eqb rl rh]; lra. - intros i Hi. unfold negated; cbn [cs_b rl rh]; lra.
        - unfold cs_hbr, negated. cbn [cs_b rl rh]. destruct (Rlt_dec 0 (- (6))); [exfalso; lra | reflexivity].
        - exists M, v. auto. }
      now apply (K nu). }
  unfold pps_all. destruct (Req_EM_T 1 0); [exfalso; lra|]. cbn [ca_inv por pbind seq pps_each].
  rewrite (R1 0%nat), (R1 1%nat), (R2 0%nat), (R2 1%nat) by lia. reflexivity.
Qed.
