(** A system that meets the hypotheses of the enclosure theorem for PPS. *)
From Coq Require Import Reals List Arith Bool ZArith Lia Lra Psatz.
From Verif Require Import Exact SpecExact ExactProofs Estim SpecEstim EstimProofs Pss Pps SpecPps PpsProofs PpsLoop PpsMore.
Import ListNotations.
Open Scope R_scope.

Definition cs_A : imat := fun i j => if (i =? j)%nat then mkr 3 4 else mkr (/ 2) 1.
Definition cs_b : ivec := fun _ => mkr 5 6.
Definition cs_hbr (Q : imat) (r : ivec) : option ivec := Some (fun _ => if Rlt_dec 0 (rl (r 0%nat)) then mkr (/ 2) 3 else mkr (-3) (- / 2)).
Definition cs_Y : imat := fun i j => match i, j with 0%nat, 0%nat => mkr (/ 5) (/ 2) | 0%nat, _ => mkr (- / 5) 0 | _, _ => mkr (-1) 1 end.
Definition cs_inv (Q : imat) : option imat := Some cs_Y.
Definition cs_solve (M : mat) (v : vec) : option vec :=
  let d := M 0%nat 0%nat * M 1%nat 1%nat - M 0%nat 1%nat * M 1%nat 0%nat in
  if Req_EM_T d 0 then None
  else Some (fun i => match i with 0%nat => (v 0%nat * M 1%nat 1%nat - M 0%nat 1%nat * v 1%nat) / d | _ => (M 0%nat 0%nat * v 1%nat - v 0%nat * M 1%nat 0%nat) / d end).

(** [x] solves a member of the system with a right-hand side in [5,6] *)
Lemma cs_box a c e d p q x y : 3 <= a <= 4 -> / 2 <= c <= 1 -> / 2 <= e <= 1 -> 3 <= d <= 4 -> 5 <= p <= 6 -> 5 <= q <= 6 -> a * x + c * y = p -> e * x + d * y = q ->
  / 2 <= x <= 3 /\ / 2 <= y <= 3.
Proof.
  intros Ha Hc He Hd Hp Hq E1 E2.
  assert (BX : a * Rabs x <= 6 + c * Rabs y).
  { rewrite <- (Rabs_pos_eq a) at 1 by lra. rewrite <- Rabs_mult. replace (a * x) with (p - c * y) by lra.
    eapply Rle_trans; [apply Rabs_triang|]. rewrite Rabs_Ropp, Rabs_mult, (Rabs_pos_eq c), (Rabs_pos_eq p) by lra. lra. }
  assert (BY : d * Rabs y <= 6 + e * Rabs x).
  { rewrite <- (Rabs_pos_eq d) at 1 by lra. rewrite <- Rabs_mult. replace (d * y) with (q - e * x) by lra.
    eapply Rle_trans; [apply Rabs_triang|]. rewrite Rabs_Ropp, Rabs_mult, (Rabs_pos_eq e), (Rabs_pos_eq q) by lra. lra. }
  pose proof (Rabs_pos x) as PX. pose proof (Rabs_pos y) as PY.
  assert (3 * Rabs x <= 6 + Rabs y) as CX by nra. assert (3 * Rabs y <= 6 + Rabs x) as CY by nra.
  assert (Rabs x <= 3) as DX by lra. assert (Rabs y <= 3) as DY by lra.
  pose proof (Rle_abs x). pose proof (Rle_abs y). pose proof (Rle_abs (- x)) as NX. pose proof (Rle_abs (- y)) as NY. rewrite Rabs_Ropp in NX, NY.
  assert (c * y <= 3) by nra. assert (e * x <= 3) by nra.
  assert (2 <= a * x) by lra. assert (2 <= d * y) by lra.
  assert (0 < x) by (destruct (Rlt_dec 0 x); [assumption | exfalso; nra]). assert (0 < y) by (destruct (Rlt_dec 0 y); [assumption | exfalso; nra]).
  split; split; try lra; nra.
Qed.
Lemma cs_entries Q M : inside_mat 2 Q cs_A -> in_imat 2 2 Q M ->
  3 <= M 0%nat 0%nat <= 4 /\ / 2 <= M 0%nat 1%nat <= 1 /\ / 2 <= M 1%nat 0%nat <= 1 /\ 3 <= M 1%nat 1%nat <= 4.
Proof.
  intros HQ HM. assert (G : forall i j, (i < 2)%nat -> (j < 2)%nat -> rl (cs_A i j) <= M i j <= rh (cs_A i j)).
  { intros i j Hi Hj. destruct (HQ i j Hi Hj) as [[? ?] ?]. destruct (HM i j Hi Hj). lra. }
  pose proof (G 0%nat 0%nat ltac:(lia) ltac:(lia)). pose proof (G 0%nat 1%nat ltac:(lia) ltac:(lia)). pose proof (G 1%nat 0%nat ltac:(lia) ltac:(lia)). pose proof (G 1%nat 1%nat ltac:(lia) ltac:(lia)).
  cbn [cs_A Nat.eqb rl rh] in *. auto.
Qed.
Lemma cs_est1 : estimates_enclose cs_hbr 2 cs_A cs_b.
Proof.
  intros Q r w x HQ Hr E (M & v & HM & Hv & Hx) i Hi. inversion E; subst w; clear E. destruct (cs_entries Q M HQ HM) as (M1 & M2 & M3 & M4).
  pose proof (Hx 0%nat ltac:(lia)) as X0. pose proof (Hx 1%nat ltac:(lia)) as X1. unfold times in *. cbn [total] in *.
  destruct (Hr 0%nat ltac:(lia)) as [[? ?] ?]. destruct (Hr 1%nat ltac:(lia)) as [[? ?] ?]. cbn [cs_b rl rh] in *.
  destruct (Hv 0%nat ltac:(lia)). destruct (Hv 1%nat ltac:(lia)).
  destruct (cs_box (M 0%nat 0%nat) (M 0%nat 1%nat) (M 1%nat 0%nat) (M 1%nat 1%nat) (v 0%nat) (v 1%nat) (x 0%nat) (x 1%nat)) as [B0 B1]; try lra.
  destruct (Rlt_dec 0 (rl (r 0%nat))); [|exfalso; lra]. destruct (below2 i Hi) as [-> | ->]; unfold inI; cbn [rl rh]; lra.
Qed.
Lemma cs_est2 : estimates_enclose cs_hbr 2 cs_A (negated cs_b).
Proof.
  intros Q r w x HQ Hr E (M & v & HM & Hv & Hx) i Hi. inversion E; subst w; clear E. destruct (cs_entries Q M HQ HM) as (M1 & M2 & M3 & M4).
  pose proof (Hx 0%nat ltac:(lia)) as X0. pose proof (Hx 1%nat ltac:(lia)) as X1. unfold times in *. cbn [total] in *.
  destruct (Hr 0%nat ltac:(lia)) as [[? ?] ?]. destruct (Hr 1%nat ltac:(lia)) as [[? ?] ?]. unfold negated in *. cbn [cs_b rl rh] in *.
  destruct (Hv 0%nat ltac:(lia)). destruct (Hv 1%nat ltac:(lia)).
  destruct (cs_box (M 0%nat 0%nat) (M 0%nat 1%nat) (M 1%nat 0%nat) (M 1%nat 1%nat) (- v 0%nat) (- v 1%nat) (- x 0%nat) (- x 1%nat)) as [B0 B1]; try lra.
  destruct (Rlt_dec 0 (rl (r 0%nat))); [exfalso; lra|]. destruct (below2 i Hi) as [-> | ->]; unfold inI; cbn [rl rh]; lra.
Qed.
Lemma cs_inverses : inverses_enclose cs_inv 2 cs_A.
Proof.
  intros Q Y M Z HQ E HM HZ. inversion E; subst Y; clear E. destruct (cs_entries Q M HQ HM) as (M1 & M2 & M3 & M4).
  destruct (HZ 0%nat 0%nat ltac:(lia) ltac:(lia)) as [K1 _]. destruct (HZ 0%nat 1%nat ltac:(lia) ltac:(lia)) as [K2 _].
  destruct (HZ 1%nat 0%nat ltac:(lia) ltac:(lia)) as [K3 _]. destruct (HZ 1%nat 1%nat ltac:(lia) ltac:(lia)) as [K4 _]. cbn [total Nat.eqb] in *.
  revert K1 K2 K3 K4. generalize dependent (M 0%nat 0%nat). generalize dependent (M 0%nat 1%nat). generalize dependent (M 1%nat 0%nat). generalize dependent (M 1%nat 1%nat).
  intros d Hd e He c Hc a Ha K1 K2 K3 K4.
  set (D := a * d - c * e). assert (HD : 8 <= D <= 16) by (unfold D; split; nra).
  assert (D * Z 0%nat 0%nat = d) as Z1 by (unfold D; nra). assert (D * Z 0%nat 1%nat = - c) as Z2 by (unfold D; nra).
  assert (D * Z 1%nat 0%nat = - e) as Z3 by (unfold D; nra). assert (D * Z 1%nat 1%nat = a) as Z4 by (unfold D; nra).
  assert (QQ : forall z p, D * z = p -> z = p / D) by (intros z p <-; field; lra).
  apply QQ in Z1. apply QQ in Z2. apply QQ in Z3. apply QQ in Z4.
  assert (BD : forall p l h, (l * D <= p) -> (p <= h * D) -> l <= p / D <= h).
  { intros p l h L U. split; [apply (Rmult_le_reg_r D); [lra|] | apply (Rmult_le_reg_r D); [lra|]]; unfold Rdiv; rewrite Rmult_assoc, Rinv_l by lra; lra. }
  intros i j Hi Hj. destruct (below2 i Hi) as [-> | ->]; destruct (below2 j Hj) as [-> | ->]; unfold inI; cbn [cs_Y rl rh].
  - rewrite Z1. apply BD; unfold D; nra.
  - rewrite Z2. apply BD; lra.
  - rewrite Z3. apply BD; lra.
  - rewrite Z4. apply BD; lra.
Qed.
Lemma cs_solutions : solutions_exact cs_solve 2.
Proof.
  intros M v x E i Hi. unfold cs_solve in E. cbv zeta in E. destruct (Req_EM_T _ _) as [|ND]; [discriminate|]. inversion E; subst x. unfold times; cbn [total].
  destruct (below2 i Hi) as [-> | ->]; field; exact ND.
Qed.
Definition mat2 (a c e d : R) : mat := fun i j => match i, j with 0%nat, 0%nat => a | 0%nat, _ => c | _, 0%nat => e | _, _ => d end.
Definition vec2 (a c : R) : vec := fun i => match i with 0%nat => a | _ => c end.
Ltac all2 := repeat match goal with H : (?i < 2)%nat |- _ => destruct (below2 i H) as [-> | ->]; clear H end.
Lemma cs_united x : united 2 2 cs_A cs_b x -> exists a c e d p q, 3 <= a <= 4 /\ / 2 <= c <= 1 /\ / 2 <= e <= 1 /\ 3 <= d <= 4 /\ 5 <= p <= 6 /\ 5 <= q <= 6 /\
  a * x 0%nat + c * x 1%nat = p /\ e * x 0%nat + d * x 1%nat = q.
Proof.
  intros (M & v & HM & Hv & Hx). pose proof (HM 0%nat 0%nat ltac:(lia) ltac:(lia)). pose proof (HM 0%nat 1%nat ltac:(lia) ltac:(lia)). pose proof (HM 1%nat 0%nat ltac:(lia) ltac:(lia)). pose proof (HM 1%nat 1%nat ltac:(lia) ltac:(lia)).
  pose proof (Hv 0%nat ltac:(lia)). pose proof (Hv 1%nat ltac:(lia)). unfold inI in *. cbn [cs_A cs_b Nat.eqb rl rh] in *.
  pose proof (Hx 0%nat ltac:(lia)) as X0. pose proof (Hx 1%nat ltac:(lia)) as X1. unfold times in *. cbn [total] in *.
  exists (M 0%nat 0%nat), (M 0%nat 1%nat), (M 1%nat 0%nat), (M 1%nat 1%nat), (v 0%nat), (v 1%nat). repeat (split; [lra|]). lra.
Qed.
Lemma cs_range x : united 2 2 cs_A cs_b x -> 18 / 23 <= x 0%nat <= 43 / 23.
Proof.
  intro U. destruct (cs_united x U) as (a & c & e & d & p & q & Ha & Hc & He & Hd & Hp & Hq & E1 & E2).
  destruct (cs_box a c e d p q (x 0%nat) (x 1%nat)) as [B0 B1]; auto. set (X := x 0%nat) in *. set (Y := x 1%nat) in *.
  assert (/ 2 * X <= e * X <= X) by nra. assert (3 * Y <= d * Y <= 4 * Y) by nra. assert (/ 2 * Y <= c * Y <= Y) by nra. assert (3 * X <= a * X <= 4 * X) by nra. split; lra.
Qed.
Lemma cs_min : generic_minimum 2 cs_A cs_b 0 (vec2 (18 / 23) (43 / 23)).
Proof.
  split; [intros x U; apply cs_range in U; cbn [vec2]; lra|].
  exists (mat2 4 1 (/ 2) 3), (vec2 5 6), (mat2 (6 / 23) (-2 / 23) (-1 / 23) (8 / 23)). split; [|split; [|split; [|split; [|split]]]].
  - intros i j Hi Hj. all2; unfold inI; cbn [cs_A mat2 Nat.eqb rl rh]; lra.
  - intros i Hi. all2; unfold inI; cbn [cs_b vec2 rl rh]; lra.
  - intros i Hi. unfold times; cbn [total]. all2; cbn [mat2 vec2]; lra.
  - intros i j Hi Hj. cbn [total]. all2; cbn [mat2 Nat.eqb]; split; lra.
  - intros i Hi. all2; cbn [mat2]; lra.
  - intros i Hi. all2; cbn [vec2]; lra.
Qed.
Lemma cs_max : generic_minimum 2 cs_A (negated cs_b) 0 (vec2 (- (43 / 23)) (- (18 / 23))).
Proof.
  split.
  { intros x (M & v & HM & Hv & Hx). cbn [vec2]. assert (U : united 2 2 cs_A cs_b (fun j => - x j)).
    { exists M, (fun i => - v i). split; [exact HM|]. split.
      - intros i Hi. destruct (Hv i Hi) as [V1 V2]. unfold negated in *. cbn [cs_b rl rh] in *. split; cbn [cs_b rl rh]; lra.
      - intros i Hi. unfold times. rewrite (total_ext 2 _ (fun j => - (M i j * x j))) by (intros; ring). rewrite total_opp. f_equal. now apply Hx. }
    apply cs_range in U. lra. }
  exists (mat2 3 (/ 2) 1 4), (vec2 (-6) (-5)), (mat2 (8 / 23) (-1 / 23) (-2 / 23) (6 / 23)). split; [|split; [|split; [|split; [|split]]]].
  - intros i j Hi Hj. all2; unfold inI; cbn [cs_A mat2 Nat.eqb rl rh]; lra.
  - intros i Hi. all2; unfold inI, negated; cbn [cs_b vec2 rl rh]; lra.
  - intros i Hi. unfold times; cbn [total]. all2; cbn [mat2 vec2]; lra.
  - intros i j Hi Hj. cbn [total]. all2; cbn [mat2 Nat.eqb]; split; lra.
  - intros i Hi. all2; cbn [mat2]; lra.
  - intros i Hi. all2; cbn [vec2]; lra.
Qed.

(** ** The run *)
Definition cs_start (r : ivec) (X : rit) : pitem := mkp (rl X) cs_A r cs_Y (fun _ => X) (fun _ _ => 0%Z) (fun _ => 0%Z) (fun _ => 0%Z).
Section Run.
Variables (r : ivec) (X : rit).
Hypothesis HX : X = (if Rlt_dec 0 (rl (r 0%nat)) then mkr (/ 2) 3 else mkr (-3) (- / 2)).
Hypothesis Hr : forall i, rl (r i) <= rh (r i).
Definition cs_q : pitem := monotony 0 (cs_start r X).
Ltac rmm := unfold Rmin, Rmax; repeat (destruct (Rle_dec _ _)).
Lemma cs_sign i j : (i < 2)%nat -> (j < 2)%nat -> exists a, pQ cs_q i j = mkr a a /\ 0 < (if (i =? j)%nat then 1 else -1) * (a - 2) /\ rl (cs_A i j) <= a <= rh (cs_A i j).
Proof.
  intros Hi Hj. unfold cs_q. cbn [monotony pQ]. unfold deriv, r_neg, r_mul. cbn [pY px pQ cs_start]. unfold mono_entry.
  assert (P0 : exists u w, (Rmin (Rmin (/ 5 * rl X) (/ 5 * rh X)) (Rmin (/ 2 * rl X) (/ 2 * rh X))) = u /\ (Rmax (Rmax (/ 5 * rl X) (/ 5 * rh X)) (Rmax (/ 2 * rl X) (/ 2 * rh X))) = w /\ (0 < u /\ 0 < w \/ u < 0 /\ w < 0)).
  { do 2 eexists. split; [reflexivity|]. split; [reflexivity|]. rewrite HX. destruct (Rlt_dec 0 _); cbn [rl rh]; rmm; lra. }
  assert (P1 : exists u w, (Rmin (Rmin (- / 5 * rl X) (- / 5 * rh X)) (Rmin (0 * rl X) (0 * rh X))) = u /\ (Rmax (Rmax (- / 5 * rl X) (- / 5 * rh X)) (Rmax (0 * rl X) (0 * rh X))) = w /\ (0 <= u /\ 0 < w \/ u < 0 /\ w <= 0)).
  { do 2 eexists. split; [reflexivity|]. split; [reflexivity|]. rewrite HX. destruct (Rlt_dec 0 _); cbn [rl rh]; rmm; lra. }
  destruct P0 as (u0 & w0 & U0 & W0 & S0). destruct P1 as (u1 & w1 & U1 & W1 & S1).
  all2; cbn [pQ cs_start]; cbn [cs_Y cs_A Nat.eqb rl rh]; rewrite ?U0, ?W0, ?U1, ?W1.
  all: first [ destruct S0 as [[S1' S2']|[S1' S2']]; [rewrite ge0_f, le0_t by (cbn [rl rh]; lra) | rewrite ge0_t, le0_f by (cbn [rl rh]; lra)]; unfold r_point; cbn [rl rh]; eexists; (split; [reflexivity | repeat split; lra]) | destruct S1 as [[S1' S2']|[S1' S2']]; [rewrite (ge0_f (mkr _ _)), le0_t by (cbn [rl rh]; lra) | rewrite ge0_t, le0_f by (cbn [rl rh]; lra)]; unfold r_point; cbn [rl rh]; eexists; (split; [reflexivity | repeat split; lra]) ].
Qed.
Lemma cs_rhs0 : pr cs_q 0%nat = mkr (rl (r 0%nat)) (rl (r 0%nat)) /\ ps cs_q 0%nat = (-1)%Z.
Proof.
  unfold cs_q. cbn [monotony pr ps]. unfold mono_entry, mono_sign. cbn [pY cs_start cs_Y pr ps]. rewrite ge0_t, le0_f by (cbn [rl rh]; lra). split; reflexivity.
Qed.
Lemma cs_rhs1 : pr cs_q 1%nat = mkr (rh (r 1%nat)) (rh (r 1%nat)).
Proof.
  unfold cs_q. cbn [monotony pr]. unfold mono_entry. cbn [pY cs_start cs_Y pr]. rewrite ge0_f, le0_t by (cbn [rl rh]; lra). reflexivity.
Qed.
Lemma cs_ms i j : (i < 2)%nat -> (j < 2)%nat -> mat_size 0 cs_q i j = 0.
Proof. intros Hi Hj. destruct (cs_sign i j Hi Hj) as (a & E & _). unfold mat_size. rewrite E. unfold wid; cbn [rl rh]. ring. Qed.
Lemma cs_varg : vec_arg 2 (vec_size 0 cs_q) = 0%nat /\ vec_size 0 cs_q 0 = 0.
Proof.
  assert (V0 : vec_size 0 cs_q 0 = 0) by (unfold vec_size; rewrite (proj1 cs_rhs0); unfold wid; cbn [rl rh]; ring).
  assert (V1 : vec_size 0 cs_q 1 = 0) by (unfold vec_size; rewrite cs_rhs1; unfold wid; cbn [rl rh]; ring).
  split; [|exact V0]. unfold vec_arg. change (2 - 1)%nat with 1%nat. cbn [argmax]. rewrite V0, V1. destruct (Rlt_dec 0 0); [exfalso; lra | reflexivity].
Qed.
Lemma cs_not_exact : exact_mat 2 cs_A = false.
Proof. unfold exact_mat. cbn [seq list_prod map app forallb fst snd cs_A Nat.eqb]. unfold r_rad; cbn [rl rh]. destruct (Req_EM_T _ _); [exfalso; lra | reflexivity]. Qed.
Lemma cs_exact : exact_mat 2 (pQ cs_q) = true.
Proof.
  unfold exact_mat. apply forallb_forall. intros [i j] H. apply in_prod_iff in H. destruct H as [H1 H2]. apply in_seq in H1. apply in_seq in H2. cbn [fst snd].
  destruct (cs_sign i j ltac:(lia) ltac:(lia)) as (a & E & _). rewrite E. unfold r_rad; cbn [rl rh]. destruct (Req_EM_T _ _); [reflexivity | exfalso; lra].
Qed.
Lemma cs_run tol hang f :
  (forall M v x, in_imat 2 2 cs_A M -> in_ivec 2 r v -> solves 2 2 M v x -> rl X <= x 0%nat) ->
  pps_algo cs_hbr cs_inv cs_solve 2 0 tol hang cs_A r cs_Y (Z.of_nat f) = POk (rl X).
Proof.
  intro HB. unfold pps_algo. cbn [cs_hbr por pbind]. replace (Z.to_nat (Z.of_nat f + 1)) with (S f) by lia.
  cbn [pps_loop fst snd pQ pg]. rewrite cs_not_exact. cbn [far].
  match goal with |- context [descend _ _ _ _ _ _ ?p _ _ _] => assert (Ep : p = cs_start r X) by (unfold cs_start; rewrite HX; reflexivity); rewrite Ep; clear Ep end.
  assert (ED : exists r' W s t mu, rl X <= mu /\ descend cs_hbr cs_inv cs_solve 2 0 hang (cs_start r X) None None ([], []) =
    POk (([cs_q; mkp (rl X) (pQ cs_q) r' cs_Y (fun _ => X) W s t], []), mu)).
  { unfold descend. cbv zeta. fold cs_q. destruct (mat_arg 2 (mat_size 0 cs_q)) as [im jm] eqn:Earg.
    destruct (mat_arg_lt 2 0 ltac:(lia) _ _ _ Earg) as [Him Hjm]. destruct cs_varg as [VA V0]. rewrite VA, V0, cs_ms by assumption.
    destruct (Rlt_dec 0 0) as [|_]; [exfalso; lra|]. rewrite (proj2 cs_rhs0). cbn [Z.eqb Pos.eqb fst snd].
    unfold split. cbn [cs_hbr por pbind].
    destruct (cs_sign 0%nat 0%nat ltac:(lia) ltac:(lia)) as (a & EA & SA & IA). destruct (cs_sign 0%nat 1%nat ltac:(lia) ltac:(lia)) as (c & EC & SC & IC).
    destruct (cs_sign 1%nat 0%nat ltac:(lia) ltac:(lia)) as (e & EE & SE & IE). destruct (cs_sign 1%nat 1%nat ltac:(lia) ltac:(lia)) as (d & EDD & SD & ID).
    cbn [cs_A Nat.eqb rl rh] in *.
    set (vv := fun i => r_mid (upd1 (pr cs_q) 0%nat (r_point (rl (pr cs_q 0%nat))) i)).
    destruct (cs_solve (mids (pQ cs_q)) vv) as [Mn|] eqn:ES.
    2:{ exfalso. revert ES. unfold cs_solve, mids. rewrite EA, EC, EE, EDD. unfold r_mid; cbn [rl rh]. cbv zeta. destruct (Req_EM_T _ _) as [E0|]; [|discriminate]. intros _. nra. }
    assert (HMn : rl X <= Mn 0%nat).
    { apply (HB (mids (pQ cs_q)) vv); [| |now apply cs_solutions].
      - intros i j Hi Hj. unfold mids, r_mid. all2; rewrite ?EA, ?EC, ?EE, ?EDD; unfold inI; cbn [cs_A Nat.eqb rl rh]; lra.
      - intros i Hi. unfold vv. all2; unfold upd1; cbn [Nat.eqb]; rewrite ?(proj1 cs_rhs0), ?cs_rhs1; unfold inI, r_mid, r_point; cbn [rl rh];
        pose proof (Hr 0%nat); pose proof (Hr 1%nat); lra. }
    cbn [por pbind lt_inf andb cs_inv].
    assert (E0 : rl (upd1 (pr cs_q) 0%nat (r_point (rl (pr cs_q 0%nat))) 0%nat) = rl (r 0%nat)).
    { unfold upd1; cbn [Nat.eqb]. rewrite (proj1 cs_rhs0). reflexivity. }
    rewrite E0, <- HX. unfold insert_item. cbn [length map pg bisect Nat.ltb Nat.leb]. change ((0 + 1) / 2)%nat with 0%nat. cbn [nth].
    do 5 eexists. split; [|cbn [fst snd]; destruct (Rlt_dec (pg cs_q) (rl X)); cbn [bisect Nat.ltb Nat.leb insert_at pbind fst snd]; reflexivity].
    exact HMn. }
  destruct ED as (r' & W & s & t & mu & Hmu & ED). rewrite ED. cbn [pbind fst snd tl filter lower_mu not_above pg].
  destruct (Rle_dec (rl X) mu) as [_|]; [|contradiction].
  destruct f; cbn [pps_loop fst snd pQ]; rewrite cs_exact; reflexivity.
Qed.
End Run.
Theorem pps_case : forall tol hang (maxiter : nat), (0 < 2)%nat /\ estimates_enclose cs_hbr 2 cs_A cs_b /\ estimates_enclose cs_hbr 2 cs_A (negated cs_b) /\ inverses_enclose cs_inv 2 cs_A /\ solutions_exact cs_solve 2 /\
  generic_minimum 2 cs_A cs_b 0 (vec2 (18 / 23) (43 / 23)) /\ generic_minimum 2 cs_A (negated cs_b) 0 (vec2 (- (43 / 23)) (- (18 / 23))) /\
  pps cs_hbr cs_inv cs_solve (fun _ => 1) hang 2 cs_A cs_b tol (Z.of_nat maxiter) 0 = POk (mkr (/ 2) (- -3)).
Proof.
  intros tol hang f. split; [lia|]. split; [exact cs_est1|]. split; [exact cs_est2|]. split; [exact cs_inverses|]. split; [exact cs_solutions|]. split; [exact cs_min|]. split; [exact cs_max|].
  unfold pps. destruct (Req_EM_T 1 0); [exfalso; lra|]. cbn [cs_inv por pbind].
  rewrite (cs_run cs_b (mkr (/ 2) 3)); [cbn [pbind rl]| | |].
  - change (fun i => r_neg (cs_b i)) with (negated cs_b). rewrite (cs_run (negated cs_b) (mkr (-3) (- / 2))); [reflexivity | | |].
    + unfold negated; cbn [cs_b rl rh]. destruct (Rlt_dec 0 (-6)); [exfalso; lra|]. destruct (Rlt_dec 0 (- (6))); [exfalso; lra | reflexivity].
    + intro i. unfold negated; cbn [cs_b rl rh]. lra.
    + intros M v x HM Hv Hx. pose proof (cs_est2 cs_A (negated cs_b) (fun _ => mkr (-3) (- / 2)) x) as H.
      assert (K : in_ivec 2 (fun _ => mkr (-3) (- / 2)) x).
      { apply H. - intros i j Hi Hj. all2; cbn [cs_A Nat.eqb rl rh]; lra. - intros i Hi. unfold negated; cbn [cs_b rl rh]; lra.
        - unfold cs_hbr, negated. cbn [cs_b rl rh]. destruct (Rlt_dec 0 (- (6))); [exfalso; lra | reflexivity].
        - exists M, v. auto. }
      apply (K 0%nat). lia.
  - cbn [cs_b rl]. destruct (Rlt_dec 0 5); [reflexivity | exfalso; lra].
  - intro i. cbn [cs_b rl rh]. lra.
  - intros M v x HM Hv Hx. pose proof (cs_est1 cs_A cs_b (fun _ => mkr (/ 2) 3) x) as H.
    assert (K : in_ivec 2 (fun _ => mkr (/ 2) 3) x).
    { apply H. - intros i j Hi Hj. all2; cbn [cs_A Nat.eqb rl rh]; lra. - intros i Hi. cbn [cs_b rl rh]; lra.
      - unfold cs_hbr. cbn [cs_b rl rh]. destruct (Rlt_dec 0 5); [reflexivity | exfalso; lra].
      - exists M, v. auto. }
    apply (K 0%nat). lia.
Qed.
