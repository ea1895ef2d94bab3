(** PPS always ends, and returns when the calls it makes return. *)
From Coq Require Import Reals List Arith Bool ZArith Lia Lra Psatz.
From Verif Require Import Exact SpecExact ExactProofs Estim SpecEstim EstimProofs Pss Pps SpecPps PpsProofs PpsLoop PpsAcc PpsSigns.
Import ListNotations.
Open Scope R_scope.

Definition signed (p : pitem) : Prop := units (pW p) (ps p) (pt p).
Lemma unit3_1 : unit3 1. Proof. right; right; reflexivity. Qed.
Lemma unit3_m1 : unit3 (-1). Proof. left; reflexivity. Qed.
Lemma mono_unit3 d v v' w : unit3 v -> unit3 v' -> unit3 w -> unit3 (mono_sign d v v' w).
Proof. intros. unfold mono_sign. cbv zeta. destruct (le0 d); [assumption|]. destruct (ge0 d); assumption. Qed.
Lemma mono_signed nu p : signed p -> signed (monotony nu p).
Proof.
  intros (U1 & U2 & U3). split; [|split]; intros; cbn [monotony pW ps pt]; [apply mono_unit3|apply mono_unit3|]; auto using unit3_1, unit3_m1.
Qed.
Lemma units_updW W s t i j a : units W s t -> unit3 a -> units (upd2 W i j a) s t.
Proof. intros (U1 & U2 & U3) Ua. split; [|split]; auto. intros k l. destruct (upd2_cases W i j a k l) as [(_ & _ & ->)|E]; [exact Ua | rewrite E; auto]. Qed.
Lemma units_upds W s t i a : units W s t -> unit3 a -> units W (upd1 s i a) t.
Proof. intros (U1 & U2 & U3) Ua. split; [|split]; auto. intros k. destruct (upd1_cases s i a k) as [(_ & ->)|E]; [exact Ua | rewrite E; auto]. Qed.
Lemma refine_units n im jm W s t : units W s t -> units (refine n im jm W) s t.
Proof.
  intros U. unfold refine. destruct (find _ _) as [[k l]|]; [|exact U]. apply units_updW; [exact U|]. destruct U as (U1 & _). apply unit3_mul; [apply unit3_mul|]; auto.
Qed.

Section Ends.
Variables (hbr : imat -> ivec -> option ivec) (inverse : imat -> option imat) (solve : mat -> vec -> option vec).
Variables (n nu : nat) (tol : R) (hang : nat).
Hypothesis Hnu : (nu < n)%nat.
Hypothesis Hhang : (4 * n + 3 <= hang)%nat.
Definition all_signed (LL : lists) : Prop := forall y, In y (fst LL) \/ In y (snd LL) -> signed y.
(** [propagate] returns in the calls of [split] that use it *)
Definition spread (ind : bool) (g : signs) (Wch sch : bool) : Prop :=
  if ind then exists g', propagate hang n Wch sch false g = Some g' /\ units (gW g') (gs g') (gt g') else units (gW g) (gs g) (gt g).
Lemma split_signed ind fl Q r Y0 g Wch sch omega cst LL : spread ind g Wch sch -> units (gW g) (gs g) (gt g) -> all_signed LL ->
  match split hbr inverse solve n nu hang ind fl Q r Y0 g Wch sch omega cst LL with PHang => False | POk (LL', _) => all_signed LL' | _ => True end.
Proof.
  intros Sp U H. unfold split. destruct (hbr Q r) as [vx|]; [|exact I]. cbn [por pbind]. destruct (solve _ _) as [Mn|]; [|exact I]. cbn [por pbind].
  assert (P : exists g', (if lt_inf (rl (vx nu)) omega && ind then match propagate hang n Wch sch false g with Some g' => POk g' | None => PHang end else POk g) = POk g' /\ units (gW g') (gs g') (gt g')).
  { unfold spread in Sp. destruct ind; [|rewrite andb_false_r; eauto]. rewrite andb_true_r. destruct (lt_inf _ _); [|eauto]. destruct Sp as (g' & -> & Ug). eauto. }
  destruct P as (g' & -> & Ug). cbn [pbind]. destruct (lt_inf (rl (vx nu)) omega); [|exact H].
  assert (Y : exists y, (if fl then por (inverse Q) else POk Y0) = y /\ match y with PHang => False | PNameError => False | PUnbound => False | _ => True end).
  { destruct fl; [destruct (inverse Q)|]; eexists; split; try reflexivity; exact I. }
  destruct Y as (y & -> & Hy). destruct y; try contradiction; cbn [pbind]; [|exact I]. destruct LL as [L Lk].
  destruct (lt_inf _ cst).
  - intros z [Iz|Iz]; [|apply H; now right]. unfold insert_item in Iz. apply insert_at_In in Iz. destruct Iz as [-> |Iz]; [exact Ug | apply H; now left].
  - intros z [Iz|Iz]; [apply H; now left|]. apply in_app_iff in Iz. destruct Iz as [Iz|[<-|[]]]; [apply H; now right | exact Ug].
Qed.
Definition fine {A} (P : A -> Prop) (r : pres A) : Prop := match r with PHang => False | POk a => P a | _ => True end.
Lemma fine_bind {A B} (P : A -> Prop) (Q : B -> Prop) (x : pres A) (f : A -> pres B) : fine P x -> (forall a, P a -> fine Q (f a)) -> fine Q (pbind x f).
Proof. destruct x; cbn; auto; contradiction. Qed.
Lemma split_fine ind fl Q r Y0 g Wch sch omega cst LL : spread ind g Wch sch -> units (gW g) (gs g) (gt g) -> all_signed LL ->
  fine (fun a => all_signed (fst a)) (split hbr inverse solve n nu hang ind fl Q r Y0 g Wch sch omega cst LL).
Proof. intros A1 A2 A3. pose proof (split_signed ind fl Q r Y0 g Wch sch omega cst LL A1 A2 A3) as H. unfold fine. destruct (split _ _ _ _ _ _ _ _ _ _ _ _ _ _ _ _ _) as [[L m]| | | |]; exact H. Qed.
Lemma descend_fine p omega cst LL : signed p -> all_signed LL -> fine (fun a => all_signed (fst a)) (descend hbr inverse solve n nu hang p omega cst LL).
Proof.
  intros Sp H. unfold descend. cbv zeta. assert (Sq := mono_signed nu p Sp). set (q := monotony nu p) in *.
  destruct (mat_arg n (mat_size nu q)) as [im jm] eqn:Earg. destruct (mat_arg_lt n nu Hnu _ _ _ Earg) as [Him Hjm].
  set (k := vec_arg n (vec_size nu q)). assert (Hk : (k < n)%nat) by (apply vec_arg_lt with (nu := nu); exact Hnu).
  assert (H0 : all_signed (q :: fst LL, snd LL)). { intros y [[<-|Hy]|Hy]; [exact Sq | apply H; auto | apply H; auto]. }
  assert (U := refine_units n im jm (pW q) (ps q) (pt q) Sq). set (W := refine n im jm (pW q)) in *.
  assert (EQ : forall a, a = 1%Z \/ a = (-1)%Z -> spread true (start (upd2 W im jm a) (ps q) (pt q) [(im, jm)] []) true false /\ units (upd2 W im jm a) (ps q) (pt q)).
  { intros a Ha. assert (Ua : units (upd2 W im jm a) (ps q) (pt q)) by (apply units_updW; [exact U | destruct Ha as [-> | ->]; auto using unit3_1, unit3_m1]). split; [|exact Ua].
    destruct (guess_entry n hang (upd2 W im jm a) (ps q) (pt q) im jm Ua Him Hjm) as (g & Eg & Og); [rewrite upd2_same; destruct Ha; subst; discriminate | exact Hhang|].
    exists g. split; [exact Eg | now apply gok_units in Og]. }
  assert (ES : forall a, a = 1%Z \/ a = (-1)%Z -> spread true (start W (upd1 (ps q) k a) (pt q) [] [k]) false true /\ units W (upd1 (ps q) k a) (pt q)).
  { intros a Ha. assert (Ua : units W (upd1 (ps q) k a) (pt q)) by (apply units_upds; [exact U | destruct Ha as [-> | ->]; auto using unit3_1, unit3_m1]). split; [|exact Ua].
    destruct (guess_row n hang W (upd1 (ps q) k a) (pt q) k Ua Hk) as (g & Eg & Og); [unfold upd1; rewrite Nat.eqb_refl; destruct Ha; subst; discriminate | exact Hhang|].
    exists g. split; [exact Eg | now apply gok_units in Og]. }
  assert (E0 : spread false (start W (ps q) (pt q) [] []) false false) by exact U.
  destruct (Rlt_dec _ _); (destruct (_ =? 0)%Z; [|destruct (_ =? 1)%Z]).
  - destruct (EQ 1%Z) as [A1 A2]; auto. destruct (EQ (-1)%Z) as [B1 B2]; auto.
    eapply fine_bind; [apply split_fine; eassumption|]. intros [L1 m1] H1. eapply fine_bind; [apply split_fine; eassumption|]. intros [L2 m2] H2. exact H2.
  - eapply fine_bind; [apply split_fine; [exact E0 | exact U | exact H0]|]. intros [L1 m1] H1. exact H1.
  - eapply fine_bind; [apply split_fine; [exact E0 | exact U | exact H0]|]. intros [L1 m1] H1. exact H1.
  - destruct (ES 1%Z) as [A1 A2]; auto. destruct (ES (-1)%Z) as [B1 B2]; auto.
    eapply fine_bind; [apply split_fine; eassumption|]. intros [L1 m1] H1. eapply fine_bind; [apply split_fine; eassumption|]. intros [L2 m2] H2. exact H2.
  - eapply fine_bind; [apply split_fine; [exact E0 | exact U | exact H0]|]. intros [L1 m1] H1. exact H1.
  - eapply fine_bind; [apply split_fine; [exact E0 | exact U | exact H0]|]. intros [L1 m1] H1. exact H1.
Qed.
Lemma result_fine o : fine (fun _ : R => True) (result o).
Proof. destruct o; exact I. Qed.
Lemma loop_fine : forall fuel LL omega cst oc, all_signed LL -> fine (fun _ => True) (pps_loop hbr inverse solve n nu tol hang fuel LL omega cst oc).
Proof.
  induction fuel as [|f IH]; intros [[|p rest] Lk] omega cst oc H; cbn [pps_loop fst snd]; try exact I.
  - destruct (exact_mat n (pQ p)); [apply result_fine|]. destruct (far _ _ _); apply result_fine.
  - destruct (exact_mat n (pQ p)); [apply result_fine|]. destruct (far _ _ _); [|apply result_fine].
    eapply fine_bind; [apply descend_fine; [apply H; now left; left | intros y Hy; apply H; cbn [fst snd] in *; destruct Hy; [left; now right | now right]]|].
    intros [[L Lk'] mu] H1. cbn [fst snd] in H1 |- *. set (om := lower_mu omega mu).
    assert (HL : forall y, In y (tl L) -> signed y). { intros y Hy. apply H1. left. destruct L; [contradiction | now right]. }
    destruct (tl L) as [|a L'].
    + destruct (filter (not_above om) Lk') as [|c Lk2] eqn:EF; [|exact I]. cbn [filter]. apply result_fine.
    + assert (G : forall X Y, (forall y, In y X -> In y (a :: L')) -> (forall y, In y Y -> In y Lk') -> fine (fun _ => True)
          match X with [] => match Y with [] => result om | _ => PRaise end | p' :: _ => pps_loop hbr inverse solve n nu tol hang f (X, Y) om cst (Some (pg p')) end).
      { intros X Y HX HY. destruct X as [|x X']; [destruct Y; [apply result_fine | exact I]|]. apply IH. intros y [Hy|Hy]; [apply HL, HX; exact Hy | apply H1; right; apply HY; exact Hy]. }
      destruct (filter (not_above om) Lk') as [|c Lk2]; (destruct Lk' as [|z Lk3]; [apply (G (filter (not_above om) (a :: L')) []) | apply (G (a :: L') (z :: Lk3))]; auto; intros y Hy; now apply filter_In in Hy).
Qed.
Lemma algo_fine A b inv_A maxiter : fine (fun _ => True) (pps_algo hbr inverse solve n nu tol hang A b inv_A maxiter).
Proof.
  unfold pps_algo. destruct (hbr A b); [|exact I]. cbn [por pbind]. apply loop_fine. intros y [[<-|[]]|[]]. repeat split; intros; right; left; reflexivity.
Qed.
End Ends.

Theorem pps_ends : forall hbr inverse solve det hang n A b tol maxiter nu, (nu < n)%nat -> (4 * n + 3 <= hang)%nat ->
  pps hbr inverse solve det hang n A b tol maxiter nu <> PHang.
Proof.
  intros hbr inverse solve det hang n A b tol maxiter nu Hnu Hh E. unfold pps in E. destruct (Req_EM_T _ _); [discriminate|]. destruct (inverse A) as [iA|]; [|discriminate]. cbn [por pbind] in E.
  pose proof (algo_fine hbr inverse solve n nu tol hang Hnu Hh A b iA maxiter) as F1. pose proof (algo_fine hbr inverse solve n nu tol hang Hnu Hh A (fun i => r_neg (b i)) iA maxiter) as F2.
  destruct (pps_algo hbr inverse solve n nu tol hang A b iA maxiter); try discriminate; try contradiction. cbn [pbind] in E.
  destruct (pps_algo _ _ _ _ _ _ _ _ (fun i => r_neg (b i)) _ _); try discriminate; contradiction.
Qed.

(** ** When the calls return *)
Section Returns.
Variables (hbr : imat -> ivec -> option ivec) (inverse : imat -> option imat) (solve : mat -> vec -> option vec).
Variables (n nu : nat) (tol : R) (hang : nat) (A : imat) (b : ivec).
Hypothesis Hnu : (nu < n)%nat.
Hypothesis Hhang : (4 * n + 3 <= hang)%nat.
Hypothesis Hcalls : calls_return hbr inverse solve n A b.
Definition item2 (p : pitem) : Prop := pok n A b (pQ p) (pr p) /\ signed p.
Lemma split_ret ind fl Q r Y0 g Wch sch omega h rest : pok n A b Q r -> spread n hang ind g Wch sch ->
  exists rest' Mn, split hbr inverse solve n nu hang ind fl Q r Y0 g Wch sch omega None (h :: rest, []) = POk ((h :: rest', []), Mn) /\ forall y, In y rest' -> In y rest \/ item2 y.
Proof.
  intros [I1 I2] Sp. destruct (Hcalls Q r I1 I2) as ((vx & E1) & (iQ & E2) & (Mn & E3)). unfold split. rewrite E1, E3. cbn [por pbind].
  assert (P : exists g', (if lt_inf (rl (vx nu)) omega && ind then match propagate hang n Wch sch false g with Some g' => POk g' | None => PHang end else POk g) = POk g' /\ (lt_inf (rl (vx nu)) omega = true -> units (gW g') (gs g') (gt g'))).
  { unfold spread in Sp. destruct ind; [|rewrite andb_false_r; eauto]. rewrite andb_true_r. destruct (lt_inf _ _); [|eexists; split; [reflexivity | discriminate]]. destruct Sp as (g' & -> & Ug). eauto. }
  destruct P as (g' & -> & Ug). cbn [pbind]. destruct (lt_inf (rl (vx nu)) omega).
  - assert (Y : exists y, (if fl then por (inverse Q) else POk Y0) = POk y) by (destruct fl; [rewrite E2|]; eexists; reflexivity). destruct Y as (y & ->). cbn [pbind lt_inf].
    set (new := mkp _ _ _ _ _ _ _ _). destruct (insert_item_keeps new h rest) as (k & ->). do 2 eexists. split; [reflexivity|].
    intros z Iz. apply insert_at_In in Iz. destruct Iz as [-> |Iz]; [right | now left]. split; [split; assumption | now apply Ug].
  - exists rest, Mn. auto.
Qed.
Lemma descend_ret p omega rest : item2 p -> exists h rest' mu, descend hbr inverse solve n nu hang p omega None (rest, []) = POk ((h :: rest', []), mu) /\ forall y, In y rest' -> In y rest \/ item2 y.
Proof.
  intros [Ip Sp]. unfold descend. cbv zeta. assert (Sq := mono_signed nu p Sp). assert (Iq : pok n A b (pQ (monotony nu p)) (pr (monotony nu p))) by (apply mono_iok; exact Ip).
  set (q := monotony nu p) in *. destruct Iq as [I1 I2].
  destruct (mat_arg n (mat_size nu q)) as [im jm] eqn:Earg. destruct (mat_arg_lt n nu Hnu _ _ _ Earg) as [Him Hjm].
  set (k := vec_arg n (vec_size nu q)). assert (Hk : (k < n)%nat) by (apply vec_arg_lt with (nu := nu); exact Hnu).
  destruct (I1 im jm Him Hjm) as [[Q1 Q2] Q3]. destruct (I2 k Hk) as [[B1 B2] B3]. cbn [fst snd].
  assert (UQ : forall c, rl (pQ q im jm) <= c <= rh (pQ q im jm) -> pok n A b (upd2 (pQ q) im jm (r_point c)) (pr q)).
  { intros c Hc. split; [apply inside_upd2; assumption | exact I2]. }
  assert (UR : forall c, rl (pr q k) <= c <= rh (pr q k) -> pok n A b (pQ q) (upd1 (pr q) k (r_point c))).
  { intros c Hc. split; [exact I1 | apply inside_upd1; assumption]. }
  assert (U := refine_units n im jm (pW q) (ps q) (pt q) Sq). set (W := refine n im jm (pW q)) in *.
  assert (EQ : forall a, a = 1%Z \/ a = (-1)%Z -> spread n hang true (start (upd2 W im jm a) (ps q) (pt q) [(im, jm)] []) true false).
  { intros a Ha. assert (Ua : units (upd2 W im jm a) (ps q) (pt q)) by (apply units_updW; [exact U | destruct Ha as [-> | ->]; auto using unit3_1, unit3_m1]).
    destruct (guess_entry n hang (upd2 W im jm a) (ps q) (pt q) im jm Ua Him Hjm) as (g & Eg & Og); [rewrite upd2_same; destruct Ha; subst; discriminate | exact Hhang|].
    exists g. split; [exact Eg | now apply gok_units in Og]. }
  assert (ES : forall a, a = 1%Z \/ a = (-1)%Z -> spread n hang true (start W (upd1 (ps q) k a) (pt q) [] [k]) false true).
  { intros a Ha. assert (Ua : units W (upd1 (ps q) k a) (pt q)) by (apply units_upds; [exact U | destruct Ha as [-> | ->]; auto using unit3_1, unit3_m1]).
    destruct (guess_row n hang W (upd1 (ps q) k a) (pt q) k Ua Hk) as (g & Eg & Og); [unfold upd1; rewrite Nat.eqb_refl; destruct Ha; subst; discriminate | exact Hhang|].
    exists g. split; [exact Eg | now apply gok_units in Og]. }
  assert (E0 : spread n hang false (start W (ps q) (pt q) [] []) false false) by exact U.
  assert (two : forall ind1 fl1 Qa ra Ya ga W1 s1 ind2 fl2 Qb rb Yb gb W2 s2, pok n A b Qa ra -> pok n A b Qb rb -> spread n hang ind1 ga W1 s1 -> spread n hang ind2 gb W2 s2 ->
    exists h rest' mu, pbind (split hbr inverse solve n nu hang ind1 fl1 Qa ra Ya ga W1 s1 omega None (q :: rest, [])) (fun a1 =>
      pbind (split hbr inverse solve n nu hang ind2 fl2 Qb rb Yb gb W2 s2 omega None (fst a1)) (fun a2 => POk (fst a2, Rmin (vnu nu (snd a1)) (vnu nu (snd a2))))) = POk ((h :: rest', []), mu) /\ forall y, In y rest' -> In y rest \/ item2 y).
  { intros ind1 fl1 Qa ra Ya ga W1 s1 ind2 fl2 Qb rb Yb gb W2 s2 Pa Pb Sa Sb.
    destruct (split_ret ind1 fl1 Qa ra Ya ga W1 s1 omega q rest Pa Sa) as (l1 & m1 & -> & H1). cbn [pbind fst snd].
    destruct (split_ret ind2 fl2 Qb rb Yb gb W2 s2 omega q l1 Pb Sb) as (l2 & m2 & -> & H2). cbn [pbind fst snd].
    do 3 eexists. split; [reflexivity|]. intros y Hy. destruct (H2 y Hy) as [Hy'|]; auto. }
  assert (one : forall ind1 fl1 Qa ra Ya ga W1 s1, pok n A b Qa ra -> spread n hang ind1 ga W1 s1 ->
    exists h rest' mu, pbind (split hbr inverse solve n nu hang ind1 fl1 Qa ra Ya ga W1 s1 omega None (q :: rest, [])) (fun a1 => POk (fst a1, vnu nu (snd a1))) = POk ((h :: rest', []), mu) /\ forall y, In y rest' -> In y rest \/ item2 y).
  { intros ind1 fl1 Qa ra Ya ga W1 s1 Pa Sa. destruct (split_ret ind1 fl1 Qa ra Ya ga W1 s1 omega q rest Pa Sa) as (l1 & m1 & -> & H1). cbn [pbind fst snd].
    do 3 eexists. split; [reflexivity | exact H1]. }
  destruct (Rlt_dec _ _); (destruct (_ =? 0)%Z; [|destruct (_ =? 1)%Z]).
  - apply two; [apply UQ; lra | apply UQ; lra | apply EQ; auto | apply EQ; auto].
  - apply one; [apply UQ; lra | exact E0].
  - apply one; [apply UQ; lra | exact E0].
  - apply two; [apply UR; lra | apply UR; lra | apply ES; auto | apply ES; auto].
  - apply one; [apply UR; lra | exact E0].
  - apply one; [apply UR; lra | exact E0].
Qed.
Lemma loop_ret : forall fuel p rest omega oc, (forall y, In y (p :: rest) -> item2 y) -> (oc = None -> exact_mat n (pQ p) = false /\ omega = None /\ (0 < fuel)%nat) ->
  exists g, pps_loop hbr inverse solve n nu tol hang fuel (p :: rest, []) omega None oc = POk g.
Proof.
  induction fuel as [|f IH]; intros p rest omega oc H Hoc; cbn [pps_loop fst snd].
  - destruct oc as [o|]; [|destruct (Hoc eq_refl) as (_ & _ & L); lia]. exists o. destruct (exact_mat _ _); [reflexivity|]. destruct (far _ _ _); reflexivity.
  - destruct (exact_mat n (pQ p)) eqn:Ex.
    { destruct oc as [o|]; [exists o; reflexivity | destruct (Hoc eq_refl); discriminate]. }
    destruct (far tol omega (pg p)) eqn:Ef.
    + destruct (descend_ret p omega rest (H p (or_introl eq_refl))) as (h & r' & mu & -> & Hr). cbn [pbind fst snd tl filter]. set (om := lower_mu omega mu).
      assert (Hom : exists w, om = Some w) by (unfold om, lower_mu; destruct omega; eauto). destruct Hom as (w & Hw).
      assert (G : exists g, match filter (not_above om) r' with [] => result om | p' :: _ => pps_loop hbr inverse solve n nu tol hang f (filter (not_above om) r', []) om None (Some (pg p')) end = POk g).
      { assert (HF : forall y, In y (filter (not_above om) r') -> item2 y).
        { intros y Hy. apply filter_In in Hy. destruct Hy as [Hy _]. destruct (Hr y Hy) as [Hy'|]; [apply H; now right | assumption]. }
        destruct (filter (not_above om) r') as [|p' r2]; [rewrite Hw; exists w; reflexivity|]. apply IH; [exact HF | discriminate]. }
      destruct r' as [|a r'']; exact G.
    + destruct oc as [o|]; [exists o; reflexivity|]. destruct (Hoc eq_refl) as (_ & -> & _). discriminate.
Qed.
Lemma algo_ret inv_A maxiter : proper_mat n n A -> proper_vec n b -> exact_mat n A = false -> (0 <= maxiter)%Z ->
  exists g, pps_algo hbr inverse solve n nu tol hang A b inv_A maxiter = POk g.
Proof.
  intros PA Pb Ex Hm. assert (P : pok n A b A b). { split; [intros i j Hi Hj; pose proof (PA i j Hi Hj) as P; unfold proper in P; lra | intros i Hi; pose proof (Pb i Hi) as P; unfold proper in P; lra]. }
  destruct (Hcalls A b (proj1 P) (proj2 P)) as ((vx & E1) & _). unfold pps_algo. rewrite E1. cbn [por pbind]. apply loop_ret.
  - intros y [<-|[]]. split; [exact P|]. repeat split; intros; right; left; reflexivity.
  - intros _. cbn [pQ]. split; [exact Ex|]. split; [reflexivity | lia].
Qed.
End Returns.
Lemma not_exact_mat n A i j : (i < n)%nat -> (j < n)%nat -> rl (A i j) <> rh (A i j) -> exact_mat n A = false.
Proof.
  intros Hi Hj N. destruct (exact_mat n A) eqn:E; [|reflexivity]. exfalso. apply N. eapply exact_points; [exact Hi | exact E | exact Hi | exact Hj].
Qed.
Theorem pps_returns : forall hbr inverse solve det hang n A b tol maxiter nu, (nu < n)%nat -> (4 * n + 3 <= hang)%nat -> proper_mat n n A -> proper_vec n b ->
  (exists i j, (i < n)%nat /\ (j < n)%nat /\ rl (A i j) <> rh (A i j)) -> det (mids A) <> 0 ->
  calls_return hbr inverse solve n A b -> calls_return hbr inverse solve n A (negated b) -> (0 <= maxiter)%Z ->
  exists X, pps hbr inverse solve det hang n A b tol maxiter nu = POk X.
Proof.
  intros hbr inverse solve det hang n A b tol maxiter nu Hnu Hh PA Pb (i & j & Hi & Hj & Nij) Hd C1 C2 Hm.
  pose proof (not_exact_mat n A i j Hi Hj Nij) as Ex. assert (Pn : proper_vec n (negated b)). { intros k Hk. pose proof (Pb k Hk) as P. unfold proper in *. unfold negated. cbn [rl rh]. lra. }
  unfold pps. destruct (Req_EM_T _ _); [contradiction|]. assert (EA : exists iA, inverse A = Some iA).
  { destruct (C1 A b) as (_ & (iA & E) & _); [intros a c Ha Hc; pose proof (PA a c Ha Hc) as P; unfold proper in P; lra | intros a Ha; pose proof (Pb a Ha) as P; unfold proper in P; lra|]. eauto. }
  destruct EA as (iA & EA). rewrite EA. cbn [por pbind].
  destruct (algo_ret hbr inverse solve n nu tol hang A b Hnu Hh C1 iA maxiter PA Pb Ex Hm) as (lo & ->). cbn [pbind].
  destruct (algo_ret hbr inverse solve n nu tol hang A (negated b) Hnu Hh C2 iA maxiter PA Pn Ex Hm) as (hi & E). change (fun i => r_neg (b i)) with (negated b). rewrite E. cbn [pbind]. eauto.
Qed.
