(** Proofs about PSS on doubles: the loop. *)
From Coq Require Import ZArith Reals List Bool Arith Lia Lra Psatz Sorting.Sorted.
From Flocq Require Import Core IEEE754.BinarySingleNaN.
From Verif Require Import Base PyNum Kernel Spec Expr XReal XArith KernelProofs ExprProofs KernelAlg KernelMore Witness Arrays Construct SpecArray ArrayProofs ArrayMore ArrayMat
  ConstructProofs ConstructMore SpecIso IsoProofs SpecSolvers NewtonProofs NewtonVerify GSProofs ArrIso PssFl SpecPssFl PssFlProofs PssFlDiv PssFlRest.
Import ListNotations.
Open Scope R_scope.

(** ** Halves *)
Lemma half_modest X l r c1 c2 m Z : modest X -> xval (lo X) = XFin l -> xval (hi X) = XFin r -> small_num c1 -> small_num c2 -> (exists u v, xval c1 = XFin u /\ xval c2 = XFin v /\ l <= u <= v /\ v <= r) ->
  returns (single_interval c1 c2 false false) m Z -> modest Z /\ lo Z = c1 /\ hi Z = c2.
Proof.
  intros (kX & sX & PX & B1 & B2) El Eh s1 s2 (u & v & E1 & E2 & H1 & H2) H.
  destruct (single_unsorted c1 c2 m) as (Z' & HZ & Zl & Zh & K). assert (Z' = Z) by exact (same_result _ _ _ _ HZ H). subst Z'.
  destruct (xval_num_val _ _ E1) as [F1 V1], (xval_num_val _ _ E2) as [F2 V2], (xval_num_val _ _ El) as [_ Vl], (xval_num_val _ _ Eh) as [_ Vh]. rewrite Vl in B1. rewrite Vh in B2.
  split; [|split; assumption]. unfold modest, small_itv, proper_fin, finite_itv. rewrite Zl, Zh, V1, V2. apply Rabs_le_inv in B1, B2.
  split; [apply K; rewrite num_le_x, E1, E2; apply xleb_fin; lra|]. split; [split; assumption|]. split; [split; [split; assumption | lra]|]. split; apply Rabs_le; lra.
Qed.
Lemma cut_halves X md XX : modest X -> returns (cut_fl X) md XX -> modest (fst XX) /\ modest (snd XX) /\ forall r, member X r -> member (fst XX) r \/ member (snd XX) r.
Proof.
  intros MX H. assert (MX' := MX). destruct MX' as (kX & sX & PX & _). destruct (finite_x _ (proj1 (proj1 PX))) as (l & El & Vl), (finite_x _ (proj2 (proj1 PX))) as (h & Eh & Vh).
  assert (O : l <= h) by (rewrite <- Vl, <- Vh; exact (proj2 PX)).
  assert (C : exists c, (small_num c /\ exists u, xval c = XFin u /\ l <= u <= h) /\ returns (X1 <- single_interval (lo X) c false false ;; X2 <- single_interval c (hi X) false false ;; mret (X1, X2)) md XX).
  { unfold cut_fl in H. assert (Mid : forall c, returns (mid X) md c -> small_num c /\ exists u, xval c = XFin u /\ l <= u <= h).
    { intros c Hc. destruct (modest_mid X md c MX Hc) as (g & -> & F & Mg). split; [exact I|]. apply is_finite_x in F. exists (B2R g). split; [exact F|].
      apply member_x in Mg. rewrite El, Eh in Mg. exact Mg. }
    destruct (num_eq (lo X) pn0) eqn:Z.
    - rewrite keeps_returns in H by apply keeps_mid. destruct H as (c & Hc & H). eauto.
    - rewrite keeps_returns in H.
      2:{ apply keeps_bind; [apply keeps_prim|]. intro. destruct (_ && _); [apply keeps_ret | apply keeps_mid]. }
      destruct H as (c & Hc & H). exists c. split; [|exact H]. rewrite keeps_returns in Hc by apply keeps_prim. destruct Hc as (q & Hq & Hc).
      destruct (num_lt (PInt (-2)) q && num_lt q mhalf) eqn:E; [|now apply Mid]. apply returns_ret in Hc. subst c. split; [exact I|]. exists 0. split; [reflexivity|].
      apply (num_eq_0f _ _ El) in Z. destruct (div_fin md _ _ h l q (proj2 sX) (proj1 sX) Eh El Z Hq) as [_ Xq]. apply andb_prop in E. destruct E as [_ E]. rewrite num_lt_x, Xq in E.
      assert (N : h / l < 0).
      { apply Rnot_le_lt. intro P. assert (L := xround_mono md 0 (h / l) P). rewrite (xround_gen md 0) in L by (first [apply generic_format_0 | rewrite Rabs_R0; apply bpow_gt_0]).
        assert (LT : xltb (xround md (h / l)) (XFin 0) = true).
        { assert (HM : num_lt mhalf pn0 = true) by reflexivity. rewrite num_lt_x in HM. exact (xltb_trans _ _ _ E HM). }
        destruct (xround md (h / l)) as [| | |w]; try discriminate. apply xleb_fin in L. apply xltb_fin in LT. lra. }
      assert (Hp : 0 < l * l) by nra. assert (Hm : h / l * (l * l) < 0) by nra. replace (h / l * (l * l)) with (h * l) in Hm by (field; exact Z). nra. }
  destruct C as (c & (sc & u & Eu & Hu) & HC). rewrite keeps_returns in HC by apply keeps_single. destruct HC as (X1 & H1 & HC). rewrite keeps_returns in HC by apply keeps_single. destruct HC as (X2 & H2 & HC).
  apply returns_ret in HC. subst XX. cbn [fst snd].
  destruct (half_modest X l h (lo X) c md X1 MX El Eh (proj1 sX) sc) as (M1 & L1 & U1); [exists l, u; repeat split; try assumption; lra | exact H1 |].
  destruct (half_modest X l h c (hi X) md X2 MX El Eh sc (proj2 sX)) as (M2 & L2 & U2); [exists u, h; repeat split; try assumption; lra | exact H2 |].
  split; [exact M1|]. split; [exact M2|]. intros r. rewrite !member_x, L1, U1, L2, U2, El, Eh, Eu. cbn. intros [A B]. destruct (Rle_dec r u); [left | right]; split; lra.
Qed.
Lemma set_nth_box Q xs k X X1 r : in_box Q xs -> nth_error Q k = Some X -> nth_error xs k = Some r -> member X1 r -> in_box (set_nth_itv k X1 Q) xs.
Proof.
  intro B. revert k. induction B as [|Y y Q xs HY B IH]; intros [|k] EQ Ex M; cbn in *; try discriminate.
  - injection Ex as ->. constructor; assumption.
  - constructor; [exact HY|]. exact (IH k EQ Ex M).
Qed.
Lemma set_nth_Forall (P : itv -> Prop) Q k X : Forall P Q -> P X -> Forall P (set_nth_itv k X Q).
Proof.
  intros F HX. unfold set_nth_itv. apply Forall_app. rewrite Forall_forall in F. split; [|constructor; [exact HX|]]; apply Forall_forall; intros Y HY; apply F.
  - rewrite <- (firstn_skipn k Q). apply in_or_app. auto.
  - rewrite <- (firstn_skipn (S k) Q). apply in_or_app. auto.
Qed.
Lemma set_nth_len Q k X Y : nth_error Q k = Some Y -> length (set_nth_itv k X Q) = length Q.
Proof.
  intro E. assert (k < length Q)%nat by (apply nth_error_Some; congruence). unfold set_nth_itv. rewrite app_length, firstn_length. cbn [length]. rewrite skipn_length. lia.
Qed.

(** ** The list *)
Definition qle (a c : fitem) : Prop := num_le (fq a) (fq c) = true.
Lemma insort_in x L y : In y (insort_fl x L) <-> y = x \/ In y L.
Proof.
  induction L as [|z L IH]; cbn [insort_fl In]; [intuition congruence|]. destruct (num_lt (fq z) (fq x)); cbn [In]; [rewrite IH; tauto|]. intuition congruence.
Qed.
Lemma num_nlt_le a c : xval a <> XNan -> xval c <> XNan -> num_lt a c = false -> num_le c a = true.
Proof. intros Na Nc. rewrite num_lt_x, num_le_x. now apply xltb_false_xleb. Qed.
Lemma num_lt_le a c : num_lt a c = true -> num_le a c = true.
Proof. rewrite num_lt_x, num_le_x. apply xltb_xleb. Qed.
Lemma num_le_tr a c d : num_le a c = true -> num_le c d = true -> num_le a d = true.
Proof. rewrite !num_le_x. apply xleb_trans. Qed.
Lemma insort_sorted x L : xval (fq x) <> XNan -> Forall (fun y => xval (fq y) <> XNan) L -> StronglySorted qle L -> StronglySorted qle (insort_fl x L).
Proof.
  intros Nx NL H. induction H as [|y L HL IH F]; cbn [insort_fl]; [repeat constructor|]. inversion NL as [|? ? Ny NL']; subst.
  destruct (num_lt (fq y) (fq x)) eqn:E.
  - constructor; [now apply IH|]. apply Forall_forall. intros z Hz. apply insort_in in Hz. destruct Hz as [-> | Hz]; [now apply num_lt_le|]. rewrite Forall_forall in F. now apply F.
  - assert (xy : qle x y) by (unfold qle; now apply num_nlt_le). constructor; [now constructor|]. constructor; [exact xy|]. eapply Forall_impl; [|exact F]. intros z Hz. unfold qle in *. eapply num_le_tr; eassumption.
Qed.
Lemma delete_in k L y : In y (delete_fl k L) -> In y L.
Proof. revert k. induction L as [|z L IH]; intros [|k]; cbn; auto. intros [-> | H]; [auto | right; now apply IH with k]. Qed.
Lemma delete_keeps k L y it : nth_error L k = Some it -> In y L -> y = it \/ In y (delete_fl k L).
Proof.
  revert k. induction L as [|z L IH]; intros [|k]; cbn; try discriminate.
  - intros E [-> | H]; [left; congruence | auto].
  - intros E [-> | H]; [auto|]. destruct (IH k E H); auto.
Qed.
Lemma delete_sorted k L : StronglySorted qle L -> StronglySorted qle (delete_fl k L).
Proof.
  intro H. revert k. induction H as [|y L HL IH F]; intros [|k]; cbn; try constructor; auto. apply Forall_forall. intros z Hz. apply delete_in in Hz. rewrite Forall_forall in F. now apply F.
Qed.
Lemma filter_sorted (f : fitem -> bool) L : StronglySorted qle L -> StronglySorted qle (filter f L).
Proof.
  induction 1 as [|y L HL IH F]; cbn; [constructor|]. destruct (f y); [|exact IH]. constructor; [exact IH|]. apply Forall_forall. intros z Hz. apply filter_In in Hz. rewrite Forall_forall in F. now apply F.
Qed.

(** ** The loop *)
Section Loop.
Variables (eo : list itv -> pynum) (m n nu : nat) (A : nat -> nat -> itv) (b V : nat -> itv) (tol : pynum) (md : rmode) (f : R -> R).
Hypothesis Hnu : (nu < n)%nat.
Hypothesis HS : fl_system m n nu A b.
Hypothesis HV : fl_box n nu V.
Hypothesis Heo : lp_bounds eo f m n nu A b V.
Hypothesis Hf : forall x, in_fl_box n V x -> near md (x nu) (f (x nu)).

Definition boxes_ok (L : list fitem) : Prop := Forall (fun it => length (fQ it) = (n - 1)%nat /\ Forall modest (fQ it)) L.
Definition covers (L : list fitem) (omega : pynum) (x : nat -> R) : Prop :=
  (exists it, In it L /\ in_box (fQ it) (remaining n nu x) /\ xle_R (xval (fq it)) (f (x nu))) \/ xle_R (xval omega) (f (x nu)).
Definition ordered (L : list fitem) (omega : pynum) : Prop := StronglySorted qle L /\ Forall (fun it => num_le (fq it) omega = true) L /\ xval omega <> XNan.
Definition good_list (L : list fitem) (omega : pynum) (x : nat -> R) : Prop := boxes_ok L /\ ordered L omega /\ covers L omega x.
Lemma good_head L omega x md' v : good_list L omega x -> returns (head_fl L) md' v -> xle_R (xval v) (f (x nu)).
Proof.
  intros (_ & (S & B & _) & C) H. destruct L as [|y L]; [discriminate|]. apply returns_ret in H. subst v.
  destruct C as [(it & I & _ & Hq)|Ho].
  - inversion S as [|? ? _ F]; subst. destruct I as [<- | I]; [exact Hq|]. rewrite Forall_forall in F. specialize (F it I). unfold qle in F. rewrite num_le_x in F. exact (xleb_xle_R _ _ _ F Hq).
  - inversion B as [|? ? By _]; subst. rewrite num_le_x in By. exact (xleb_xle_R _ _ _ By Ho).
Qed.
Lemma keeps_add_half fs Q omega L : keeps_mode (add_half_fl eo m n nu A b V fs Q omega L).
Proof.
  unfold add_half_fl. destruct (zero_in_fl Q).
  - apply keeps_bind; [apply keeps_rest|]. intro. apply keeps_bind; [apply keeps_omega_at|]. intro. destruct (num_lt _ _); [|apply keeps_ret].
    apply keeps_bind; [apply keeps_rest_mid|]. intro. apply keeps_bind; [apply keeps_omega_at|]. intro. apply keeps_ret.
  - cbv zeta. destruct (num_lt _ _); apply keeps_ret.
Qed.
Lemma insert_ok it L omega : length (fQ it) = (n - 1)%nat -> Forall modest (fQ it) -> num_lt (fq it) omega = true -> boxes_ok L -> ordered L omega ->
  boxes_ok (insort_fl it L) /\ ordered (insort_fl it L) omega.
Proof.
  intros LQ MQ Lt BL (S & B & N). split.
  - apply Forall_forall. intros y Hy. apply insort_in in Hy. destruct Hy as [-> | Hy]; [auto|]. unfold boxes_ok in BL. rewrite Forall_forall in BL. now apply BL.
  - split; [|split; [|exact N]].
    + apply insort_sorted; [|eapply Forall_impl; [|exact B] | exact S]. { rewrite num_lt_x in Lt. apply xltb_xleb in Lt. exact (xleb_nnan_l _ _ Lt). }
      intros y Hy. cbn beta in Hy. rewrite num_le_x in Hy. exact (xleb_nnan_l _ _ Hy).
    + apply Forall_forall. intros y Hy. apply insort_in in Hy. destruct Hy as [-> | Hy]; [now apply num_lt_le|]. rewrite Forall_forall in B. now apply B.
Qed.
Lemma zero_free Q : zero_in_fl Q = false -> Forall (fun X => ~ member X 0) Q.
Proof.
  intro H. apply Forall_forall. intros X I M. apply member_contains0 in M. unfold zero_in_fl in H. assert (existsb (fun X => contains_num X pn0) Q = true) by (apply existsb_exists; eauto). congruence.
Qed.
(** Adding a half keeps the list good and covers the solutions in the half. *)
Lemma add_half_ok fs Q omega L r : length Q = (n - 1)%nat -> Forall modest Q -> boxes_ok L -> ordered L omega ->
  returns (add_half_fl eo m n nu A b V fs Q omega L) md r ->
  boxes_ok (fst r) /\ ordered (fst r) omega /\ (forall y, In y L -> In y (fst r)) /\
  forall x, fl_solution m n A b x -> in_fl_box n V x -> flags_ok md (x nu) (f (x nu)) fs -> in_box Q (remaining n nu x) -> covers (fst r) omega x.
Proof.
  intros LQ MQ BL OL H.
  assert (Done : forall q full eta, r = (if num_lt q omega then (insort_fl (mkfitem Q q full) L, eta) else (L, pinf)) ->
    (forall x, fl_solution m n A b x -> in_fl_box n V x -> flags_ok md (x nu) (f (x nu)) fs -> in_box Q (remaining n nu x) -> xle_R (xval q) (f (x nu))) ->
    boxes_ok (fst r) /\ ordered (fst r) omega /\ (forall y, In y L -> In y (fst r)) /\
    forall x, fl_solution m n A b x -> in_fl_box n V x -> flags_ok md (x nu) (f (x nu)) fs -> in_box Q (remaining n nu x) -> covers (fst r) omega x).
  { intros q full eta -> Low. destruct (num_lt q omega) eqn:E; cbn [fst].
    - destruct (insert_ok (mkfitem Q q full) L omega LQ MQ E BL OL) as [A1 A2]. split; [exact A1|]. split; [exact A2|]. split; [intros y Hy; apply insort_in; auto|].
      intros x Sx Vx Fx Bx. left. exists (mkfitem Q q full). split; [apply insort_in; auto|]. split; [exact Bx | now apply Low].
    - split; [exact BL|]. split; [exact OL|]. split; [auto|]. intros x Sx Vx Fx Bx. right. assert (Lx := Low x Sx Vx Fx Bx).
      assert (Nq : xval q <> XNan) by (intro N; rewrite N in Lx; exact Lx). apply (num_nlt_le q omega Nq (proj2 (proj2 OL))) in E. rewrite num_le_x in E. exact (xleb_xle_R _ _ _ E Lx). }
  unfold add_half_fl in H. destruct (zero_in_fl Q) eqn:Z.
  - rewrite keeps_returns in H by apply keeps_rest. destruct H as (Ar & HAr & H). rewrite keeps_returns in H by apply keeps_omega_at. destruct H as (q & Hq & H).
    assert (Low : forall x, fl_solution m n A b x -> in_fl_box n V x -> flags_ok md (x nu) (f (x nu)) fs -> in_box Q (remaining n nu x) -> xle_R (xval q) (f (x nu))).
    { intros x Sx Vx Fx Bx. exact (omega_at_below m n nu A b V md Hnu HS HV fs Ar Q x (f (x nu)) q LQ MQ Bx Sx Vx (Hf x Vx) Fx HAr Hq). }
    destruct (num_lt q omega) eqn:E.
    + rewrite keeps_returns in H by apply keeps_rest_mid. destruct H as (Am & _ & H). rewrite keeps_returns in H by apply keeps_omega_at. destruct H as (eta & _ & H). apply returns_ret in H.
      apply (Done q true eta); [now rewrite E | exact Low].
    + apply returns_ret in H. apply (Done q true pinf); [now rewrite E | exact Low].
  - cbv zeta in H. apply (Done (eo Q) false (eo Q)).
    + destruct (num_lt (eo Q) omega); apply returns_ret in H; exact H.
    + intros x Sx Vx Fx Bx. apply num_le_R_x. exact (Heo Q x LQ MQ (zero_free Q Z) Bx Sx Vx).
Qed.
Lemma update_ok omega eta L x : good_list L omega x -> let (omega', L') := update_fl omega eta L in good_list L' omega' x.
Proof.
  intros (BL & (S & B & N) & C). unfold update_fl. destruct (num_lt eta omega) eqn:E; [|split; [exact BL|]; split; [split; auto | exact C]].
  assert (Ne : xval eta <> XNan) by (rewrite num_lt_x in E; apply xltb_xleb in E; exact (xleb_nnan_l _ _ E)).
  split; [apply Forall_forall; intros y Hy; apply filter_In in Hy; unfold boxes_ok in BL; rewrite Forall_forall in BL; now apply BL|]. split; [split; [now apply filter_sorted|]; split; [|exact Ne]|].
  - apply Forall_forall. intros y Hy. apply filter_In in Hy. tauto.
  - destruct C as [(it & I & Bx & Hq)|Ho].
    + destruct (num_le (fq it) eta) eqn:Q; [left; exists it; split; [apply filter_In; auto | auto]|]. right.
      assert (Nq : xval (fq it) <> XNan) by (intro NN; rewrite NN in Hq; exact Hq). assert (L1 : xleb (xval eta) (xval (fq it)) = true).
      { rewrite num_le_x in Q. destruct (xleb (xval eta) (xval (fq it))) eqn:T; [reflexivity|]. destruct (xleb_total (xval eta) (xval (fq it)) Ne Nq); congruence. }
      exact (xleb_xle_R _ _ _ L1 Hq).
    + right. rewrite num_lt_x in E. exact (xleb_xle_R _ _ _ (xltb_xleb _ _ E) Ho).
Qed.
Lemma loop_below fs : forall fuel L pos omega v x, fl_solution m n A b x -> in_fl_box n V x -> flags_ok md (x nu) (f (x nu)) fs -> good_list L omega x ->
  returns (pss_loop_fl eo m n nu A b V tol fuel fs L pos omega) md v -> xle_R (xval v) (f (x nu)).
Proof.
  induction fuel as [|fuel IH]; intros L pos omega v x Sx Vx Fx G H; cbn [pss_loop_fl] in H; (destruct (nth_error L pos) as [it|] eqn:Ep; [|discriminate]);
    (rewrite keeps_returns in H by (apply keeps_vectorize_num; intro; apply keeps_wid)); destruct H as (ws & _ & H); (destruct (argmax (adata ws)) as [[k w]|]; [|discriminate]);
    (destruct (num_le tol w); [|exact (good_head L omega x md v G H)]); [exact (good_head L omega x md v G H)|].
  destruct (nth_error (fQ it) k) as [X|] eqn:EX; [|discriminate].
  assert (KC : keeps_mode (cut_fl X)).
  { unfold cut_fl. apply keeps_bind; [destruct (num_eq _ _); [apply keeps_mid|]; apply keeps_bind; [apply keeps_prim|]; intro; destruct (_ && _); [apply keeps_ret | apply keeps_mid]|].
    intro. repeat (apply keeps_bind; [apply keeps_single | intro]). apply keeps_ret. }
  rewrite keeps_returns in H by exact KC. destruct H as (XX & HXX & H).
  rewrite keeps_returns in H by apply keeps_add_half. destruct H as (r1 & H1 & H). rewrite keeps_returns in H by apply keeps_add_half. destruct H as (r2 & H2 & H). cbv zeta in H.
  destruct G as (BL & OL & C). assert (Bit : length (fQ it) = (n - 1)%nat /\ Forall modest (fQ it)) by (unfold boxes_ok in BL; rewrite Forall_forall in BL; apply BL; exact (nth_error_In _ _ Ep)).
  destruct Bit as [Lit Mit]. assert (MX : modest X) by (rewrite Forall_forall in Mit; apply Mit; exact (nth_error_In _ _ EX)).
  destruct (cut_halves X md XX MX HXX) as (M1 & M2 & Cut).
  assert (BD : boxes_ok (delete_fl pos L)) by (apply Forall_forall; intros y Hy; apply delete_in in Hy; unfold boxes_ok in BL; rewrite Forall_forall in BL; now apply BL).
  assert (OD : ordered (delete_fl pos L) omega).
  { destruct OL as (S & B & N). split; [now apply delete_sorted|]. split; [|exact N]. apply Forall_forall. intros y Hy. apply delete_in in Hy. rewrite Forall_forall in B. now apply B. }
  destruct (add_half_ok fs (set_nth_itv k (fst XX) (fQ it)) omega (delete_fl pos L) r1) as (B1 & O1 & I1 & C1); [rewrite (set_nth_len _ _ _ _ EX); exact Lit | now apply set_nth_Forall | exact BD | exact OD | exact H1 |].
  destruct (add_half_ok fs (set_nth_itv k (snd XX) (fQ it)) omega (fst r1) r2) as (B2 & O2 & I2 & C2); [rewrite (set_nth_len _ _ _ _ EX); exact Lit | now apply set_nth_Forall | exact B1 | exact O1 | exact H2 |].
  assert (G2 : good_list (fst r2) omega x).
  { split; [exact B2|]. split; [exact O2|]. destruct C as [(y & Iy & By & Hy)|Ho]; [|right; exact Ho].
    destruct (delete_keeps pos L y it Ep Iy) as [-> | Iy'].
    - destruct (Forall2_nth _ _ _ By k X EX) as (rr & Er & Mr). destruct (Cut rr Mr) as [Mc|Mc].
      + destruct (C1 x Sx Vx Fx (set_nth_box _ _ _ _ _ _ By EX Er Mc)) as [(z & Iz & Bz & Hz)|Ho]; [left; exists z; auto | right; exact Ho].
      + exact (C2 x Sx Vx Fx (set_nth_box _ _ _ _ _ _ By EX Er Mc)).
    - left. exists y. auto. }
  assert (U := update_ok omega (if num_le (snd r1) (snd r2) then snd r1 else snd r2) (fst r2) x G2).
  destruct (update_fl omega (if num_le (snd r1) (snd r2) then snd r1 else snd r2) (fst r2)) as [omega' L3].
  destruct (first_full_fl L3) as [pos'|]; [exact (IH L3 pos' omega' v x Sx Vx Fx U H) | exact (good_head L3 omega' x md v U H)].
Qed.
(** The rows' flags *)
Lemma keeps_classic : keeps_mode (classic_rows m nu A).
Proof.
  unfold classic_rows. repeat (apply keeps_bind; [apply keeps_vectorize_num; intro; apply keeps_ret | intro]). apply keeps_mapM. intro. apply keeps_bind; [apply keeps_prim | intro; apply keeps_ret].
Qed.
Lemma algo_below maxiter v x : fl_solution m n A b x -> in_fl_box n V x ->
  (forall fs, returns (classic_rows m nu A) md fs -> flags_ok md (x nu) (f (x nu)) fs) ->
  returns (algo_fl eo m n nu A b V tol maxiter) md v -> xle_R (xval v) (f (x nu)).
Proof.
  intros Sx Vx Fx H. unfold algo_fl in H. cbv zeta in H. rewrite keeps_returns in H by apply keeps_classic. destruct H as (fs & Hfs & H).
  rewrite keeps_returns in H by apply keeps_rest. destruct H as (u & _ & H). revert H. apply loop_below; [exact Sx | exact Vx | now apply Fx |].
  destruct HV as (MV & D1 & D2). destruct (MV nu Hnu) as (k1 & s1 & p1 & _).
  split; [|split].
  - constructor; [|constructor]. cbn [fQ]. split; [now rewrite map_length, seq_length|]. apply Forall_map. apply Forall_forall. intros j Hj. apply in_seq in Hj. apply MV. apply skip_lt. lia.
  - destruct (finite_x _ (proj1 (proj1 p1))) as (l & El & Vl), (finite_x _ (proj2 (proj1 p1))) as (h & Eh & Vh).
    split; [repeat constructor|]. split; [constructor; [|constructor]; cbn [fq]; rewrite num_le_x, El, Eh; apply xleb_fin; rewrite <- Vl, <- Vh; exact (proj2 p1) | rewrite Eh; discriminate].
  - left. eexists. split; [left; reflexivity|]. cbn [fQ fq]. split.
    + rewrite (remaining_skip n nu x Hnu). unfold in_box. assert (Hn : Forall (fun k => (k < n - 1)%nat) (seq 0 (n - 1))) by (apply Forall_forall; intros k Hk; apply in_seq in Hk; lia).
      revert Hn. generalize (seq 0 (n - 1)). intros s Hn. induction Hn as [|k s Hk _ IH]; cbn [map]; constructor; [|exact IH]. apply Vx. now apply skip_lt.
    + assert (O : okm (V nu) (x nu)) by (split; [exact k1|]; split; [now split | now apply Vx]). apply (okm_near _ _ md (f (x nu)) (Hf x Vx)) in O. exact (proj1 (okm_lo _ _ O)).
Qed.
End Loop.
