(** Rohn and Neumaier on doubles: systems for which the guarantee is lost. *)
From Coq Require Import ZArith Reals List Bool Arith Lia Lra FunctionalExtensionality.
From Flocq Require Import Core IEEE754.BinarySingleNaN.
From Verif Require Import Base PyNum Kernel Spec Expr Arrays Construct SpecArray XReal XArith KernelProofs Witness RecogFl RecogFlProofs HbrFl SpecHbrFl HbrFlProofs RohnFl SpecRohnFl.
Import ListNotations.
Open Scope R_scope.

(** ** x = [1, 2^53 + 2] *)
Definition rx_A : aitv := single_mat (mkitv Classical (PFlt f1) (PFlt f1)).
Definition rx_b : aitv := single_vec (mkitv Classical (PFlt f1) (PFlt (fl 9007199254740994 0))).
Definition rx_inv (P : arr flt) : res (arr flt) :=
  match ashape P, adata P with [1%nat; 1%nat], [f] => if flt_eqb f f1 then Ok P else Err ValueError | _, _ => Err ValueError end.
Definition tol_12 : flt := fl 4951760157141521 (-92).
Lemma f1_v : B2R f1 = 1. Proof. exact hx_v6. Qed.
Lemma rx_v : B2R (fl 9007199254740994 0) = 9007199254740994. Proof. fval false 4503599627370497%positive 1%Z. Qed.
Lemma rx_system : fl_system 1 rx_A rx_b.
Proof.
  assert (G1 : good (mkitv Classical (PFlt f1) (PFlt f1))).
  { split; [reflexivity|]. split; [split; exact I|]. right. exists 1. split; [change (B2R f1 <= 1)|change (1 <= B2R f1)]; rewrite f1_v; lra. }
  assert (G2 : good (mkitv Classical (PFlt f1) (PFlt (fl 9007199254740994 0)))).
  { split; [reflexivity|]. split; [split; exact I|]. right. exists 1. split; [change (B2R f1 <= 1); rewrite f1_v|change (1 <= B2R (fl 9007199254740994 0)); rewrite rx_v]; lra. }
  split; [lia|]. split; [split; reflexivity|]. split; [split; reflexivity|]. split; [reflexivity|]. split; [reflexivity|].
  split; (apply Forall_cons; [assumption | apply Forall_nil]).
Qed.
Lemma rx_solution : solution 1 rx_A rx_b (fun _ => 1).
Proof.
  exists (fun _ _ => 1), (fun _ => 1). split; [|split].
  - intros [|i] [|k] Hi Hk; try lia. eexists. split; [reflexivity|]. split; [change (B2R f1 <= 1)|change (1 <= B2R f1)]; rewrite f1_v; lra.
  - intros [|i] Hi; try lia. eexists. split; [reflexivity|]. split; [change (B2R f1 <= 1); rewrite f1_v|change (1 <= B2R (fl 9007199254740994 0)); rewrite rx_v]; lra.
  - intros [|i] Hi; try lia. cbn. lra.
Qed.
Lemma rx_exact P C : rx_inv P = Ok C -> inverse_within 0 1 (amap PFlt P) C.
Proof.
  unfold rx_inv. destruct P as [s l]. cbn [ashape adata]. destruct s as [|[|[|]] [|[|[|]] [|]]]; try discriminate. destruct l as [|f [|]]; try discriminate.
  destruct (flt_eqb f f1) eqn:E; [|discriminate]. intro H. inversion H. subst C. clear H.
  assert (V : is_finite f = true /\ B2R f = 1).
  { destruct f as [|[|]| |]; try discriminate E. split; [reflexivity|]. rewrite <- f1_v. unfold flt_eqb in E. rewrite Beqb_correct in E by reflexivity. unfold Req_bool in E. destruct (Rcompare_spec (B2R (B754_finite s m e e0)) (B2R f1)) as [?|E'|?] in E; [discriminate | exact E' | discriminate]. }
  destruct V as [F V]. exists (fun _ _ => 1). split.
  - intros [|i] [|j] Hi Hj; try lia. cbn. rewrite V. lra.
  - intros [|i] [|j] Hi Hj; try lia. exists f. split; [reflexivity|]. split; [exact F|]. rewrite V, Rminus_diag_eq, Rabs_R0 by reflexivity. lra.
Qed.
Lemma rx_runs dot : dot = dot_rounded \/ dot = dot_fused -> first_low false 4503599627370496 (-51) (fst (rohn_fl rx_inv dot rx_A rx_b tol_12 2000 mode_NE)) = true.
Proof. intros [-> | ->]; vm_cast_no_check (eq_refl true). Qed.
Lemma rohn_loses : exists A b x inv, fl_system 1 A b /\ solution 1 A b x /\ (forall P C, inv P = Ok C -> inverse_within 0 1 (amap PFlt P) C) /\
  forall dot, dot = dot_rounded \/ dot = dot_fused -> exists X e, returns (rohn_fl inv dot A b (fl 4951760157141521 (-92)) 2000) mode_NE X /\ aget (adat X) [0%nat] = Some e /\ ~ member e (x 0%nat).
Proof.
  exists rx_A, rx_b, (fun _ => 1), rx_inv. split; [exact rx_system|]. split; [exact rx_solution|]. split; [exact rx_exact|].
  intros dot Hd. destruct (first_low_value _ _ _ _ (rx_runs dot Hd)) as (X & e & HX & He & Hm). exists X, e. split; [exact HX|]. split; [exact He|].
  intro H. apply Hm in H. revert H. cbn [cond_Zopp Z.opp]. feval. intro H. lra.
Qed.

(** ** 5 x = [-1, 1] around 0 *)
Definition nx_A : aitv := int_points [1; 1]%nat [5]%Z.
Definition nx_b : aitv := single_vec (mkitv Classical (PInt (-1)) (PInt 1)).
Definition nx_y : arr flt := mkarr [1%nat] [f0].
Definition nx_r : flt := fl 7205759403792794 (-55).
Definition sum_single (l : list flt) : flt := match l with [f] => f | _ => fnan end.
Lemma nx_sum fsum : (forall f, fsum [f] = f) -> neumaier_fl fsum nx_A nx_b nx_y = neumaier_fl sum_single nx_A nx_b nx_y.
Proof.
  intro H. assert (E : row_sums fsum 1 1 = row_sums sum_single 1 1) by (apply functional_extensionality; intro a; unfold row_sums, of_fun; cbn [indices map seq flat_map app]; rewrite H; reflexivity).
  unfold neumaier_fl. cbn [shp nx_A nx_b nx_y int_points single_vec array_interval ashape Nat.eqb andb negb]. rewrite E. reflexivity.
Qed.
Definition only_hi (p : positive) (q : Z) (r : res (arr itv)) : bool :=
  match r with
  | Ok (mkarr [1%nat] [e]) => match lo e, hi e with
       | PFlt (B754_finite true p1 q1 _), PFlt (B754_finite false p2 q2 _) => (p =? p1)%positive && (q =? q1)%Z && (p =? p2)%positive && (q =? q2)%Z
       | _, _ => false end
  | _ => false
  end.
Lemma nx_runs : only_hi 7205759403792794 (-55) (fst (neumaier_fl sum_single nx_A nx_b nx_y mode_NE)) = true.
Proof. vm_cast_no_check (eq_refl true). Qed.
Lemma neumaier_loses : exists A b y x, fl_system 1 A b /\ ashape y = [1%nat] /\ (forall f, aget y [0%nat] = Some f -> tolerates 1 A b (fun _ => B2R f)) /\
  ~ tolerates 1 A b x /\
  forall fsum, (forall f, fsum [f] = f) -> exists d e, returns (neumaier_fl fsum A b y) mode_NE d /\ aget d [0%nat] = Some e /\ member e (x 0%nat).
Proof.
  exists nx_A, nx_b, nx_y, (fun _ => 7205759403792794 / 36028797018963968).
  assert (GA : good (mkitv Classical (PInt 5) (PInt 5))) by (apply good_int; lia).
  assert (GB : good (mkitv Classical (PInt (-1)) (PInt 1))) by (split; [reflexivity|]; split; [split; unfold small_num; cbn; lia|]; right; exists 0; split; cbn; lra).
  split; [|split; [reflexivity|split; [|split]]].
  - split; [lia|]. split; [split; reflexivity|]. split; [split; reflexivity|]. split; [reflexivity|]. split; [reflexivity|]. split; (apply Forall_cons; [assumption | apply Forall_nil]).
  - intros f Hf. inversion Hf. subst f. intros P HP [|i] Hi; [|lia]. eexists. split; [reflexivity|]. split; cbn; lra.
  - intro T. specialize (T (fun _ _ => 5)). destruct (T ltac:(intros [|i] [|k] Hi Hk; try lia; eexists; (split; [reflexivity|]); split; cbn; lra) 0%nat ltac:(lia)) as (c & Hc & M).
    inversion Hc. subst c. destruct M as [_ M]. cbn in M. lra.
  - intros fsum Hs. unfold returns, outcome. rewrite (nx_sum fsum Hs). assert (R := nx_runs). unfold only_hi in R.
    destruct (fst (neumaier_fl sum_single nx_A nx_b nx_y mode_NE)) as [[[|[|[|]] [|]] [|e [|]]]|]; try discriminate R. exists (mkarr [1%nat] [e]), e. split; [reflexivity|]. split; [reflexivity|].
    destruct (lo e) as [|[| | |[|] p1 q1 ?]] eqn:El; try discriminate R. destruct (hi e) as [|[| | |[|] p2 q2 ?]] eqn:Eh; try discriminate R.
    apply andb_prop in R. destruct R as [R H4]. apply andb_prop in R. destruct R as [R H3]. apply andb_prop in R. destruct R as [H1 H2].
    apply Pos.eqb_eq in H1, H3. apply Z.eqb_eq in H2, H4. subst p1 p2 q1 q2. unfold member. rewrite El, Eh. cbn [num_le_R R_le_num flt_le_R R_le_flt B2R cond_Zopp Z.opp]. split; feval; lra.
Qed.
