(** Facts about HBR in floating point. *)
From Coq Require Import ZArith Reals List Bool Arith Lia Lra.
From Flocq Require Import Core IEEE754.BinarySingleNaN.
From Verif Require Import Base PyNum Kernel Spec Expr Arrays Construct SpecArray XReal XArith KernelProofs ExprProofs ArrayProofs ArrayMore ArrayMat ConstructProofs ConstructMore Witness RecogFl RecogFlProofs NewtonVecProofs HbrFl SpecHbrFl.
Import ListNotations.
Open Scope R_scope.

(** ** Solutions lost: -8 x + 4 y = 2, 4 x + 3 y = 0 *)
Definition hx_A : aitv := int_points [2; 2]%nat [-8; 4; 4; 3]%Z.
Definition hx_b : aitv := int_points [2]%nat [2; 0]%Z.
Definition hx_C : arr flt := mkarr [2; 2]%nat [fl (-5404319552844595) (-56); fl 7205759403792794 (-56); fl 7205759403792794 (-56); fl 7205759403792794 (-55)].
Definition hx_B : arr flt := mkarr [2; 2]%nat [f1; fl 1 (-54); f0; f1].
Definition all_eq (l : list pynum) (c : list pynum) : bool := (length l =? length c)%nat && forallb (fun p => num_eq (fst p) (snd p)) (combine l c).
Definition hx_inv (P : arr pynum) : res (arr flt) :=
  match ashape P with
  | [2%nat; 2%nat] =>
      if all_eq (adata P) (map PInt [-8; 4; 4; 3]%Z) then Ok hx_C
      else if all_eq (adata P) [PInt 1; PFlt (fl (-1) (-54)); PInt 0; PInt 1] then Ok hx_B
      else Err ValueError
  | _ => Err ValueError
  end.
Definition hx_run (dot : list (flt * flt) -> flt) : res aitv := fst (hbr_fl hx_inv dot hx_A hx_b mode_NE).
Definition first_low (s : bool) (p : positive) (q : Z) (r : res aitv) : bool :=
  match r with
  | Ok X => match ashape (adat X), adata (adat X) with
            | [S _], e :: _ => match lo e with PFlt (B754_finite s' p' q' _) => eqb s s' && (p =? p')%positive && (q =? q')%Z | _ => false end
            | _, _ => false end
  | _ => false
  end.
Lemma first_low_value s p q (c : M aitv) : first_low s p q (fst (c mode_NE)) = true ->
  exists X e, returns c mode_NE X /\ aget (adat X) [0%nat] = Some e /\ forall r, member e r -> F2R (Float radix2 (cond_Zopp s (Zpos p)) q) <= r.
Proof.
  unfold first_low, returns, outcome. destruct (fst (c mode_NE)) as [X|]; [|discriminate]. intro H. exists X.
  destruct (ashape (adat X)) as [|[|n] [|]] eqn:Es; try discriminate. destruct (adata (adat X)) as [|e l] eqn:Ed; [discriminate|]. exists e. split; [reflexivity|].
  destruct (lo e) as [|[| | |s' p' q' H']] eqn:El; try discriminate. apply andb_prop in H. destruct H as [H Hq]. apply andb_prop in H. destruct H as [Hs Hp].
  apply eqb_prop in Hs. apply Pos.eqb_eq in Hp. apply Z.eqb_eq in Hq. subst s' p' q'.
  split.
  - unfold aget. rewrite Es, Ed. reflexivity.
  - intros r [Hr _]. rewrite El in Hr. exact Hr.
Qed.
Lemma all_eq_val l c : all_eq l c = true -> length l = length c /\ forall k x y, nth_error l k = Some x -> nth_error c k = Some y -> finite_num y -> num_val x = num_val y.
Proof.
  unfold all_eq. intro H. apply andb_prop in H. destruct H as [Hl H]. apply Nat.eqb_eq in Hl. split; [exact Hl|]. revert c Hl H.
  induction l as [|a l IH]; intros [|b c] Hl H k x y Hx Hy Hf; try (destruct k; discriminate). simpl in H. apply andb_prop in H. destruct H as [H1 H2].
  destruct k as [|k]; simpl in Hx, Hy; [|exact (IH c (eq_add_S _ _ Hl) H2 k x y Hx Hy Hf)].
  inversion Hx; inversion Hy; subst. rewrite num_eq_x in H1. apply finite_num_x in Hf. rewrite Hf in H1. unfold xeqb, xcmp in H1.
  assert (E : xval x = XFin (num_val x) \/ xval x = XNan \/ xval x = XNInf \/ xval x = XPInf) by (destruct x as [z|[?|[|]| |]]; cbn; auto).
  destruct E as [E|[E|[E|E]]]; rewrite E in H1; try discriminate. destruct (Rcompare_spec (num_val x) (num_val y)) as [?|E2|?] in H1; try discriminate. exact E2.
Qed.
Lemma four {T} (l : list T) : length l = 4%nat -> exists a b c d, l = [a; b; c; d].
Proof. destruct l as [|a [|b [|c [|d [|]]]]]; try discriminate. intros _. now exists a, b, c, d. Qed.
Ltac fval s p q := rewrite (B2R_sf _ s p q) by (vm_compute; reflexivity); feval; lra.
Lemma hx_v1 : B2R (fl (-5404319552844595) (-56)) = - 5404319552844595 / 72057594037927936. Proof. fval true 5404319552844595%positive (-56)%Z. Qed.
Lemma hx_v2 : B2R (fl 7205759403792794 (-56)) = 7205759403792794 / 72057594037927936. Proof. fval false 7205759403792794%positive (-56)%Z. Qed.
Lemma hx_v3 : B2R (fl 7205759403792794 (-55)) = 7205759403792794 / 36028797018963968. Proof. fval false 7205759403792794%positive (-55)%Z. Qed.
Lemma hx_v4 : B2R (fl 1 (-54)) = / 18014398509481984. Proof. fval false 4503599627370496%positive (-106)%Z. Qed.
Lemma hx_v5 : B2R (fl (-1) (-54)) = - / 18014398509481984. Proof. fval true 4503599627370496%positive (-106)%Z. Qed.
Lemma hx_v6 : B2R f1 = 1. Proof. fval false 4503599627370496%positive (-52)%Z. Qed.
Lemma small_error a b u : 0 <= u -> (b - u * Rabs b <= a <= b + u * Rabs b) -> Rabs (a - b) <= u * Rabs b.
Proof. intros Hu H. apply Rabs_le. lra. Qed.
Lemma hx_inverse P C : hx_inv P = Ok C -> inverse_within unit_roundoff 2 P C.
Proof.
  unfold hx_inv. destruct P as [s l]. cbn [ashape adata]. intro H.
  destruct s as [|[|[|[|s0]]] [|[|[|[|s1]]] [|s2 s3]]]; try discriminate H.
  destruct (all_eq l (map PInt [-8; 4; 4; 3]%Z)) eqn:E1.
  - inversion H; subst C. apply all_eq_val in E1. destruct E1 as [Hl E]. destruct (four l Hl) as (a & b & c & d & ->).
    assert (Va := E 0%nat _ _ eq_refl eq_refl I). assert (Vb := E 1%nat _ _ eq_refl eq_refl I). assert (Vc := E 2%nat _ _ eq_refl eq_refl I). assert (Vd := E 3%nat _ _ eq_refl eq_refl I). cbn [num_val] in Va, Vb, Vc, Vd.
    exists (fun i j => match i, j with O, O => -3/40 | O, _ => 1/10 | _, O => 1/10 | _, _ => 1/5 end). split.
    + intros [|[|i]] [|[|j]] Hi Hj; try lia; cbn [aget flat ashape adata nth_error Nat.ltb Nat.leb size Nat.mul Nat.add Rsum Nat.eqb fold_right]; cbn; rewrite ?Va, ?Vb, ?Vc, ?Vd; lra.
    + intros [|[|i]] [|[|j]] Hi Hj; try lia; eexists; (split; [reflexivity|]); (split; [vm_compute; reflexivity|]); apply small_error; unfold unit_roundoff; try lra; rewrite ?hx_v1, ?hx_v2, ?hx_v3; unfold Rabs; destruct Rcase_abs; lra.
  - destruct (all_eq l [PInt 1; PFlt (fl (-1) (-54)); PInt 0; PInt 1]) eqn:E2; [|discriminate].
    inversion H; subst C. apply all_eq_val in E2. destruct E2 as [Hl E]. destruct (four l Hl) as (a & b & c & d & ->).
    assert (Va := E 0%nat _ _ eq_refl eq_refl I). assert (Vb := E 1%nat _ _ eq_refl eq_refl (eq_refl true)). assert (Vc := E 2%nat _ _ eq_refl eq_refl I). assert (Vd := E 3%nat _ _ eq_refl eq_refl I). unfold num_val in Va, Vb at 2, Vc, Vd. fold (num_val a) in Va. fold (num_val c) in Vc. fold (num_val d) in Vd. rewrite hx_v5 in Vb.
    exists (fun i j => match i, j with O, O => 1 | O, _ => / 18014398509481984 | _, O => 0 | _, _ => 1 end). split.
    + intros [|[|i]] [|[|j]] Hi Hj; try lia; cbn; rewrite ?Va, ?Vb, ?Vc, ?Vd; lra.
    + intros [|[|i]] [|[|j]] Hi Hj; try lia; eexists; (split; [reflexivity|]); (split; [vm_compute; reflexivity|]); apply small_error; unfold unit_roundoff; try lra; rewrite ?hx_v4, ?hx_v6; change (B2R f0) with 0; unfold Rabs; destruct Rcase_abs; lra.
Qed.
Definition hx_x : nat -> R := fun i => match i with O => -3/20 | _ => 1/5 end.
Lemma hx_solution : solution 2 hx_A hx_b hx_x.
Proof.
  exists (fun i k => match i, k with O, O => -8 | O, _ => 4 | _, O => 4 | _, _ => 3 end), (fun i => match i with O => 2 | _ => 0 end). split; [|split].
  - intros [|[|i]] [|[|k]] Hi Hk; try lia; eexists; (split; [reflexivity|]); split; cbn; lra.
  - intros [|[|i]] Hi; try lia; eexists; (split; [reflexivity|]); split; cbn; lra.
  - intros [|[|i]] Hi; try lia; cbn; lra.
Qed.
Lemma hx_runs dot : dot = dot_rounded \/ dot = dot_fused -> first_low true 5404319552844595 (-55) (fst (hbr_fl hx_inv dot hx_A hx_b mode_NE)) = true.
Proof. intros [-> | ->]; vm_cast_no_check (eq_refl true). Qed.
Lemma good_int z : (Z.abs z <= 2 ^ 26)%Z -> good (mkitv Classical (PInt z) (PInt z)).
Proof. intro H. split; [reflexivity|]. split; [split; exact H|]. right. exists (IZR z). split; cbn; lra. Qed.
Lemma hx_system : fl_system 2 hx_A hx_b.
Proof.
  unfold fl_system. split; [lia|]. split; [split; reflexivity|]. split; [split; reflexivity|]. split; [reflexivity|]. split; [reflexivity|].
  split; cbn [hx_A hx_b int_points array_interval adat adata map]; repeat apply Forall_cons; try apply Forall_nil; apply good_int; lia.
Qed.
Lemma hbr_loses : exists A b x inv, fl_system 2 A b /\ solution 2 A b x /\ (forall P C, inv P = Ok C -> inverse_within unit_roundoff 2 P C) /\
  forall dot, dot = dot_rounded \/ dot = dot_fused -> exists X e, returns (hbr_fl inv dot A b) mode_NE X /\ aget (adat X) [0%nat] = Some e /\ ~ member e (x 0%nat).
Proof.
  exists hx_A, hx_b, hx_x, hx_inv. split; [exact hx_system|]. split; [exact hx_solution|]. split; [exact hx_inverse|].
  intros dot Hd. destruct (first_low_value _ _ _ _ (hx_runs dot Hd)) as (X & e & HX & He & Hm). exists X, e. split; [exact HX|]. split; [exact He|].
  intro H. apply Hm in H. revert H. cbn [hx_x cond_Zopp Z.opp]. feval. intro H. lra.
Qed.

(** ** Diagonal systems *)
Lemma f_op_keeps f x y : keeps_mode (f_op f x y). Proof. intro. reflexivity. Qed.
Lemma bind_ret {A B} (c : M A) (g : A -> B) m z : returns (a <- c ;; mret (g a)) m z -> exists a, returns c m a /\ z = g a.
Proof. intro H. apply bind_ok in H. destruct H as (a & Ha & m' & H). exists a. split; [exact Ha|]. unfold returns, outcome, mret in H. cbn in H. congruence. Qed.
Lemma mapM_wit {A B} (f : A -> M B) l : forall m ys, returns (mapM f l) m ys -> Forall2 (fun x y => exists m', returns (f x) m' y) l ys.
Proof.
  induction l as [|x l IH]; intros m ys H; simpl in H.
  - unfold returns, outcome, mret in H. cbn in H. inversion H. constructor.
  - apply bind_ok in H. destruct H as (y & Hy & m' & H). apply bind_ret in H. destruct H as (t & Ht & ->). constructor; [now exists m|]. now apply IH with m'.
Qed.
Lemma amapM_wit {A B} (f : A -> M B) a m z : returns (amapM f a) m z -> ashape z = ashape a /\ Forall2 (fun x y => exists m', returns (f x) m' y) (adata a) (adata z).
Proof. unfold amapM. intro H. apply bind_ret in H. destruct H as (l & Hl & ->). split; [reflexivity|]. now apply mapM_wit with m. Qed.
Lemma lift_wit c m Z : returns (lift_arr c) m Z -> exists d, returns c m d /\ Z = array_interval d.
Proof. apply bind_ret. Qed.
Lemma f_bin_1 f x y n m z : ashape x = [n] -> ashape y = [n] -> returns (f_bin f x y) m z -> ashape z = [n].
Proof. intros Sx Sy H. apply (binop_1 _ _ _ _ _ n (f_op_keeps f) Sx Sy) in H. tauto. Qed.
Lemma f_bin_0 f v y n m z : ashape y = [n] -> returns (f_bin f (scalar v) y) m z -> ashape z = [n].
Proof.
  intros Sy H. unfold f_bin in H. apply binop_arr_spec in H; [|apply f_op_keeps]. destruct H as (s & Hs & Hz & _). rewrite Sy in Hs. cbn in Hs. congruence.
Qed.
Lemma vnum_shape {A} (f : A -> M pynum) a m z : returns (vectorize_num f a) m z -> ashape z = ashape a.
Proof.
  unfold vectorize_num. intro H. apply bind_ok in H. destruct H as (r & Hr & m' & H).
  assert (Sr : ashape r = ashape a) by (unfold vectorize in Hr; destruct (adata a) eqn:E; [discriminate|]; apply amapM_wit in Hr; tauto).
  destruct (adata r); [unfold returns, outcome, mret in H; cbn in H; congruence|]. apply amapM_wit in H. destruct H as [H _]. congruence.
Qed.
Lemma hbr_ab_shape inv dot n A1 b1 m al be : ashape (adat b1) = [n] -> returns (hbr_ab inv dot n A1 b1) m (al, be) -> ashape al = [n] /\ ashape be = [n].
Proof.
  intros Sb H. unfold hbr_ab in H.
  apply bind_ok in H. destruct H as (K0 & _ & m1 & H). apply bind_ok in H. destruct H as (K & _ & m2 & H). apply bind_ok in H. destruct H as (B & _ & m3 & H).
  destruct (existsb _ _); [|discriminate H].
  apply bind_ok in H. destruct H as (E & _ & m4 & H). apply bind_ok in H. destruct H as (O & _ & m5 & H). apply bind_ok in H. destruct H as (Q & _ & m6 & H).
  apply bind_ok in H. destruct H as (vw & Hvw & m7 & H). apply bind_ok in H. destruct H as (dl & Hdl & m8 & H). apply bind_ok in H. destruct H as (B' & _ & m9 & H).
  apply bind_ok in H. destruct H as (g0 & Hg0 & m10 & H). apply bind_ok in H. destruct H as (g & Hg & m11 & H). apply bind_ok in H. destruct H as (q & Hq & m12 & H).
  apply bind_ok in H. destruct H as (a & Ha & m13 & H). apply bind_ok in H. destruct H as (r & Hr & m14 & H). apply bind_ok in H. destruct H as (e & He & m15 & H).
  unfold returns, outcome, mret in H. cbn [fst] in H. inversion H; subst a e.
  apply vnum_shape in Hg0. apply amapM_wit in Hg. destruct Hg as [Hg _]. apply (f_bin_1 _ _ _ n) in Hvw; [|reflexivity|reflexivity]. apply (f_bin_1 _ _ _ n) in Hdl; [|exact Hvw|reflexivity].
  apply (f_bin_0 _ _ _ n) in Hq; [|reflexivity]. apply (f_bin_1 _ _ _ n) in Ha; [|reflexivity|exact Hq]. apply (f_bin_1 _ _ _ n) in Hr; [|reflexivity|exact Hdl].
  apply (f_bin_1 _ _ _ n) in He; [|exact Hr|congruence]. split; assumption.
Qed.
Lemma sym_good (f : flt) m e : returns (single_interval (PFlt (fneg f)) (PFlt f) true false) m e -> good e /\ member_or_nan e 0.
Proof.
  destruct (single_sorted (PFlt (fneg f)) (PFlt f) m) as (Z & HZ & kZ & ends & ord). intro H. assert (e = Z) by (unfold returns in *; congruence). subst e. clear H.
  assert (E : (xval (lo Z) = xopp (xflt f) /\ xval (hi Z) = xflt f) \/ (xval (lo Z) = xflt f /\ xval (hi Z) = xopp (xflt f))).
  { destruct ends as [[-> ->]|[-> ->]]; [left|right]; cbn [xval]; rewrite xflt_neg; auto. }
  assert (L : xflt f = XNan \/ xleb (xval (lo Z)) (xval (hi Z)) = true).
  { destruct (is_nan_num (PFlt f)) eqn:N; [left; now apply (is_nan_num_x (PFlt f))|]. right. rewrite <- num_le_x. apply ord; [|reflexivity].
    destruct (is_nan_num (PFlt (fneg f))) eqn:N2; [|reflexivity]. apply is_nan_num_x in N2. cbn [xval] in N2. rewrite xflt_neg in N2.
    assert (xflt f = XNan) by (destruct (xflt f); try discriminate N2; reflexivity). apply (is_nan_num_x (PFlt f)) in H. congruence. }
  assert (Q : nan_itv Z \/ member Z 0).
  { rewrite nan_itv_x, member_x. destruct L as [L|L].
    - left. rewrite L in E. cbn [xopp] in E. tauto.
    - destruct E as [[El Eh]|[El Eh]]; rewrite El, Eh in *; destruct (xflt f) as [| | |r]; try (left; split; reflexivity); try discriminate L; right; cbn [xopp xle_R R_xle]; try tauto.
      + unfold xleb, xcmp, xopp in L. destruct (Rcompare_spec (- r) r) in L; try discriminate; lra.
      + unfold xleb, xcmp, xopp in L. destruct (Rcompare_spec r (- r)) in L; try discriminate; lra. }
  split; [|exact Q]. split; [exact kZ|]. split; [destruct ends as [[E1 E2]|[E1 E2]]; split; rewrite ?E1, ?E2; exact I|]. destruct Q; [left; assumption|right; eauto].
Qed.
Lemma f_interval_sym f n m Z : ashape f = [n] -> returns (f_interval (amap fneg f) f) m Z ->
  ashape (adat Z) = [n] /\ forall i, (i < n)%nat -> exists e, aget (adat Z) [i] = Some e /\ good e /\ member_or_nan e 0.
Proof.
  intros Sf H. apply lift_wit in H. destruct H as (d & H & ->). cbn [array_interval adat].
  apply (binop_1 _ _ _ _ _ n) in H; [|intros; apply keeps_single|exact Sf|exact Sf]. destruct H as (S1 & _ & P). split; [exact S1|].
  intros i Hi. destruct (P i Hi) as (a & b & c & Ha & Hb & Hc & R1). exists c. split; [exact Hc|]. rewrite aget_map, Hb in Ha. inversion Ha; subst a. now apply sym_good with b m.
Qed.
Lemma arr_op_1 o x y n m Z : ashape (adat x) = [n] -> ashape (adat y) = [n] -> returns (arr_op o x (op_arr y)) m Z ->
  ashape (adat Z) = [n] /\ forall i, (i < n)%nat -> exists a b c, aget (adat x) [i] = Some a /\ aget (adat y) [i] = Some b /\ aget (adat Z) [i] = Some c /\ returns (py_op o (OItv a) (OItv b)) m c.
Proof.
  intros Sx Sy H. apply lift_wit in H. destruct H as (d & H & ->). cbn [array_interval adat].
  apply (binop_1 _ _ _ _ _ n) in H; [|intros; apply keeps_py_op|exact Sx|exact Sy]. destruct H as (S1 & _ & P). split; [exact S1|].
  intros i Hi. destruct (P i Hi) as (a & b & c & Ha & Hb & Hc & R1). unfold op_arr in Ha, Hb. rewrite aget_map in Ha, Hb.
  destruct (aget (adat x) [i]) as [a'|]; [|discriminate]. destruct (aget (adat y) [i]) as [b'|]; [|discriminate]. inversion Ha; inversion Hb; subst. now exists a', b', c.
Qed.
Lemma entry_amap p m d idx W : returns (amapM entry_itv p) m d -> aget p idx = Some (OItv W) -> aget d idx = Some W.
Proof.
  intros H Hp. apply amapM_wit in H. destruct H as [Sd F]. unfold aget in *. rewrite Sd. destruct (flat (ashape p) idx) as [k|]; [|discriminate].
  destruct (Forall2_nth _ _ _ F k _ Hp) as (y & Hy & m' & Ry). cbn [entry_itv] in Ry. unfold returns, outcome, mret in Ry. cbn in Ry. congruence.
Qed.
Definition cval (C : arr flt) (i k : nat) : R := B2R (f_get C [i; k]).
Lemma itv_mat_ok (C : arr flt) X n : awf C -> ashape C = [n; n] -> Forall (fun f => is_finite f = true) (adata C) -> awf (adat X) -> Forall good (adata (adat X)) ->
  product_ok (itv_mat C) (op_arr X) /\ forall i k o, aget (itv_mat C) [i; k] = Some o -> in_operand o (cval C i k).
Proof.
  intros WC SC FC WX GX. split.
  - split; [now apply amap_wf|]. split; [now apply amap_wf|]. split; [|split; [|right]]; unfold itv_mat, op_arr, amap; cbn [adata]; apply Forall_forall; intros o Ho; apply in_map_iff in Ho; destruct Ho as (v & <- & Hv).
    + split; [exact I|]. exact (proj1 (Forall_forall _ _) FC v Hv).
    + exact (proj1 (Forall_forall _ _) GX v Hv).
    + exact I.
  - intros i k o H. unfold itv_mat in H. rewrite aget_map in H. 
    assert (E : exists v, aget C [i; k] = Some v /\ o = ONum (PFlt v)) by (destruct (aget C [i; k]) as [v|]; [|discriminate H]; exists v; split; congruence).
    destruct E as (v & E & ->). unfold cval, f_get. rewrite E. reflexivity.
Qed.
Lemma mm_mat (C : arr flt) A n m Z (P : nat -> nat -> R) : (0 < n)%nat -> awf C -> ashape C = [n; n] -> Forall (fun f => is_finite f = true) (adata C) ->
  consistent A -> shp A = [n; n] -> Forall good (adata (adat A)) -> returns (f_matmul_itv C A) m Z ->
  (forall i k a, aget (adat A) [i; k] = Some a -> member a (P i k)) ->
  consistent Z /\ shp Z = [n; n] /\ forall i j, (i < n)%nat -> (j < n)%nat -> exists e, aget (adat Z) [i; j] = Some e /\ good e /\ member_or_nan e (Rsum n (fun k => cval C i k * P k j)).
Proof.
  intros n0 WC SC FC [cA WA] SA GA H HP. unfold f_matmul_itv in H. destruct (itv_mat_ok C A n WC SC FC WA GA) as [OK Hc].
  rewrite cA in SA. destruct (matmat (itv_mat C) (op_arr A) n n n m SC SA OK) as (p & Hp & Sp & Wp & Q).
  apply bind_ok in H. destruct H as (p' & Hp' & m' & H). assert (p' = p) by (unfold returns in *; congruence). subst p'. clear Hp'.
  apply lift_wit in H. destruct H as (d & Hd & ->). destruct (amapM_wit _ _ _ _ Hd) as [Sd F].
  split; [apply array_consistent; unfold awf in *; rewrite Sd, <- (Forall2_len _ _ _ F); exact Wp|]. split; [cbn; congruence|].
  intros i j Hi Hj. destruct (Q (cval C) P Hc) with (i := i) (j := j) as (z & Hz & Nz & Mz); try assumption.
  - intros k l o Ho. unfold op_arr in Ho. rewrite aget_map in Ho. destruct (aget (adat A) [k; l]) as [a|] eqn:Ea; [|discriminate]. inversion Ho. now apply HP.
  - destruct (Nz n0) as (W & -> & GW). exists W. split; [exact (entry_amap _ _ _ _ _ Hd Hz)|]. split; [exact GW|exact Mz].
Qed.
Lemma mm_vec (C : arr flt) b n m Z (q : nat -> R) : (0 < n)%nat -> awf C -> ashape C = [n; n] -> Forall (fun f => is_finite f = true) (adata C) ->
  consistent b -> shp b = [n] -> Forall good (adata (adat b)) -> returns (f_matmul_itv C b) m Z ->
  (forall k a, aget (adat b) [k] = Some a -> member a (q k)) ->
  ashape (adat Z) = [n] /\ forall i, (i < n)%nat -> exists e, aget (adat Z) [i] = Some e /\ good e /\ member_or_nan e (Rsum n (fun k => cval C i k * q k)).
Proof.
  intros n0 WC SC FC [cA WA] SA GA H HP. unfold f_matmul_itv in H. destruct (itv_mat_ok C b n WC SC FC WA GA) as [OK Hc].
  rewrite cA in SA. destruct (matvec (itv_mat C) (op_arr b) n n m SC SA OK) as (p & Hp & Sp & Wp & Q).
  apply bind_ok in H. destruct H as (p' & Hp' & m' & H). assert (p' = p) by (unfold returns in *; congruence). subst p'. clear Hp'.
  apply lift_wit in H. destruct H as (d & Hd & ->). destruct (amapM_wit _ _ _ _ Hd) as [Sd F].
  split; [cbn; congruence|].
  intros i Hi. destruct (Q (cval C) q Hc) with (i := i) as (z & Hz & Nz & Mz); try assumption.
  - intros k o Ho. unfold op_arr in Ho. rewrite aget_map in Ho. destruct (aget (adat b) [k]) as [a|] eqn:Ea; [|discriminate]. inversion Ho. now apply HP.
  - destruct (Nz n0) as (W & -> & GW). exists W. split; [exact (entry_amap _ _ _ _ _ Hd Hz)|]. split; [exact GW|exact Mz].
Qed.
Lemma Rsum_one n f i : (i < n)%nat -> (forall k, (k < n)%nat -> k <> i -> f k = 0) -> Rsum n f = f i.
Proof.
  induction n as [|n IH]; intros Hi H; [lia|]. cbn [Rsum]. destruct (Nat.eq_dec i n) as [->|Ne].
  - assert (Z : Rsum n f = 0). { clear IH Hi. assert (forall k, (k < n)%nat -> f k = 0) by (intros; apply H; lia). clear H. induction n as [|n IH]; [reflexivity|]. cbn [Rsum]. rewrite IH, H0; [lra|lia|]. intros; apply H0; lia. }
    rewrite Z. lra.
  - rewrite IH; [|lia|]. rewrite (H n); [lra|lia|lia]. intros; apply H; lia.
Qed.
Lemma mon_op o X Y m Z x y : good X -> good Y -> member_or_nan X x -> member_or_nan Y y -> returns (py_op o (OItv X) (OItv Y)) m Z ->
  good Z /\ (nan_itv Z \/ exists r, real_op o x y = Some r /\ member Z r).
Proof.
  intros GX GY Mx My H. destruct (py_op_itv _ _ _ _ _ GX GY H) as (kZ & sZ & W). split; [now apply good_of_wsound2 with (real_op o) X Y|].
  destruct W as [W1 W2]. destruct Mx as [Mx|Mx]; [left; auto|]. destruct My as [My|My]; [left; auto|]. destruct (W2 x y Mx My) as (r & Hr & [Nr|Mr]); [left; exact Nr|right; eauto].
Qed.
Lemma hbr_diagonal inv dot n A b m X : fl_system n A b -> diagonal_itv n A -> (forall c C, returns (arr_mid A) m c -> inv c = Ok C -> diagonal_flt n C) ->
  returns (hbr_fl inv dot A b) m X ->
  forall x, solution n A b x -> forall i, (i < n)%nat -> exists e, aget (adat X) [i] = Some e /\ good e /\ member_or_nan e (x i).
Proof.
  intros (n0 & cA & cb & SA & Sb & GA & Gb) DA Hinv H x (P & q & HP & Hq & Hx) i Hi. unfold hbr_fl in H. rewrite SA, Sb in H. cbn [andb negb] in H.
  rewrite !Nat.eqb_refl in H. cbn [andb negb] in H.
  apply bind_ok in H. destruct H as (c & Hmid & m1 & H). apply bind_ok in H. destruct H as (C & HC & m2 & H).
  assert (IC : inv c = Ok C) by exact HC. destruct (Hinv _ _ Hmid IC) as (WC & SC & FC & DC).
  apply bind_ok in H. destruct H as (A1 & HA1 & m3 & H). apply bind_ok in H. destruct H as (b1 & Hb1 & m4 & H). apply bind_ok in H. destruct H as (dA & HdA & m5 & H).
  apply bind_ok in H. destruct H as ([al be] & Hab & m6 & H).
  apply bind_ok in H. destruct H as (I1 & HI1 & m7 & H). apply bind_ok in H. destruct H as (num & Hnum & m8 & H).
  apply bind_ok in H. destruct H as (I2 & HI2 & m9 & H). apply bind_ok in H. destruct H as (den & Hden & m10 & H).
  assert (rA : forall i k a, aget (adat A) [i; k] = Some a -> (i < n)%nat /\ (k < n)%nat).
  { intros i' k' a Ha. unfold aget in Ha. destruct cA as [cA _]. rewrite <- cA, SA in Ha. cbn [flat size fold_right] in Ha. destruct (Nat.ltb_spec i' n); [|discriminate]. destruct (Nat.ltb_spec k' n); [|discriminate]. auto. }
  assert (HP' : forall i k a, aget (adat A) [i; k] = Some a -> member a (P i k)).
  { intros i' k' a Ha. destruct (rA _ _ _ Ha) as [h1 h2]. destruct (HP i' k' h1 h2) as (a' & Ha' & M'). congruence. }
  assert (Sb' : ashape (adat b) = [n]) by (destruct cb as [cb _]; congruence).
  assert (Hq' : forall k a, aget (adat b) [k] = Some a -> member a (q k)).
  { intros k a Ha. destruct (Hq k (aget_1_lt _ _ _ _ Sb' Ha)) as (a' & Ha' & M'). congruence. }
  destruct (mm_mat C A n m2 A1 P n0 WC SC FC cA SA GA HA1 HP') as (cA1 & SA1 & QA1).
  destruct (mm_vec C b n m3 b1 q n0 WC SC FC cb Sb Gb Hb1 Hq') as (Sb1 & Qb1).
  destruct (diag_matrix A1 n n 0 cA1 SA1) as (D & w & HD & cD & SD & QD). assert (D = dA) by (assert (diag A1 0 = Ok dA) by exact HdA; congruence). subst D.
  assert (Ew : w = n). { destruct (QD (w - 1)%nat) as [L1 _]. destruct (QD n) as [L2 _]. destruct (QD (n - 1)%nat) as [L3 _]. cbn [Z.leb Z.compare Z.to_nat] in L1, L2, L3.
    rewrite Nat.add_0_r in L1, L2, L3. unfold in_bounds in L1, L2, L3.
    assert (T : forall p, Forall2 (fun i n => (i < n)%nat) [p; p] [n; n] <-> (p < n)%nat).
    { intro p. split; [intro F; inversion F; assumption|intro; repeat constructor; assumption]. }
    rewrite T in L1, L2, L3. lia. }
  subst w. destruct (hbr_ab_shape _ _ _ _ _ _ _ _ Sb1 Hab) as [Sal Sbe].
  destruct (f_interval_sym _ _ _ _ Sbe HI1) as [SI1 QI1]. destruct (f_interval_sym _ _ _ _ Sal HI2) as [SI2 QI2].
  destruct (arr_op_1 _ _ _ _ _ _ Sb1 SI1 Hnum) as [Snum Qnum]. assert (SdA : ashape (adat dA) = [n]) by (destruct cD as [cD _]; congruence).
  destruct (arr_op_1 _ _ _ _ _ _ SdA SI2 Hden) as [Sden Qden]. destruct (arr_op_1 _ _ _ _ _ _ Snum Sden H) as [SX QX].
  destruct (QX i Hi) as (nu & de & e & Enu & Ede & Ee & Re). exists e. split; [exact Ee|].
  destruct (Qnum i Hi) as (u1 & v1 & nu' & Eu1 & Ev1 & Enu' & Rnu). assert (nu' = nu) by congruence. subst nu'.
  destruct (Qden i Hi) as (u2 & v2 & de' & Eu2 & Ev2 & Ede' & Rde). assert (de' = de) by congruence. subst de'.
  destruct (Qb1 i Hi) as (u1' & Eu1' & Gu1 & Mu1). assert (u1' = u1) by congruence. subst u1'.
  destruct (QI1 i Hi) as (v1' & Ev1' & Gv1 & Mv1). assert (v1' = v1) by congruence. subst v1'.
  destruct (QI2 i Hi) as (v2' & Ev2' & Gv2 & Mv2). assert (v2' = v2) by congruence. subst v2'.
  destruct (QD i) as [_ QDi]. destruct (QDi Hi) as (u2' & Eu2' & EA). assert (u2' = u2) by congruence. subst u2'. cbn [Z.leb Z.compare Z.to_nat] in EA. rewrite Nat.add_0_r in EA.
  destruct (QA1 i i Hi Hi) as (u2' & Eu2'' & Gu2 & Mu2). assert (u2' = u2) by congruence. subst u2'.
  assert (C0 : forall k, k <> i -> cval C i k = 0).
  { intros k Hk. unfold cval, f_get. destruct (aget C [i; k]) as [v|] eqn:E; [|reflexivity]. apply (DC i k v); [congruence|exact E]. }
  assert (P0 : forall k, (k < n)%nat -> k <> i -> P k i = 0 /\ P i k = 0).
  { intros k Hk Ne. split; [destruct (HP k i Hk Hi) as (a & Ha & Ma); exact (DA k i a _ Hk Hi Ne Ha Ma)|destruct (HP i k Hi Hk) as (a & Ha & Ma)]. apply (DA i k a _ Hi Hk); [congruence|exact Ha|exact Ma]. }
  rewrite (Rsum_one n _ i Hi) in Mu2 by (intros k Hk Ne; rewrite (C0 k Ne); lra). rewrite (Rsum_one n _ i Hi) in Mu1 by (intros k Hk Ne; rewrite (C0 k Ne); lra).
  specialize (Hx i Hi). rewrite (Rsum_one n _ i Hi) in Hx by (intros k Hk Ne; destruct (P0 k Hk Ne) as [_ ->]; lra).
  destruct (mon_op _ _ _ _ _ _ _ Gu1 Gv1 Mu1 Mv1 Rnu) as [Gnu Mnu]. destruct (mon_op _ _ _ _ _ _ _ Gu2 Gv2 Mu2 Mv2 Rde) as [Gde Mde].
  assert (Mnu' : member_or_nan nu (cval C i i * q i)). { destruct Mnu as [N|(r & Hr & Mr)]; [left; exact N|right]. cbn [real_op] in Hr. inversion Hr. subst r. now rewrite Rplus_0_r in Mr. }
  assert (Mde' : member_or_nan de (cval C i i * P i i)). { destruct Mde as [N|(r & Hr & Mr)]; [left; exact N|right]. cbn [real_op] in Hr. inversion Hr. subst r. now rewrite Rplus_0_r in Mr. }
  destruct (mon_op _ _ _ _ _ _ _ Gnu Gde Mnu' Mde' Re) as [Ge Me]. split; [exact Ge|]. destruct Me as [N|(r & Hr & Mr)]; [left; exact N|right].
  cbn [real_op] in Hr. destruct (Req_EM_T (cval C i i * P i i) 0) as [|Nz]; [discriminate|]. inversion Hr. subst r.
  replace (x i) with (cval C i i * q i / (cval C i i * P i i)); [exact Mr|]. rewrite <- Hx. field. split; intro Z; apply Nz; rewrite Z; lra.
Qed.
Lemma hbr_single inv dot A b m X : fl_system 1 A b -> (forall c C, returns (arr_mid A) m c -> inv c = Ok C -> exists f, C = mkarr [1%nat; 1%nat] [f] /\ is_finite f = true) ->
  returns (hbr_fl inv dot A b) m X -> forall x, solution 1 A b x -> exists e, aget (adat X) [0%nat] = Some e /\ good e /\ member_or_nan e (x 0%nat).
Proof.
  intros HS Hinv HX x Hx. apply (hbr_diagonal inv dot 1 A b m X HS); [| |exact HX|exact Hx|lia].
  - intros i k a r Hi Hk Ne. lia.
  - intros c C Hc HC. destruct (Hinv c C Hc HC) as (f & -> & Ff). split; [reflexivity|]. split; [reflexivity|]. split; [constructor; [exact Ff|constructor]|].
    intros i k g Ne Hg. unfold aget in Hg. cbn [ashape flat size fold_right] in Hg. destruct (Nat.ltb_spec i 1); [|discriminate]. destruct (Nat.ltb_spec k 1); [|discriminate]. lia.
Qed.

(** A case: [2,4] x = 6, 5 y = [1,2]. *)
Definition hd_A : aitv := array_interval (mkarr [2; 2]%nat [mkitv Classical (PInt 2) (PInt 4); mkitv Classical (PInt 0) (PInt 0); mkitv Classical (PInt 0) (PInt 0); mkitv Classical (PInt 5) (PInt 5)]).
Definition hd_b : aitv := array_interval (mkarr [2]%nat [mkitv Classical (PInt 6) (PInt 6); mkitv Classical (PInt 1) (PInt 2)]).
(** Inverses of diagonal matrices, entry by entry. *)
Definition inv_diag (P : arr pynum) : res (arr flt) :=
  match ashape P with
  | [2%nat; 2%nat] => match adata P with
      | [a; _; _; d] => match to_double a, to_double d with Ok x, Ok y => Ok (mkarr [2; 2]%nat [fdiv mode_NE f1 x; f0; f0; fdiv mode_NE f1 y]) | _, _ => Err ValueError end
      | _ => Err ValueError end
  | _ => Err ValueError
  end.
Lemma good_ints a b : (Z.abs a <= 2 ^ 26)%Z -> (Z.abs b <= 2 ^ 26)%Z -> (a <= b)%Z -> good (mkitv Classical (PInt a) (PInt b)).
Proof. intros Ha Hb H. split; [reflexivity|]. split; [split; assumption|]. right. exists (IZR a). split; cbn; [lra|now apply IZR_le]. Qed.
Lemma hd_case : fl_system 2 hd_A hd_b /\ diagonal_itv 2 hd_A /\ (forall c C, returns (arr_mid hd_A) mode_NE c -> inv_diag c = Ok C -> diagonal_flt 2 C) /\
  (exists X, returns (hbr_fl inv_diag dot_rounded hd_A hd_b) mode_NE X) /\ solution 2 hd_A hd_b (fun i => match i with O => 2 | _ => 3/10 end).
Proof.
  split; [|split; [|split; [|split]]].
  - unfold fl_system. split; [lia|]. split; [split; reflexivity|]. split; [split; reflexivity|]. split; [reflexivity|]. split; [reflexivity|].
    split; cbn [hd_A hd_b array_interval adat adata]; repeat apply Forall_cons; try apply Forall_nil; apply good_ints; lia.
  - intros [|[|i]] [|[|k]] a r Hi Hk Ne Ha Hr; try lia; inversion Ha; subst a; destruct Hr as [H1 H2]; cbn in H1, H2; lra.
  - intros c C Hc HC. assert (E : exists C', inv_diag c = Ok C' /\ diagonal_flt 2 C').
    { assert (Q : match outcome (arr_mid hd_A) mode_NE with Ok c => match inv_diag c with Ok C => andb (match adata C with [a; b; c; d] => is_finite a && is_finite b && is_finite c && is_finite d && num_eq (PFlt b) (PInt 0) && num_eq (PFlt c) (PInt 0) | _ => false end) (match ashape C with [2%nat; 2%nat] => true | _ => false end) | _ => false end | _ => false end = true) by (vm_cast_no_check (eq_refl true)).
      unfold returns in Hc. rewrite Hc in Q. destruct (inv_diag c) as [C'|]; [|discriminate]. exists C'. split; [reflexivity|]. destruct C' as [s l]. cbn [adata ashape] in Q. apply andb_prop in Q. destruct Q as [Q1 Q2].
      destruct s as [|[|[|[|s0]]] [|[|[|[|s1]]] [|s2 s3]]]; try discriminate Q2.
      destruct l as [|a [|b [|c' [|d [|]]]]]; try discriminate Q1. repeat (apply andb_prop in Q1; destruct Q1 as [Q1 ?]).
      assert (Z0 : forall f, num_eq (PFlt f) (PInt 0) = true -> B2R f = 0).
      { intros f Hf. assert (AE : all_eq [PFlt f] [PInt 0] = true) by (unfold all_eq; cbn; cbn in Hf; rewrite Hf; reflexivity). exact (proj2 (all_eq_val _ _ AE) 0%nat _ _ eq_refl eq_refl I). }
      split; [reflexivity|]. split; [reflexivity|]. split; [repeat constructor; assumption|].
      intros i k f Ne Hf. destruct i as [|[|i]], k as [|[|k]]; try lia; try (inversion Hf; subst; apply Z0; assumption); try (exfalso; revert Hf; unfold aget; cbn; discriminate). }
    destruct E as (C' & E & D). congruence.
  - assert (Q : match outcome (hbr_fl inv_diag dot_rounded hd_A hd_b) mode_NE with Ok _ => true | _ => false end = true) by (vm_cast_no_check (eq_refl true)).
    unfold returns. destruct (outcome (hbr_fl inv_diag dot_rounded hd_A hd_b) mode_NE) as [X|]; [|discriminate]. now exists X.
  - exists (fun i k => match i, k with O, O => 3 | O, _ => 0 | _, O => 0 | _, _ => 5 end), (fun i => match i with O => 6 | _ => 3/2 end). split; [|split].
    + intros [|[|i]] [|[|k]] Hi Hk; try lia; eexists; (split; [reflexivity|]); split; cbn; lra.
    + intros [|[|i]] Hi; try lia; eexists; (split; [reflexivity|]); split; cbn; lra.
    + intros [|[|i]] Hi; try lia; cbn; lra.
Qed.
