(** What the exceptions of Krawczyk and HansenSengupta mean, and an example for
    the exception of Gauss_Seidel. *)
From Coq Require Import ZArith Reals List Bool Arith Lia Lra Psatz Floats.SpecFloat.
From Flocq Require Import Core IEEE754.BinarySingleNaN.
From Verif Require Import Base PyNum Kernel Spec Expr XReal XArith KernelProofs ExprProofs KernelAlg KernelMore Witness Arrays Construct SpecArray ArrayProofs ArrayMore ArrayMat ConstructProofs ConstructMore ConstructUtil Solvers SpecSolvers SolversProofs GSProofs NewtonProofs NewtonVerify SolversRefute GSEmpty IterProofs.
Import ListNotations.
Open Scope R_scope.

(** ** Arithmetic never raises the solvers' own exception *)
Definition quiet {A} (c : M A) : Prop := forall m, never GenericException c m.
Lemma quiet_ret {A} (a : A) : quiet (mret a). Proof. intros m. discriminate. Qed.
Lemma quiet_raise {A} e : e <> GenericException -> quiet (@mraise A e). Proof. intros H m E. unfold outcome, mraise in E. simpl in E. congruence. Qed.
Lemma quiet_bind {A B} (c : M A) (k : A -> M B) : quiet c -> (forall a, quiet (k a)) -> quiet (mbind c k).
Proof.
  intros H K m. specialize (H m). unfold never, outcome, mbind in *. destruct (c m) as [[a|x] m1]; cbn [fst] in *; [exact (K a m1)|congruence].
Qed.
Lemma quiet_with {A} md (c : M A) : quiet c -> quiet (with_rounding md c).
Proof.
  intros H m. specialize (H md). unfold never, outcome, with_rounding, mbind, fegetround, fesetround, mfinally in *. cbn in *.
  destruct (c md) as [r m1]. exact H.
Qed.
Lemma int_quiet z : int_to_double z <> Err GenericException.
Proof. unfold int_to_double. destruct (_ : bool); discriminate. Qed.
Lemma to_double_quiet x : to_double x <> Err GenericException.
Proof. destruct x; cbn [to_double]; [apply int_quiet | discriminate]. Qed.
Lemma quiet_lift x : quiet (mlift (to_double x)). Proof. intros m E. exact (to_double_quiet x E). Qed.
Lemma rbind_quiet {A B} (r : res A) (k : A -> res B) : r <> Err GenericException -> (forall a, k a <> Err GenericException) -> rbind r k <> Err GenericException.
Proof. destruct r as [a|e]; cbn [rbind]; intros H K; [apply K | congruence]. Qed.
Lemma arith2_quiet fz ff x y : arith2 fz ff x y <> Err GenericException.
Proof.
  unfold arith2. destruct x, y; try discriminate; (apply rbind_quiet; [apply to_double_quiet|intro; apply rbind_quiet; [apply to_double_quiet | discriminate]]).
Qed.
Lemma quiet_add x y : quiet (add_ x y). Proof. intros m. apply arith2_quiet. Qed.
Lemma quiet_sub x y : quiet (sub_ x y). Proof. intros m. apply arith2_quiet. Qed.
Lemma quiet_mul x y : quiet (mul_ x y). Proof. intros m. apply arith2_quiet. Qed.
Lemma quiet_div x y : quiet (div_ x y).
Proof.
  intros m. unfold never, outcome, div_, mprim. cbn [fst]. unfold num_div.
  assert (F : forall x y, (a <~ to_double x ;; b <~ to_double y ;; if flt_eqb b f0 then Err ZeroDivisionError else Ok (PFlt (fdiv m a b)))%res <> Err GenericException).
  { intros p q. apply rbind_quiet; [apply to_double_quiet|intro; apply rbind_quiet; [apply to_double_quiet|]]. intro b. destruct (flt_eqb b f0); discriminate. }
  destruct x as [a|a], y as [b|b]; try apply F.
  destruct (b =? 0)%Z; [discriminate|]. destruct (_ && _)%bool; [discriminate|]. cbv zeta. destruct (is_finite _); discriminate.
Qed.
Lemma quiet_dadd x y : quiet (dadd_ x y). Proof. intros m. discriminate. Qed.
Lemma quiet_dsub x y : quiet (dsub_ x y). Proof. intros m. discriminate. Qed.
Lemma quiet_dmul x y : quiet (dmul_ x y). Proof. intros m. discriminate. Qed.
Ltac quiet := repeat first
  [ progress cbv zeta
  | apply quiet_ret | apply quiet_lift | apply quiet_add | apply quiet_sub | apply quiet_mul | apply quiet_div
  | apply quiet_dadd | apply quiet_dsub | apply quiet_dmul | apply quiet_with | (apply quiet_raise; discriminate)
  | match goal with |- quiet (mbind _ _) => apply quiet_bind; [|intro] end
  | match goal with
    | |- quiet (match ?x with _ => _ end) => destruct x
    | |- quiet (if ?b then _ else _) => destruct b
    | |- quiet (let (_, _) := ?x in _) => destruct x
    end
  | match goal with |- quiet ?c => let h := head_of c in unfold h end ].
Lemma quiet_py_op o x y : quiet (py_op o x y). Proof. destruct o; quiet. Qed.
Lemma quiet_mid X : quiet (mid X). Proof. quiet. Qed.
Lemma quiet_mid_itv X : quiet (mid_itv X). Proof. quiet. Qed.
Lemma quiet_intersect X Y : quiet (intersect X Y). Proof. quiet. Qed.
Lemma quiet_slope L : quiet (slope_recip L). Proof. quiet. Qed.

Section Raise.
Variables (func J : itv -> M itv) (distance : itv -> itv -> pynum).
Hypothesis Qf : forall X, quiet (func X).
Hypothesis QJ : forall X, quiet (J X).
Lemma quiet_kraw X c : quiet (kraw_op func J X c).
Proof.
  unfold kraw_op. repeat (apply quiet_bind; [first [apply QJ | apply Qf | apply quiet_slope | apply (quiet_py_op OpMul) | apply (quiet_py_op OpSub)]|intro]).
  apply (quiet_py_op OpAdd).
Qed.
Lemma quiet_loop op : (forall X c, quiet (op X c)) -> forall fuel tol err X c, quiet (newton_loop distance op fuel tol err X c).
Proof.
  intro Q. induction fuel as [|k IH]; intros; cbn [newton_loop]; [apply quiet_ret|].
  destruct (num_lt tol err); [|apply quiet_ret]. apply quiet_bind; [apply Q|intro]. apply quiet_bind; [apply quiet_intersect|intro Y].
  destruct (isnan_itv Y); [apply quiet_ret|]. apply quiet_bind; [apply quiet_mid_itv|intro]. apply IH.
Qed.
End Raise.


Lemma start_contains func x0 f F z m : good x0 -> encloses_on x0 func f -> returns (func x0) m F -> isnan_itv F = false ->
  member x0 z -> f z = 0 -> py_contains F (ONum (PInt 0)) = true.
Proof.
  intros G0 Hf HF N Mz Fz. destruct (py_contains F (ONum (PInt 0))) eqn:C; [reflexivity|exfalso].
  destruct (proj2 Hf x0 m F G0 (fun r H => H) HF) as [GF EF]. specialize (EF z Mz). rewrite Fz in EF.
  refine (contains_zero_enc F 0 (conj GF EF) C _ eq_refl). intros [Na _]. unfold isnan_itv in N. rewrite Na in N. discriminate.
Qed.

Theorem krawczyk_exception_excludes func J distance x0 f maxiter tol m : good x0 -> encloses_on x0 func f ->
  (forall X m', ~ raises (func X) m' GenericException) -> (forall X m', ~ raises (J X) m' GenericException) ->
  (forall F, returns (func x0) m F -> isnan_itv F = false) ->
  raises (krawczyk func J distance x0 maxiter tol) m GenericException -> forall z, member x0 z -> f z <> 0.
Proof.
  intros G0 Hf Qf QJ NF H z Mz Fz. revert H. change (never GenericException (krawczyk func J distance x0 maxiter tol) m). unfold krawczyk, newton.
  apply never_bind; [intro; apply Hf | exact (Qf x0 m)|]. intros F HF.
  rewrite (start_contains func x0 f F z m G0 Hf HF (NF F HF) Mz Fz).
  apply (quiet_bind _ _ (quiet_mid_itv x0)). intro c. apply quiet_loop. intros. apply quiet_kraw; assumption.
Qed.

Theorem hansen_sengupta_exception_excludes func J distance x0 f f' maxiter tol m : modest x0 -> encloses_on x0 func f -> encloses_on x0 J f' ->
  (forall r, member x0 r -> derivable_pt_lim f r (f' r)) ->
  (forall X L la, part x0 X -> returns (J X) m L -> returns (slope_recip L) m la -> finite_num la) ->
  (forall X m', ~ raises (func X) m' GenericException) -> (forall X m', ~ raises (J X) m' GenericException) ->
  (forall F, returns (func x0) m F -> isnan_itv F = false) ->
  (forall X L la A, part x0 X -> returns (J X) m L -> returns (slope_recip L) m la -> returns (py_mul (ONum la) (OItv L)) m A -> py_contains A (ONum (PInt 0)) = false) ->
  raises (hansen_sengupta func J distance x0 maxiter tol) m GenericException -> forall z, member x0 z -> f z <> 0.
Proof.
  intros Mx Hf HJ Hd Hla Qf QJ NF NA H z Mz Fz. revert H. change (never GenericException (hansen_sengupta func J distance x0 maxiter tol) m).
  assert (KZ := hs_keeps func J x0 f f' m Hf HJ Hd Hla z Fz).
  assert (Op : forall X c, kept x0 z X -> never GenericException (hs_op func J X c) m).
  { intros X c (GX & MX & SX). assert (PX : part x0 X) by (split; [exact GX|split; [now exists z|exact SX]]). unfold hs_op.
    apply never_bind; [intro; apply HJ | exact (QJ X m)|]. intros L HL. apply never_bind; [apply keeps_slope | apply quiet_slope|]. intros la HLa.
    apply never_bind; [apply (keeps_py_op OpMul) | apply (quiet_py_op OpMul)|]. intros A HA.
    apply never_bind; [intro; apply Hf | exact (Qf c m)|]. intros fc _. apply never_bind; [apply (keeps_py_op OpMul) | apply (quiet_py_op OpMul)|]. intros b _.
    rewrite (NA X L la A PX HL HLa HA). apply never_bind; [apply (keeps_py_op OpDiv) | apply (quiet_py_op OpDiv)|]. intros g _. apply (quiet_py_op OpAdd). }
  assert (Loop : forall fuel e X c cr, kept x0 z X -> good c -> member c cr -> member X cr -> (forall r, member c r -> member X r) ->
    never GenericException (newton_loop distance (hs_op func J) fuel tol e X c) m).
  { induction fuel as [|k IH]; intros e X c cr KX Gc Mc MXc Sc; cbn [newton_loop]; [apply quiet_ret|].
    destruct (num_lt tol e); [|apply quiet_ret]. apply never_bind; [apply (proj1 KZ) | apply Op; exact KX|]. intros zz Hzz.
    apply never_bind; [apply keeps_intersect | apply quiet_intersect|]. intros Y HY. destruct (isnan_itv Y) eqn:NY; [apply quiet_ret|].
    apply never_bind; [apply keeps_mid_itv | apply quiet_mid_itv|]. intros c1 Hc1.
    destruct KX as (GX & MzX & SX). assert (KX : kept x0 z X) by (split; auto).
    assert (E := proj2 KZ X c zz cr KX Gc Mc MXc (fun r Hr => SX r (Sc r Hr)) Hzz).
    destruct (intersect_keep X zz m Y z GX MzX E HY NY) as (GY & MY & SY).
    assert (KY : kept x0 z Y) by (split; [exact GY|split; [exact MY|auto]]).
    assert (MoY := sub_modest x0 z Y Mx KY).
    destruct (mid_itv_spec Y m c1 MoY Hc1) as (Gc' & r & Mr & MYr).
    refine (IH _ Y c1 r KY Gc' Mr MYr _). intros t Ht.
    assert (t = r) by exact (mid_itv_point Y m c1 t r MoY Hc1 Ht Mr). now subst t. }
  assert (G0 : good x0) by (exact (proj1 (modest_kept x0 z Mx Mz))).
  unfold hansen_sengupta, newton. apply never_bind; [intro; apply Hf | exact (Qf x0 m)|]. intros F HF.
  rewrite (start_contains func x0 f F z m G0 Hf HF (NF F HF) Mz Fz).
  apply never_bind; [apply keeps_mid_itv | apply quiet_mid_itv|]. intros c Hc.
  destruct (mid_itv_spec x0 m c Mx Hc) as (Gc & cr & Mc & Mxc).
  refine (Loop _ _ x0 c cr (modest_kept x0 z Mx Mz) Gc Mc Mxc _).
  intros t Ht. assert (t = cr) by exact (mid_itv_point x0 m c t cr Mx Hc Ht Mc). now subst t.
Qed.

(** ** Cases *)
(** x + 20 on [-16, 16]. *)
Definition plus20 (X : itv) : M itv := py_add (OItv X) (ONum (PInt 20)).
Lemma plus20_encloses : encloses_on xm16 plus20 (fun x => x + 20).
Proof.
  split; [intros X m; apply (keeps_py_op OpAdd)|]. intros X m Z GX S H.
  destruct (py_op_num_r OpAdd X (PInt 20) m Z ltac:(discriminate) GX ltac:(simpl; lia) I H) as (k2 & s2 & W2). split; [exact (good_of_wsound1 _ _ _ GX k2 s2 W2)|].
  intros r Hr. destruct (proj2 W2 r Hr) as (t & Et & Ht). simpl in Et. inversion Et; subst t. exact Ht.
Qed.
Lemma plus20_quiet X m' : ~ raises (plus20 X) m' GenericException. Proof. exact (quiet_py_op OpAdd _ _ m'). Qed.
Lemma unit_quiet X m' : ~ raises (unit_slope X) m' GenericException. Proof. discriminate. Qed.
Lemma plus20_nnan F : returns (plus20 xm16) mode_NE F -> isnan_itv F = false.
Proof.
  intro H. assert (T : match outcome (plus20 xm16) mode_NE with Ok F => isnan_itv F = false | _ => False end) by (vm_compute; reflexivity).
  unfold returns in H. now rewrite H in T.
Qed.
Lemma unit_no_zero X L la A : returns (unit_slope X) mode_NE L -> returns (slope_recip L) mode_NE la -> returns (py_mul (ONum la) (OItv L)) mode_NE A ->
  py_contains A (ONum (PInt 0)) = false.
Proof.
  intros H H2 H3. apply returns_ret in H. subst L.
  assert (T : match outcome (slope_recip (ii 1 1)) mode_NE with Ok la => match outcome (py_mul (ONum la) (OItv (ii 1 1))) mode_NE with Ok A => py_contains A (ONum (PInt 0)) = false | _ => False end | _ => False end) by (vm_compute; reflexivity).
  unfold returns in *. now rewrite H2, H3 in T.
Qed.
Lemma plus20_raises : raises (krawczyk plus20 unit_slope d16 xm16 5 (PInt 0)) mode_NE GenericException /\
  raises (hansen_sengupta plus20 unit_slope d16 xm16 5 (PInt 0)) mode_NE GenericException.
Proof. split; vm_compute; reflexivity. Qed.

(** The system of [e2A], [e2b] with a box far from its solutions. *)
Definition e2far : ivec := fun _ => mkitv Classical (PInt 20) (PInt 30).
Lemma small_sized a b : (Z.abs a <= 100)%Z -> (Z.abs b <= 100)%Z -> (a <= b)%Z -> sized 200 (ii a b).
Proof.
  intros A B H. assert (P : 128 <= bpow radix2 200) by (change 128 with (bpow radix2 7); apply bpow_le; lia).
  assert (Q : forall z, (Z.abs z <= 100)%Z -> Rabs (IZR z) <= bpow radix2 200).
  { intros z Hz. rewrite <- abs_IZR. apply IZR_le in Hz. lra. }
  split; [apply ii_good; lia|]. split; [split; exact I|]. split; cbn [lo hi ii num_val]; auto.
Qed.
Lemma e2_sized : (forall i l, (i < 2)%nat -> (l < 2)%nat -> sized 200 (e2A i l)) /\ (forall i, (i < 2)%nat -> sized 200 (e2b i)) /\
  (forall i, (i < 2)%nat -> sized 200 (e2far i)) /\ (forall i l, (i < 2)%nat -> (l < 2)%nat -> num_ok (e2C i l) /\ Rabs (num_val (e2C i l)) <= bpow radix2 200).
Proof.
  split; [|split; [|split]].
  - intros i l _ _. unfold e2A. destruct (i =? l)%nat; apply small_sized; lia.
  - intros i _. apply small_sized; lia.
  - intros i _. apply small_sized; lia.
  - intros i l Hi Hl. split; [exact (proj2 (proj2 (proj2 e2_good)) i l Hi Hl)|]. unfold e2C. destruct (i =? l)%nat; cbn [num_val].
    + rewrite (B2R_sf (fl 1 (-2)) false 4503599627370496%positive (-54)%Z eq_refl).
      assert (P : 128 <= bpow radix2 200) by (change 128 with (bpow radix2 7); apply bpow_le; lia). revert P. generalize (bpow radix2 200). intros t P.
      unfold F2R. simpl. apply Rabs_le. lra.
    + rewrite Rabs_R0. apply bpow_ge_0.
Qed.
Lemma e2_far_raises : raises (gauss_seidel dist0 2 e2A e2b (Some e2far) e2C true (PInt 1) 3) mode_NE GenericException.
Proof. vm_compute. reflexivity. Qed.

(** Two runs of each method. *)
Lemma sq2_zero : member x12 (sqrt 2) /\ sqrt 2 * sqrt 2 - 2 = 0.
Proof.
  assert (E : sqrt 2 * sqrt 2 = 2) by (apply sqrt_sqrt; lra). split; [|lra]. assert (P := sqrt_pos 2).
  split; simpl; nra.
Qed.
Lemma some_run {A} (c : M A) m : match outcome c m with Ok _ => True | _ => False end -> exists Z, returns c m Z.
Proof. unfold returns. destruct (outcome c m) as [Z|]; [now exists Z | contradiction]. Qed.
Lemma some_real_run (c : M itv) m : match outcome c m with Ok Z => isnan_itv Z = false | _ => False end -> exists Z, returns c m Z /\ isnan_itv Z = false.
Proof. unfold returns. destruct (outcome c m) as [Z|]; [now exists Z | contradiction]. Qed.
Lemma sq2_two_runs : (exists Z Z', returns (krawczyk sq2 j24 sdist x12 0 (PInt 1)) mode_NE Z /\ returns (krawczyk sq2 j24 sdist x12 2 (PFlt f0)) mode_NE Z' /\ isnan_itv Z' = false) /\
  exists Z Z', returns (hansen_sengupta sq2 j24 sdist x12 1 (PInt 1)) mode_NE Z /\ returns (hansen_sengupta sq2 j24 sdist x12 3 (PFlt f0)) mode_NE Z' /\ isnan_itv Z' = false.
Proof.
  destruct (some_run (krawczyk sq2 j24 sdist x12 0 (PInt 1)) mode_NE) as (Z1 & R1); [vm_compute; exact I|].
  destruct (some_real_run (krawczyk sq2 j24 sdist x12 2 (PFlt f0)) mode_NE) as (Z2 & R2); [vm_compute; reflexivity|].
  destruct (some_run (hansen_sengupta sq2 j24 sdist x12 1 (PInt 1)) mode_NE) as (Z3 & R3); [vm_compute; exact I|].
  destruct (some_real_run (hansen_sengupta sq2 j24 sdist x12 3 (PFlt f0)) mode_NE) as (Z4 & R4); [vm_compute; reflexivity|].
  split; [exists Z1, Z2; split; [exact R1 | exact R2] | exists Z3, Z4; split; [exact R3 | exact R4]].
Qed.
Lemma e2_two_runs : (exists Z, returns (gauss_seidel dist0 2 e2A e2b (Some e2x) e2C true (PInt 1) 1) mode_NE Z) /\
  (exists Z, returns (gauss_seidel dist0 2 e2A e2b (Some e2x) e2C true (PInt 0) 3) mode_NE Z) /\
  exists (Mr : nat -> nat -> R) v x, (forall i l, (i < 2)%nat -> (l < 2)%nat -> member (e2A i l) (Mr i l)) /\ (forall i, (i < 2)%nat -> member (e2b i) (v i)) /\
    (forall i, (i < 2)%nat -> Rsum 2 (fun l => Mr i l * x l) = v i) /\ (forall i, (i < 2)%nat -> member (e2x i) (x i)).
Proof.
  split; [apply some_run; vm_compute; exact I|]. split; [apply some_run; vm_compute; exact I|].
  exists (fun i l => if (i =? l)%nat then 2 else 1), (fun _ => 3 / 2), (fun _ => 1 / 2).
  split; [|split; [|split]].
  - intros i l _ _. unfold e2A. destruct (i =? l)%nat; split; simpl; lra.
  - intros i _. split; simpl; lra.
  - intros i Hi. destruct i as [|[|i]]; [| |lia]; unfold Rsum; simpl; lra.
  - intros i _. split; simpl; lra.
Qed.

(** Without a zero in x0 a longer run may leave it: x - (1 + 2^-52) on [0, 1]. *)
Definition c152 : pynum := PFlt (fl 4503599627370497 (-52)).
Definition x01 : itv := ii 0 1.
Definition nearby (X : itv) : M itv := if num_lt (lo X) (hi X) then mret (ii (-2) 1) else py_sub (OItv X) (ONum c152).
Lemma c152_val : num_val c152 = 1 + / 4503599627370496.
Proof.
  unfold c152, num_val. rewrite (B2R_sf (fl 4503599627370497 (-52)) false 4503599627370497%positive (-52)%Z eq_refl). unfold F2R. simpl. lra.
Qed.
Lemma nearby_encloses : encloses_on x01 nearby (fun x => x - num_val c152).
Proof.
  split.
  - intros X m. unfold nearby. destruct (num_lt (lo X) (hi X)); [reflexivity|]. apply (keeps_py_op OpSub).
  - intros X m Z GX S H. unfold nearby in H. destruct (num_lt (lo X) (hi X)).
    + apply returns_ret in H; subst Z. split; [apply ii_good; lia|]. intros r Hr; right; apply S in Hr; destruct Hr as [R1 R2]; simpl in R1, R2. rewrite c152_val. split; simpl; lra.
    + destruct (py_op_num_r OpSub X c152 m Z ltac:(discriminate) GX I eq_refl H) as (k2 & s2 & W2). split; [exact (good_of_wsound1 _ _ _ GX k2 s2 W2)|].
      intros r Hr. destruct (proj2 W2 r Hr) as (t & Et & Ht). cbn [opR] in Et. inversion Et; subst t. exact Ht.
Qed.
Lemma unit01_encloses : encloses_on x01 unit_slope (fun _ => 1).
Proof.
  split; [reflexivity|]. intros X m Z _ _ H. unfold unit_slope in H. apply returns_ret in H. subst Z.
  split; [apply ii_good; lia|]. intros r _; right; split; simpl; lra.
Qed.
Lemma x01_modest : modest x01.
Proof.
  assert (B := two_le_bpow 1022 ltac:(lia)).
  split; [reflexivity|]. split; [split; simpl; lia|]. split; [split; [split; exact I|simpl; lra]|]. cbn [lo hi x01 ii num_val].
  split; apply Rabs_le; lra.
Qed.
Theorem shrinks_needs_zero : exists func J distance x0 f f' tol m Z r, modest x0 /\ encloses_on x0 func f /\ encloses_on x0 J f' /\
  (forall r, member x0 r -> derivable_pt_lim f r (f' r)) /\
  (forall X L la, part x0 X -> returns (J X) m L -> returns (slope_recip L) m la -> finite_num la) /\
  returns (hansen_sengupta func J distance x0 0 tol) m x0 /\ returns (hansen_sengupta func J distance x0 1 tol) m Z /\ isnan_itv Z = false /\
  member Z r /\ ~ member x0 r.
Proof.
  exists nearby, unit_slope, d16, x01, (fun x => x - num_val c152), (fun _ => 1), (PInt 0), mode_NE.
  assert (T : match outcome (hansen_sengupta nearby unit_slope d16 x01 1 (PInt 0)) mode_NE with
    | Ok Z => isnan_itv Z = false /\ lo Z = PInt 1 /\ match hi Z with PFlt g => B2SF g = S754_finite false 4503599627370497 (-52) | _ => False end | _ => False end)
    by (vm_compute; repeat split; reflexivity).
  destruct (outcome (hansen_sengupta nearby unit_slope d16 x01 1 (PInt 0)) mode_NE) as [Z|] eqn:E; [|contradiction].
  exists Z, (num_val c152). destruct T as (T1 & T2 & T3). destruct Z as [k l h]. cbn [lo hi] in *. subst l. destruct h as [|g]; [contradiction|].
  split; [exact x01_modest|]. split; [exact nearby_encloses|]. split; [exact unit01_encloses|].
  split. { intros r _. replace 1 with (1 - 0) by ring. apply (derivable_pt_lim_minus id (fct_cte (num_val c152))); [apply derivable_pt_lim_id | apply derivable_pt_lim_const]. }
  split. { intros X L la _ H1 H2. exact (proj1 (unit_scaled X L la H1 H2)). }
  split; [vm_compute; reflexivity|]. split; [exact E|]. split; [exact T1|]. split.
  - apply member_x. cbn [lo hi]. assert (Vg : xval (PFlt g) = XFin (num_val c152)).
    { assert (g = fl 4503599627370497 (-52)) by (apply B2SF_inj; rewrite T3; vm_compute; reflexivity). subst g. reflexivity. }
    rewrite Vg, c152_val. simpl. lra.
  - intros [_ H]. change (num_val c152 <= 1) in H. rewrite c152_val in H. lra.
Qed.
