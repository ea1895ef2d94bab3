(** The methods for several unknowns cannot narrow anything. *)
From Coq Require Import ZArith Reals List Bool Arith Lia.
From Verif Require Import Base PyNum Kernel Spec Expr KernelProofs ExprProofs KernelMore Arrays Construct SpecArray ArrayProofs ArrayMore ConstructProofs ConstructMore ConstructUtil Solvers GSProofs NewtonProofs ArrayItems NewtonVec.
Import ListNotations.

Lemma bind_ok {A B} (c : M A) (k : A -> M B) m z : returns (mbind c k) m z -> exists a, returns c m a /\ exists m', returns (k a) m' z.
Proof. unfold returns, outcome, mbind. destruct (c m) as [[a|e] m'] eqn:E; simpl; [|discriminate]. intro H. exists a. split; [reflexivity|]. now exists m'. Qed.
Lemma to_float_fails x m z : ~ returns (arr_to_float x) m z.
Proof.
  unfold arr_to_float, lift_arr. intro H. apply bind_ok in H. destruct H as (d & H & _). revert H. unfold vectorize.
  destruct (adata (adat x)) as [|e l] eqn:E; [discriminate|]. unfold amapM. rewrite E. intro H. discriminate H.
Qed.
Lemma to_float_raises x m : adata (adat x) <> [] -> raises (arr_to_float x) m AttributeError.
Proof.
  intro N. unfold raises, outcome, arr_to_float, lift_arr, vectorize. destruct (adata (adat x)) as [|e l] eqn:E; [congruence|]. unfold amapM. rewrite E. reflexivity.
Qed.

Section V.
Variables (func J : aitv -> M aitv) (rest_op : aitv -> aitv -> aitv -> aitv -> M aitv) (rest_loop : aitv -> M aitv).
Lemma hs_fails X c m z : ~ returns (hs_vec J rest_op X c) m z.
Proof. intro H. apply bind_ok in H. destruct H as (L & _ & m' & H). apply bind_ok in H. destruct H as (F & H & _). exact (to_float_fails _ _ _ H). Qed.
Lemma kraw_fails X c m z : ~ returns (kraw_vec J rest_op X c) m z.
Proof.
  intro H. apply bind_ok in H. destruct H as (L & _ & m' & H). destruct (length (shp L) =? 2)%nat; [|discriminate].
  apply bind_ok in H. destruct H as (F & H & _). exact (to_float_fails _ _ _ H).
Qed.
Lemma newton_vec_returns op enter tol x0 m Z : (forall X c m z, ~ returns (op X c) m z) ->
  returns (newton_vec func rest_loop op enter tol x0) m Z -> Z = x0 /\ (enter = false \/ num_lt tol (PFlt finf) = false).
Proof.
  intros Hop H. apply bind_ok in H. destruct H as (F & _ & m1 & H). apply bind_ok in H. destruct H as (found & _ & m2 & H). destruct found; [|discriminate].
  apply bind_ok in H. destruct H as (c & _ & m3 & H). destruct (enter && num_lt tol (PFlt finf)) eqn:E.
  - apply bind_ok in H. destruct H as (z & H & _). now apply Hop in H.
  - injection H as <-. split; [reflexivity|]. apply andb_false_iff in E. exact E.
Qed.
Theorem krawczyk_vec_returns x0 maxiter tol m Z : returns (krawczyk_vec func J rest_op rest_loop x0 maxiter tol) m Z -> Z = x0 /\ ((maxiter < 0)%Z \/ num_lt tol (PFlt finf) = false).
Proof. intro H. apply newton_vec_returns in H; [|apply kraw_fails]. destruct H as [E [H|H]]; (split; [exact E|]); [left; now apply Z.leb_gt|now right]. Qed.
Theorem hansen_sengupta_vec_returns x0 maxiter tol m Z : returns (hansen_sengupta_vec func J rest_op rest_loop x0 maxiter tol) m Z -> Z = x0 /\ ((maxiter <= 0)%Z \/ num_lt tol (PFlt finf) = false).
Proof. intro H. apply newton_vec_returns in H; [|apply hs_fails]. destruct H as [E [H|H]]; (split; [exact E|]); [left; now apply Z.ltb_ge|now right]. Qed.

Lemma keeps_mid_arr x : keeps_mode (mid_arr x).
Proof.
  unfold mid_arr. apply keeps_bind; [apply keeps_vectorize_num; intro; apply keeps_mid|]. intro v. apply keeps_bind; [|intro; apply keeps_ret].
  unfold amapM. apply keeps_bind; [apply keeps_mapM; intro; apply keeps_single|intro; apply keeps_ret].
Qed.
(** The usual call: some component of func(x0) contains 0, the Jacobian at x0 is an
    interval matrix, at least one iteration is allowed. *)
Theorem vec_raises x0 maxiter tol m F c L : snd (func x0 m) = m -> snd (J x0 m) = m -> (0 < maxiter)%Z -> num_lt tol (PFlt finf) = true ->
  returns (func x0) m F -> (exists e, In e (adata (adat F)) /\ py_contains e (ONum (PInt 0)) = true) -> returns (mid_arr x0) m c ->
  returns (J x0) m L -> adata (adat L) <> [] -> length (shp L) = 2%nat ->
  raises (krawczyk_vec func J rest_op rest_loop x0 maxiter tol) m AttributeError /\ raises (hansen_sengupta_vec func J rest_op rest_loop x0 maxiter tol) m AttributeError.
Proof.
  intros K1 K2 Hm T HF (e & He & Ce) Hc HL NL SL.
  assert (HC : arr_contains_scalar F (ONum (PInt 0)) = Ok true).
  { destruct (arr_contains_scalar_spec F (ONum (PInt 0))) as [_ S]. destruct S as (b & Eb & Sb); [intro Z; now rewrite Z in He|]. rewrite Eb. f_equal. apply Sb. now exists e. }
  assert (KM := keeps_mid_arr x0 m). assert (TF := to_float_raises L m NL).
  unfold krawczyk_vec, hansen_sengupta_vec, newton_vec, kraw_vec, hs_vec. replace (0 <=? maxiter)%Z with true by (symmetry; apply Z.leb_le; lia). replace (0 <? maxiter)%Z with true by (symmetry; apply Z.ltb_lt; lia).
  unfold returns, raises, outcome, mbind in *. rewrite T. cbn [andb].
  destruct (func x0 m) as [rF mF]. cbn [fst snd] in *. subst rF mF. unfold mlift. rewrite HC. destruct (mid_arr x0 m) as [rc mc]. cbn [fst snd] in *. subst rc mc.
  destruct (J x0 m) as [rL mL]. cbn [fst snd] in *. subst rL mL. rewrite SL. cbn [Nat.eqb]. destruct (arr_to_float L m) as [rT mT]. cbn [fst snd] in *. subst rT. split; reflexivity.
Qed.
End V.
