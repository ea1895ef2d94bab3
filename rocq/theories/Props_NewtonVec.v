(** Krawczyk and HansenSengupta for several unknowns (C40). *)
From Coq Require Import ZArith List Bool Lia.
From Flocq Require Import IEEE754.BinarySingleNaN.
From Verif Require Import Base PyNum Kernel Spec Expr Arrays Construct NewtonVec NewtonVecProofs.
Import ListNotations.

(** Whatever the function, the Jacobian, the limits and the start: a call that returns
    returns the start unchanged, without a single iteration. *)
Theorem C40_several_unknowns_krawczyk : forall func J rest_op rest_loop x0 maxiter tol m Z,
  returns (krawczyk_vec func J rest_op rest_loop x0 maxiter tol) m Z -> Z = x0 /\ ((maxiter < 0)%Z \/ num_lt tol (PFlt finf) = false).
Proof. exact krawczyk_vec_returns. Qed.
Print Assumptions C40_several_unknowns_krawczyk.
Theorem C40_several_unknowns_hansen_sengupta : forall func J rest_op rest_loop x0 maxiter tol m Z,
  returns (hansen_sengupta_vec func J rest_op rest_loop x0 maxiter tol) m Z -> Z = x0 /\ ((maxiter <= 0)%Z \/ num_lt tol (PFlt finf) = false).
Proof. exact hansen_sengupta_vec_returns. Qed.
Print Assumptions C40_several_unknowns_hansen_sengupta.

(** The usual call raises AttributeError. *)
Theorem C40_several_unknowns_raise : forall func J rest_op rest_loop x0 maxiter tol m F c L,
  snd (func x0 m) = m -> snd (J x0 m) = m -> (0 < maxiter)%Z -> num_lt tol (PFlt finf) = true ->
  returns (func x0) m F -> (exists e, In e (adata (adat F)) /\ py_contains e (ONum (PInt 0)) = true) -> returns (mid_arr x0) m c ->
  returns (J x0) m L -> adata (adat L) <> [] -> length (shp L) = 2 ->
  raises (krawczyk_vec func J rest_op rest_loop x0 maxiter tol) m AttributeError /\ raises (hansen_sengupta_vec func J rest_op rest_loop x0 maxiter tol) m AttributeError.
Proof. exact vec_raises. Qed.
Print Assumptions C40_several_unknowns_raise.

(** The function x, with the identity as its Jacobian, on [-1, 1] x [-1, 3]. *)
Definition nv_x0 : aitv := array_interval (mkarr [2] [mkitv Classical (PInt (-1)) (PInt 1); mkitv Classical (PInt (-1)) (PInt 3)]).
Definition nv_J : aitv := array_interval (mkarr [2; 2] [mkitv Classical (PInt 1) (PInt 1); mkitv Classical (PInt 0) (PInt 0); mkitv Classical (PInt 0) (PInt 0); mkitv Classical (PInt 1) (PInt 1)]).
Example C40_several_case : let func := (fun x : aitv => mret x : M aitv) in let J := (fun _ : aitv => mret nv_J : M aitv) in exists F c L,
  snd (func nv_x0 mode_NE) = mode_NE /\ snd (J nv_x0 mode_NE) = mode_NE /\ (0 < 2000)%Z /\ num_lt (PFlt f0) (PFlt finf) = true /\
  returns (func nv_x0) mode_NE F /\ (exists e, In e (adata (adat F)) /\ py_contains e (ONum (PInt 0)) = true) /\ returns (mid_arr nv_x0) mode_NE c /\
  returns (J nv_x0) mode_NE L /\ adata (adat L) <> [] /\ length (shp L) = 2.
Proof.
  cbv zeta.
  assert (H : exists c, returns (mid_arr nv_x0) mode_NE c).
  { unfold returns, outcome. destruct (fst (mid_arr nv_x0 mode_NE)) as [c|e] eqn:E; [now exists c|]. exfalso.
    assert (T : match fst (mid_arr nv_x0 mode_NE) with Ok _ => true | Err _ => false end = true) by (vm_compute; reflexivity). now rewrite E in T. }
  destruct H as [c H]. exists nv_x0, c, nv_J. split; [reflexivity|]. split; [reflexivity|]. split; [lia|]. split; [vm_compute; reflexivity|]. split; [reflexivity|].
  split; [exists (mkitv Classical (PInt (-1)) (PInt 1)); split; [left; reflexivity|vm_compute; reflexivity]|].
  split; [exact H|]. split; [reflexivity|]. split; [discriminate|reflexivity].
Qed.
