(** Two branches that complete the models of Estim.v and Pps.v: HBR with a matrix on
    the right-hand side, and PPS for all components of the result. *)
From Coq Require Import Reals ZArith List Bool Arith.
From Verif Require Import Exact Pss Estim Pps.
Import ListNotations.
Open Scope R_scope.

(** HBR.py:26-51 and 56-59 for a right-hand side with n = S k rows and [p] columns.
    [C] and [B] as in [hbr].  Line 58: [d @ v] is one number, the sum of the
    diagonal; line 59: the divisor is one interval, the sum of the corrected
    diagonal entries.  The result is the list of the rows. *)
Definition hbr_mat (k p : nat) (A0 b0 : imat) (C B : mat) : option (list (list rit)) :=
  let n := S k in
  let A := rimm n C A0 in let b := rimm n C b0 in
  let cm := r_compmat A in
  let v := vabs (mv n B (fun _ => 1)) in
  let u := mv n cm v in
  if existsb (fun i => if Rlt_dec 0 (u i) then true else false) (seq 0 n) then
    let E := fun i j => mm n cm B i j - eye i j in
    let w := fun j => vmax k (fun i => - E i j / (u i * 1)) in
    let vw := vsum n (fun i => v i * w i) in
    let B2 := fun i j => B i j + vw in
    let mb := fun i c => r_mag (b i c) in
    let u2 := mm n B2 mb in
    let alpha := fun i => cm i i + (-1) / B2 i i in
    let beta := fun i c => u2 i c / vsum n (fun l => B2 l l * 1) - mb i c in
    let den := isum n (fun l => r_scale 1 (r_add (A l l) (sym (alpha l)))) in
    all_some (map (fun i => all_some (map (fun c => r_div (r_add (b i c) (sym (beta i c))) den) (seq 0 p))) (seq 0 n))
  else None.

(** PPS.py:356-395 with [nu = None]: the lower ends of all components first, then,
    with the negated right-hand side, the upper ends (lines 379-386); line 395 pairs
    them.  [Interval(inf, sup, sortQ=False)] *)
Fixpoint pps_each (f : nat -> pres R) (l : list nat) : pres (list R) :=
  match l with
  | [] => POk []
  | nu :: l' => pbind (f nu) (fun x => pbind (pps_each f l') (fun xs => POk (x :: xs)))
  end.
Definition pps_all (hbr : imat -> ivec -> option ivec) (inverse : imat -> option imat) (solve : mat -> vec -> option vec) (det : mat -> R)
  (hang n : nat) (A : imat) (b : ivec) (tol : R) (maxiter : Z) : pres (list rit) :=
  if Req_EM_T (det (mids A)) 0 then PRaise
  else
    pbind (por (inverse A)) (fun inv_A =>
    pbind (pps_each (fun nu => pps_algo hbr inverse solve n nu tol hang A b inv_A maxiter) (seq 0 n)) (fun lo =>
    pbind (pps_each (fun nu => pbind (pps_algo hbr inverse solve n nu tol hang A (fun i => r_neg (b i)) inv_A maxiter) (fun x => POk (- x))) (seq 0 n)) (fun hi =>
    POk (map (fun ab => mkr (fst ab) (snd ab)) (combine lo hi))))).
