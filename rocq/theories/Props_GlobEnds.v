(** C79: globopt reaches its tolerance.  [bpow radix2 d] is 2^d; see SpecGlob.v. *)
From Coq Require Import ZArith Reals List Bool Arith.
From Flocq Require Import Core IEEE754.BinarySingleNaN.
From Verif Require Import Base PyNum Kernel Spec Solvers SpecSolvers SpecGlob GlobProofs GlobEnds GlobCase.
Import ListNotations.
Open Scope R_scope.

(** The starting box is finite and its endpoints are below 2^(d+45); the interval
    function returns an interval on every part of the box, and on parts narrower
    than 2^d in every component the width of that interval is below the tolerance.
    If K halvings (up to rounding, 9/16) bring every component below 2^(d-1),
    then 2^(K n) iterations are enough: globopt returns a box whose value
    interval is narrower than the tolerance. *)
Theorem C79_settles : forall (func : list itv -> M itv) (f : list R -> R) x0 m tol d K,
  encloses_box x0 func f -> (-1067 <= d <= 970)%Z ->
  part_of x0 x0 -> float_first x0 -> Forall (ends_within (bpow radix2 (d + 45))) x0 ->
  Forall (fun e => width e * (9 / 16) ^ K < bpow radix2 (d - 1)) x0 ->
  (forall Y, part_of x0 Y -> exists F, returns (func Y) m F /\ small_itv F) ->
  (forall Y F w, part_of x0 Y -> Forall (fun e => width e < bpow radix2 d) Y -> returns (func Y) m F -> returns (wid F) m w -> num_le tol w = false) ->
  forall maxiter, (2 ^ Z.of_nat (K * length x0) <= maxiter + 2)%Z ->
  exists Y V w, returns (globopt func x0 tol maxiter) m (Y, V) /\ small_itv V /\ returns (wid V) m w /\ num_le tol w = false.
Proof. exact globopt_settles. Qed.
Print Assumptions C79_settles.
(** Then every point of the returned box is a minimiser up to the tolerance, the
    value interval contains the values on that box, and its lower end is a lower
    bound of the function on the whole starting box. *)
Theorem C79_optimal : forall (func : list itv -> M itv) (f : list R -> R) x0 m tol d K,
  encloses_box x0 func f -> (-1067 <= d <= 970)%Z ->
  part_of x0 x0 -> float_first x0 -> Forall (ends_within (bpow radix2 (d + 45))) x0 ->
  Forall (fun e => width e * (9 / 16) ^ K < bpow radix2 (d - 1)) x0 ->
  (forall Y, part_of x0 Y -> exists F, returns (func Y) m F /\ small_itv F) ->
  (forall Y F w, part_of x0 Y -> Forall (fun e => width e < bpow radix2 d) Y -> returns (func Y) m F -> returns (wid F) m w -> num_le tol w = false) ->
  forall t maxiter, tol = PFlt t -> is_finite t = true -> (2 ^ Z.of_nat (K * length x0) <= maxiter + 2)%Z ->
  exists Y V, returns (globopt func x0 tol maxiter) m (Y, V) /\ (exists xs, in_box Y xs) /\ (forall xs, in_box Y xs -> in_box x0 xs) /\
  (forall xs, in_box Y xs -> member V (f xs)) /\ (forall ys, in_box x0 ys -> num_le_R (lo V) (f ys)) /\
  forall xs ys, in_box Y xs -> in_box x0 ys -> f xs < f ys + B2R t.
Proof. exact globopt_optimal. Qed.
Print Assumptions C79_optimal.
(** x - y on [1, 2] x [1, 2], tolerance 1/2, d = -3, K = 5. *)
Example C79_case : encloses_box [y12; y12] dif difR /\
  (part_of [y12; y12] [y12; y12] /\ float_first [y12; y12] /\ Forall (ends_within (bpow radix2 (-3 + 45))) [y12; y12] /\ Forall (fun e => width e * (9 / 16) ^ 5 < bpow radix2 (-3 - 1)) [y12; y12]) /\
  (forall m Y, part_of [y12; y12] Y -> exists F, returns (dif Y) m F /\ small_itv F) /\
  (forall m Y F w, part_of [y12; y12] Y -> Forall (fun e => width e < bpow radix2 (-3)) Y -> returns (dif Y) m F -> returns (wid F) m w -> num_le (PFlt fhalf) w = false) /\
  is_finite fhalf = true /\ B2R fhalf = / 2.
Proof. split; [exact dif_encloses|]. split; [exact dif_start|]. split; [exact dif_runs|]. split; [exact dif_small | exact half_val]. Qed.
