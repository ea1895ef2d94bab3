(** Solvers running on interval arithmetic: C38-C41.  Vectors and matrices are
    functions of the index, of which the first n values are used. *)
From Coq Require Import ZArith Reals List Bool Arith Lia Lra.
From Flocq Require Import Core IEEE754.BinarySingleNaN.
From Verif Require Import Base PyNum Kernel Spec Expr SpecArray Construct Solvers SpecSolvers SolversProofs GSProofs SolversRefute NewtonProofs NewtonVerify GSEmpty IterProofs NewtonRaise GlobProofs.
Import ListNotations.
Open Scope R_scope.

(** ** C38 Gauss *)
(** All solutions, up to two unknowns. *)
Theorem C38_gauss_encloses_small : forall n A b m Z, (0 < n <= 2)%nat ->
  (forall i l, (i < n)%nat -> (l < n)%nat -> good (A i l)) -> (forall i, (i < n)%nat -> good (b i)) -> returns (gauss n A b) m Z ->
  forall Mr v x, (forall i l, (i < n)%nat -> (l < n)%nat -> member (A i l) (Mr i l)) -> (forall i, (i < n)%nat -> member (b i) (v i)) ->
    (forall i, (i < n)%nat -> Rsum n (fun l => Mr i l * x l) = v i) ->
    forall i, (i < n)%nat -> member_or_nan (Z i) (x i).
Proof. exact gauss_sound_small. Qed.
Print Assumptions C38_gauss_encloses_small.

(** Any number of unknowns: systems whose real matrix is zero below the diagonal
    except in the last two columns. *)
Theorem C38_gauss_encloses_nearly_triangular : forall n A b m Z, (0 < n)%nat ->
  (forall i l, (i < n)%nat -> (l < n)%nat -> good (A i l)) -> (forall i, (i < n)%nat -> good (b i)) -> returns (gauss n A b) m Z ->
  forall Mr v x, (forall i l, (i < n)%nat -> (l < n)%nat -> member (A i l) (Mr i l)) -> (forall i, (i < n)%nat -> member (b i) (v i)) ->
    (forall i l, (i < n)%nat -> (l < i)%nat -> (S (S l) < n)%nat -> Mr i l = 0) ->
    (forall i, (i < n)%nat -> Rsum n (fun l => Mr i l * x l) = v i) ->
    forall i, (i < n)%nat -> member_or_nan (Z i) (x i).
Proof. exact gauss_sound. Qed.
Print Assumptions C38_gauss_encloses_nearly_triangular.

(** With three unknowns a solution can be lost. *)
Theorem C38_gauss_encloses_refuted : exists A b m Z (Mr : nat -> nat -> R) v x,
  (forall i l, (i < 3)%nat -> (l < 3)%nat -> good (A i l)) /\ (forall i, (i < 3)%nat -> good (b i)) /\ returns (gauss 3 A b) m Z /\
  (forall i l, (i < 3)%nat -> (l < 3)%nat -> member (A i l) (Mr i l)) /\ (forall i, (i < 3)%nat -> member (b i) (v i)) /\
  (forall i, (i < 3)%nat -> Rsum 3 (fun l => Mr i l * x l) = v i) /\ ~ member_or_nan (Z 0%nat) (x 0%nat).
Proof. exact gauss_3_x. Qed.
Print Assumptions C38_gauss_encloses_refuted.

Example C38_case : (forall i l, (i < 2)%nat -> (l < 2)%nat -> good (e2A i l)) /\ (forall i, (i < 2)%nat -> good (e2b i)) /\
  exists Z, returns (gauss 2 e2A e2b) mode_NE Z /\ ~ nan_itv (Z 0%nat).
Proof. exact (conj (proj1 e2_good) (conj (proj1 (proj2 e2_good)) (proj1 e2_runs))). Qed.

(** ** C39 Gauss_Seidel *)
(** For every distance function and every preconditioner C. *)
Theorem C39_gauss_seidel_keeps_solutions : forall dist n A b x0 C hm tol maxiter m Z, (0 < n)%nat ->
  (forall i l, (i < n)%nat -> (l < n)%nat -> good (A i l)) -> (forall i, (i < n)%nat -> good (b i)) ->
  (forall i, (i < n)%nat -> good (x0 i)) -> (forall i l, (i < n)%nat -> (l < n)%nat -> num_ok (C i l)) ->
  is_nan_num tol = false -> (0 <= maxiter)%Z ->
  returns (gauss_seidel dist n A b (Some x0) C hm tol maxiter) m Z ->
  forall Mr v x, (forall i l, (i < n)%nat -> (l < n)%nat -> member (A i l) (Mr i l)) -> (forall i, (i < n)%nat -> member (b i) (v i)) ->
    (forall i, (i < n)%nat -> Rsum n (fun l => Mr i l * x l) = v i) -> (forall i, (i < n)%nat -> member (x0 i) (x i)) ->
    forall i, (i < n)%nat -> member (Z i) (x i) /\ forall r, member (Z i) r -> member (x0 i) r.
Proof. exact gauss_seidel_keeps. Qed.
Print Assumptions C39_gauss_seidel_keeps_solutions.

(** The default starting box loses solutions outside it. *)
Theorem C39_default_box_refuted : exists n A b C tol maxiter m Z (Mr : nat -> nat -> R) v x i, (0 < n)%nat /\
  (forall i l, (i < n)%nat -> (l < n)%nat -> good (A i l)) /\ (forall i, (i < n)%nat -> good (b i)) /\
  (forall i l, (i < n)%nat -> (l < n)%nat -> num_ok (C i l)) /\ is_nan_num tol = false /\ (0 <= maxiter)%Z /\
  returns (gauss_seidel dist0 n A b None C true tol maxiter) m Z /\
  (forall i l, (i < n)%nat -> (l < n)%nat -> member (A i l) (Mr i l)) /\ (forall i, (i < n)%nat -> member (b i) (v i)) /\
  (forall i, (i < n)%nat -> Rsum n (fun l => Mr i l * x l) = v i) /\ (i < n)%nat /\ ~ member_or_nan (Z i) (x i).
Proof. exact gs_default_x. Qed.
Print Assumptions C39_default_box_refuted.

(** A negative iteration limit returns the zero vector. *)
Theorem C39_negative_maxiter_refuted : exists n A b x0 C tol maxiter m Z (Mr : nat -> nat -> R) v x i, (0 < n)%nat /\
  (forall i l, (i < n)%nat -> (l < n)%nat -> good (A i l)) /\ (forall i, (i < n)%nat -> good (b i)) /\ (forall i, (i < n)%nat -> good (x0 i)) /\
  (forall i l, (i < n)%nat -> (l < n)%nat -> num_ok (C i l)) /\ is_nan_num tol = false /\
  returns (gauss_seidel dist0 n A b (Some x0) C true tol maxiter) m Z /\
  (forall i l, (i < n)%nat -> (l < n)%nat -> member (A i l) (Mr i l)) /\ (forall i, (i < n)%nat -> member (b i) (v i)) /\
  (forall i, (i < n)%nat -> Rsum n (fun l => Mr i l * x l) = v i) /\ (forall i, (i < n)%nat -> member (x0 i) (x i)) /\ (i < n)%nat /\ ~ member_or_nan (Z i) (x i).
Proof. exact gs_maxiter_x. Qed.
Print Assumptions C39_negative_maxiter_refuted.

Example C39_case : (forall i l, (i < 2)%nat -> (l < 2)%nat -> good (e2A i l)) /\ (forall i, (i < 2)%nat -> good (e2b i)) /\
  (forall i, (i < 2)%nat -> good (e2x i)) /\ (forall i l, (i < 2)%nat -> (l < 2)%nat -> num_ok (e2C i l)) /\
  exists Z, returns (gauss_seidel dist0 2 e2A e2b (Some e2x) e2C true (PInt 1) 3) mode_NE Z.
Proof. destruct e2_good as (H1 & H2 & H3 & H4). exact (conj H1 (conj H2 (conj H3 (conj H4 (proj2 e2_runs))))). Qed.

(** The exception raised when a component becomes empty proves that the box holds no solution. *)
Theorem C39_exception_excludes : forall dist n A b x0 C hm tol maxiter m, (0 < n)%nat -> (Z.of_nat n <= 2 ^ 20)%Z ->
  (forall i l, (i < n)%nat -> (l < n)%nat -> sized 200 (A i l)) -> (forall i, (i < n)%nat -> sized 200 (b i)) ->
  (forall i, (i < n)%nat -> sized 200 (x0 i)) -> (forall i l, (i < n)%nat -> (l < n)%nat -> num_ok (C i l) /\ Rabs (num_val (C i l)) <= bpow radix2 200) ->
  raises (gauss_seidel dist n A b (Some x0) C hm tol maxiter) m GenericException ->
  forall Mr v x, (forall i l, (i < n)%nat -> (l < n)%nat -> member (A i l) (Mr i l)) -> (forall i, (i < n)%nat -> member (b i) (v i)) ->
    (forall i, (i < n)%nat -> Rsum n (fun l => Mr i l * x l) = v i) -> ~ (forall i, (i < n)%nat -> member (x0 i) (x i)).
Proof. exact gauss_seidel_excludes. Qed.
Print Assumptions C39_exception_excludes.

Example C39_exception_case : (forall i l, (i < 2)%nat -> (l < 2)%nat -> sized 200 (e2A i l)) /\ (forall i, (i < 2)%nat -> sized 200 (e2b i)) /\
  (forall i, (i < 2)%nat -> sized 200 (e2far i)) /\ (forall i l, (i < 2)%nat -> (l < 2)%nat -> num_ok (e2C i l) /\ Rabs (num_val (e2C i l)) <= bpow radix2 200) /\
  raises (gauss_seidel dist0 2 e2A e2b (Some e2far) e2C true (PInt 1) 3) mode_NE GenericException.
Proof. destruct e2_sized as (a & b & c & d). exact (conj a (conj b (conj c (conj d e2_far_raises)))). Qed.

(** ** C40 Krawczyk and HansenSengupta, one unknown *)
Theorem C40_krawczyk_keeps_zeros : forall func J distance x0 f f' maxiter tol m Z, modest x0 -> encloses_on x0 func f -> encloses_on x0 J f' ->
  (forall r, member x0 r -> derivable_pt_lim f r (f' r)) ->
  (forall X L la, part x0 X -> returns (J X) m L -> returns (slope_recip L) m la -> finite_num la) ->
  returns (krawczyk func J distance x0 maxiter tol) m Z -> isnan_itv Z = false ->
  forall z, member x0 z -> f z = 0 -> member Z z /\ forall r, member Z r -> member x0 r.
Proof. exact krawczyk_keeps. Qed.
Print Assumptions C40_krawczyk_keeps_zeros.

Theorem C40_hansen_sengupta_keeps_zeros : forall func J distance x0 f f' maxiter tol m Z, modest x0 -> encloses_on x0 func f -> encloses_on x0 J f' ->
  (forall r, member x0 r -> derivable_pt_lim f r (f' r)) ->
  (forall X L la, part x0 X -> returns (J X) m L -> returns (slope_recip L) m la -> finite_num la) ->
  returns (hansen_sengupta func J distance x0 maxiter tol) m Z -> isnan_itv Z = false ->
  forall z, member x0 z -> f z = 0 -> member Z z /\ forall r, member Z r -> member x0 r.
Proof. exact hansen_sengupta_keeps. Qed.
Print Assumptions C40_hansen_sengupta_keeps_zeros.

Example C40_case : modest x12 /\ encloses_on x12 sq2 (fun x => x * x - 2) /\ encloses_on x12 j24 (fun x => 2 * x) /\
  (forall r, member x12 r -> derivable_pt_lim (fun x => x * x - 2) r (2 * r)) /\
  (forall X L la, part x12 X -> returns (j24 X) mode_NE L -> returns (slope_recip L) mode_NE la -> finite_num la) /\
  (exists Z, returns (krawczyk sq2 j24 sdist x12 3 (PFlt f0)) mode_NE Z /\ isnan_itv Z = false) /\
  exists Z, returns (hansen_sengupta sq2 j24 sdist x12 3 (PFlt f0)) mode_NE Z /\ isnan_itv Z = false.
Proof.
  split; [exact x12_modest|]. split; [exact sq2_encloses|]. split; [exact j24_encloses|]. split; [intros; apply sq2_derivable|].
  split; [exact j24_slope | exact sq2_runs].
Qed.

(** A NaN result proves that x0 has no zero, if the ranges are finite and the scaled slope does not overflow. *)
Theorem C40_krawczyk_nan_excludes : forall func J distance x0 f f' maxiter tol m Z, modest x0 -> encloses_on x0 func f -> encloses_on x0 J f' ->
  (forall r, member x0 r -> derivable_pt_lim f r (f' r)) ->
  (forall X F, part x0 X -> returns (func X) m F -> finite_itv F) ->
  (forall X L, part x0 X -> returns (J X) m L -> finite_itv L) ->
  (forall X L la, part x0 X -> returns (J X) m L -> returns (slope_recip L) m la ->
    finite_num la /\ forall l, member L l -> Rabs (num_val la * l) <= bpow radix2 1000) ->
  returns (krawczyk func J distance x0 maxiter tol) m Z -> isnan_itv Z = true ->
  forall z, member x0 z -> f z <> 0.
Proof. exact krawczyk_excludes. Qed.
Print Assumptions C40_krawczyk_nan_excludes.

Theorem C40_hansen_sengupta_nan_excludes : forall func J distance x0 f f' maxiter tol m Z, modest x0 -> encloses_on x0 func f -> encloses_on x0 J f' ->
  (forall r, member x0 r -> derivable_pt_lim f r (f' r)) ->
  (forall X F, part x0 X -> returns (func X) m F -> finite_itv F) ->
  (forall X L, part x0 X -> returns (J X) m L -> finite_itv L) ->
  (forall X L la, part x0 X -> returns (J X) m L -> returns (slope_recip L) m la ->
    finite_num la /\ forall l, member L l -> Rabs (num_val la * l) <= bpow radix2 1000) ->
  returns (hansen_sengupta func J distance x0 maxiter tol) m Z -> isnan_itv Z = true ->
  forall z, member x0 z -> f z <> 0.
Proof. exact hansen_sengupta_excludes. Qed.
Print Assumptions C40_hansen_sengupta_nan_excludes.

Example C40_nan_case : modest xm16 /\ encloses_on xm16 shifted (fun x => x + 20) /\ encloses_on xm16 unit_slope (fun _ => 1) /\
  (forall r, member xm16 r -> derivable_pt_lim (fun x => x + 20) r 1) /\
  (forall X F, part xm16 X -> returns (shifted X) mode_NE F -> finite_itv F) /\
  (forall X L, part xm16 X -> returns (unit_slope X) mode_NE L -> finite_itv L) /\
  (forall X L la, part xm16 X -> returns (unit_slope X) mode_NE L -> returns (slope_recip L) mode_NE la ->
    finite_num la /\ forall l, member L l -> Rabs (num_val la * l) <= bpow radix2 1000) /\
  (exists Z, returns (krawczyk shifted unit_slope d16 xm16 5 (PInt 0)) mode_NE Z /\ isnan_itv Z = true) /\
  exists Z, returns (hansen_sengupta shifted unit_slope d16 xm16 5 (PInt 0)) mode_NE Z /\ isnan_itv Z = true.
Proof.
  split; [exact xm16_modest|]. split; [exact shifted_encloses|]. split; [exact unit_encloses|]. split; [exact shifted_derivable|].
  split; [intros X F P; exact (shifted_finite X F mode_NE P)|]. split; [intros X L _; exact (unit_finite X L mode_NE)|].
  split; [intros X L la _; exact (unit_scaled X L la) | exact shifted_runs].
Qed.

(** An exception of its own from Krawczyk also proves that x0 has no zero. *)
Theorem C40_krawczyk_exception_excludes : forall func J distance x0 f maxiter tol m, good x0 -> encloses_on x0 func f ->
  (forall X m', ~ raises (func X) m' GenericException) -> (forall X m', ~ raises (J X) m' GenericException) ->
  (forall F, returns (func x0) m F -> isnan_itv F = false) ->
  raises (krawczyk func J distance x0 maxiter tol) m GenericException -> forall z, member x0 z -> f z <> 0.
Proof. exact krawczyk_exception_excludes. Qed.
Print Assumptions C40_krawczyk_exception_excludes.

(** For HansenSengupta it does if no scaled slope contains 0. *)
Theorem C40_hansen_sengupta_exception_excludes : forall func J distance x0 f f' maxiter tol m, modest x0 -> encloses_on x0 func f -> encloses_on x0 J f' ->
  (forall r, member x0 r -> derivable_pt_lim f r (f' r)) ->
  (forall X L la, part x0 X -> returns (J X) m L -> returns (slope_recip L) m la -> finite_num la) ->
  (forall X m', ~ raises (func X) m' GenericException) -> (forall X m', ~ raises (J X) m' GenericException) ->
  (forall F, returns (func x0) m F -> isnan_itv F = false) ->
  (forall X L la A, part x0 X -> returns (J X) m L -> returns (slope_recip L) m la -> returns (py_mul (ONum la) (OItv L)) m A -> py_contains A (ONum (PInt 0)) = false) ->
  raises (hansen_sengupta func J distance x0 maxiter tol) m GenericException -> forall z, member x0 z -> f z <> 0.
Proof. exact hansen_sengupta_exception_excludes. Qed.
Print Assumptions C40_hansen_sengupta_exception_excludes.

Example C40_exception_case : modest xm16 /\ encloses_on xm16 plus20 (fun x => x + 20) /\ encloses_on xm16 unit_slope (fun _ => 1) /\
  (forall r, member xm16 r -> derivable_pt_lim (fun x => x + 20) r 1) /\
  (forall X m', ~ raises (plus20 X) m' GenericException) /\ (forall X m', ~ raises (unit_slope X) m' GenericException) /\
  (forall F, returns (plus20 xm16) mode_NE F -> isnan_itv F = false) /\
  (forall X L la A, part xm16 X -> returns (unit_slope X) mode_NE L -> returns (slope_recip L) mode_NE la -> returns (py_mul (ONum la) (OItv L)) mode_NE A ->
    finite_num la /\ py_contains A (ONum (PInt 0)) = false) /\
  raises (krawczyk plus20 unit_slope d16 xm16 5 (PInt 0)) mode_NE GenericException /\
  raises (hansen_sengupta plus20 unit_slope d16 xm16 5 (PInt 0)) mode_NE GenericException.
Proof.
  split; [exact xm16_modest|]. split; [exact plus20_encloses|]. split; [exact unit_encloses|]. split; [exact shifted_derivable|].
  split; [exact plus20_quiet|]. split; [exact unit_quiet|]. split; [exact plus20_nnan|].
  split; [intros X L la A _ a b c; split; [exact (proj1 (unit_scaled X L la a b)) | exact (unit_no_zero X L la A a b c)] | exact plus20_raises].
Qed.

(** ** C83 one step of Krawczyk or HansenSengupta as an existence proof *)
Theorem C83_krawczyk_proves_existence : forall func J distance x0 f f' tol m Z, modest x0 -> encloses_on x0 func f -> encloses_on x0 J f' ->
  (forall r, member x0 r -> derivable_pt_lim f r (f' r)) ->
  (forall X L la, part x0 X -> returns (J X) m L -> returns (slope_recip L) m la -> finite_num la) ->
  returns (krawczyk func J distance x0 0 tol) m Z -> num_lt (lo x0) (lo Z) = true -> num_lt (hi Z) (hi x0) = true ->
  exists z, member Z z /\ f z = 0 /\ forall z', member x0 z' -> f z' = 0 -> z' = z.
Proof. exact krawczyk_proves. Qed.
Print Assumptions C83_krawczyk_proves_existence.

Theorem C83_hansen_sengupta_proves_existence : forall func J distance x0 f f' tol m Z, modest x0 -> encloses_on x0 func f -> encloses_on x0 J f' ->
  (forall r, member x0 r -> derivable_pt_lim f r (f' r)) ->
  (forall X L la, part x0 X -> returns (J X) m L -> returns (slope_recip L) m la -> finite_num la) ->
  returns (hansen_sengupta func J distance x0 1 tol) m Z -> num_lt (lo x0) (lo Z) = true -> num_lt (hi Z) (hi x0) = true ->
  exists z, member Z z /\ f z = 0 /\ forall z', member x0 z' -> f z' = 0 -> z' = z.
Proof. exact hansen_sengupta_proves. Qed.
Print Assumptions C83_hansen_sengupta_proves_existence.

Example C83_case : modest x12 /\ encloses_on x12 sq2 (fun x => x * x - 2) /\ encloses_on x12 j24 (fun x => 2 * x) /\
  (forall r, member x12 r -> derivable_pt_lim (fun x => x * x - 2) r (2 * r)) /\
  (forall X L la, part x12 X -> returns (j24 X) mode_NE L -> returns (slope_recip L) mode_NE la -> finite_num la) /\
  (exists Z, returns (krawczyk sq2 j24 sdist x12 0 (PFlt f0)) mode_NE Z /\ num_lt (lo x12) (lo Z) = true /\ num_lt (hi Z) (hi x12) = true) /\
  exists Z, returns (hansen_sengupta sq2 j24 sdist x12 1 (PFlt f0)) mode_NE Z /\ num_lt (lo x12) (lo Z) = true /\ num_lt (hi Z) (hi x12) = true.
Proof.
  split; [exact x12_modest|]. split; [exact sq2_encloses|]. split; [exact j24_encloses|]. split; [intros; apply sq2_derivable|].
  split; [exact j24_slope | exact sq2_one].
Qed.

(** After more than one step the same test proves nothing. *)
Theorem C83_more_iterations_refuted : exists func J distance x0 f f' tol m Z, modest x0 /\ encloses_on x0 func f /\ encloses_on x0 J f' /\
  (forall r, member x0 r -> derivable_pt_lim f r (f' r)) /\
  (forall X L la, part x0 X -> returns (J X) m L -> returns (slope_recip L) m la -> finite_num la) /\
  returns (krawczyk func J distance x0 1 tol) m Z /\ num_lt (lo x0) (lo Z) = true /\ num_lt (hi Z) (hi x0) = true /\
  forall z, f z <> 0.
Proof. exact two_steps_x. Qed.
Print Assumptions C83_more_iterations_refuted.

(** ** C84 longer runs never give wider results *)
Theorem C84_krawczyk_shrinks : forall func J distance x0 f f' maxiter maxiter' tol tol' m Z Z' z, modest x0 -> encloses_on x0 func f -> encloses_on x0 J f' ->
  (forall r, member x0 r -> derivable_pt_lim f r (f' r)) ->
  (forall X L la, part x0 X -> returns (J X) m L -> returns (slope_recip L) m la -> finite_num la) ->
  member x0 z -> f z = 0 -> (maxiter <= maxiter')%Z -> num_le tol' tol = true ->
  returns (krawczyk func J distance x0 maxiter tol) m Z -> returns (krawczyk func J distance x0 maxiter' tol') m Z' -> isnan_itv Z' = false ->
  isnan_itv Z = false /\ forall r, member Z' r -> member Z r.
Proof. exact krawczyk_shrinks. Qed.
Print Assumptions C84_krawczyk_shrinks.

Theorem C84_hansen_sengupta_shrinks : forall func J distance x0 f f' maxiter maxiter' tol tol' m Z Z' z, modest x0 -> encloses_on x0 func f -> encloses_on x0 J f' ->
  (forall r, member x0 r -> derivable_pt_lim f r (f' r)) ->
  (forall X L la, part x0 X -> returns (J X) m L -> returns (slope_recip L) m la -> finite_num la) ->
  member x0 z -> f z = 0 -> (maxiter <= maxiter')%Z -> num_le tol' tol = true ->
  returns (hansen_sengupta func J distance x0 maxiter tol) m Z -> returns (hansen_sengupta func J distance x0 maxiter' tol') m Z' -> isnan_itv Z' = false ->
  isnan_itv Z = false /\ forall r, member Z' r -> member Z r.
Proof. exact hansen_sengupta_shrinks. Qed.
Print Assumptions C84_hansen_sengupta_shrinks.

Theorem C84_gauss_seidel_shrinks : forall dist n A b x0 C hm tol tol' maxiter maxiter' m Z Z', (0 < n)%nat ->
  (forall i l, (i < n)%nat -> (l < n)%nat -> good (A i l)) -> (forall i, (i < n)%nat -> good (b i)) ->
  (forall i, (i < n)%nat -> good (x0 i)) -> (forall i l, (i < n)%nat -> (l < n)%nat -> num_ok (C i l)) ->
  num_le tol' tol = true -> (0 <= maxiter <= maxiter')%Z ->
  returns (gauss_seidel dist n A b (Some x0) C hm tol maxiter) m Z -> returns (gauss_seidel dist n A b (Some x0) C hm tol' maxiter') m Z' ->
  (exists (Mr : nat -> nat -> R) v x, (forall i l, (i < n)%nat -> (l < n)%nat -> member (A i l) (Mr i l)) /\ (forall i, (i < n)%nat -> member (b i) (v i)) /\
    (forall i, (i < n)%nat -> Rsum n (fun l => Mr i l * x l) = v i) /\ (forall i, (i < n)%nat -> member (x0 i) (x i))) ->
  forall i, (i < n)%nat -> forall r, member (Z' i) r -> member (Z i) r.
Proof. exact gauss_seidel_shrinks. Qed.
Print Assumptions C84_gauss_seidel_shrinks.

Example C84_case : (member x12 (sqrt 2) /\ sqrt 2 * sqrt 2 - 2 = 0) /\ num_le (PFlt f0) (PInt 1) = true /\ num_le (PInt 0) (PInt 1) = true /\
  ((exists Z Z', returns (krawczyk sq2 j24 sdist x12 0 (PInt 1)) mode_NE Z /\ returns (krawczyk sq2 j24 sdist x12 2 (PFlt f0)) mode_NE Z' /\ isnan_itv Z' = false) /\
   exists Z Z', returns (hansen_sengupta sq2 j24 sdist x12 1 (PInt 1)) mode_NE Z /\ returns (hansen_sengupta sq2 j24 sdist x12 3 (PFlt f0)) mode_NE Z' /\ isnan_itv Z' = false) /\
  (exists Z, returns (gauss_seidel dist0 2 e2A e2b (Some e2x) e2C true (PInt 1) 1) mode_NE Z) /\
  (exists Z, returns (gauss_seidel dist0 2 e2A e2b (Some e2x) e2C true (PInt 0) 3) mode_NE Z) /\
  exists (Mr : nat -> nat -> R) v x, (forall i l, (i < 2)%nat -> (l < 2)%nat -> member (e2A i l) (Mr i l)) /\ (forall i, (i < 2)%nat -> member (e2b i) (v i)) /\
    (forall i, (i < 2)%nat -> Rsum 2 (fun l => Mr i l * x l) = v i) /\ (forall i, (i < 2)%nat -> member (e2x i) (x i)).
Proof. exact (conj sq2_zero (conj eq_refl (conj eq_refl (conj sq2_two_runs e2_two_runs)))). Qed.

(** Without a zero in x0 a longer run may even leave x0. *)
Theorem C84_needs_zero_refuted : exists func J distance x0 f f' tol m Z r, modest x0 /\ encloses_on x0 func f /\ encloses_on x0 J f' /\
  (forall r, member x0 r -> derivable_pt_lim f r (f' r)) /\
  (forall X L la, part x0 X -> returns (J X) m L -> returns (slope_recip L) m la -> finite_num la) /\
  returns (hansen_sengupta func J distance x0 0 tol) m x0 /\ returns (hansen_sengupta func J distance x0 1 tol) m Z /\ isnan_itv Z = false /\
  member Z r /\ ~ member x0 r.
Proof. exact shrinks_needs_zero. Qed.
Print Assumptions C84_needs_zero_refuted.

(** ** C41 globopt *)
Theorem C41_globopt_bounds : forall (func : list itv -> M itv) (f : list R -> R) x0 m, Forall modest x0 -> encloses_box x0 func f ->
  forall tol maxiter Y V, returns (globopt func x0 tol maxiter) m (Y, V) ->
  returns (func Y) m V /\ (exists xs, in_box Y xs) /\ (forall xs, in_box Y xs -> in_box x0 xs) /\
  (forall xs, in_box x0 xs -> num_le_R (lo V) (f xs)) /\
  (forall xs, in_box x0 xs -> (forall ys, in_box x0 ys -> f xs <= f ys) -> member V (f xs)).
Proof. exact globopt_bounds. Qed.
Print Assumptions C41_globopt_bounds.
(** A result narrower than the tolerance is final: a larger limit changes nothing. *)
Theorem C41_stops_below_tolerance : forall (func : list itv -> M itv) (f : list R -> R) x0 m, encloses_box x0 func f ->
  forall tol maxiter maxiter' Y V w, (maxiter <= maxiter')%Z -> returns (globopt func x0 tol maxiter) m (Y, V) -> returns (wid V) m w -> num_le tol w = false ->
  returns (globopt func x0 tol maxiter') m (Y, V).
Proof. exact globopt_stops. Qed.
Print Assumptions C41_stops_below_tolerance.
Theorem C41_negative_limit : forall (func : list itv -> M itv) (f : list R -> R) x0 m, encloses_box x0 func f ->
  forall tol maxiter Y V, (maxiter < 0)%Z -> returns (globopt func x0 tol maxiter) m (Y, V) -> Y = x0.
Proof. exact globopt_no_budget. Qed.
Print Assumptions C41_negative_limit.
(** maxiter = 0 does bisect. *)
Theorem C41_at_most_maxiter_bisections_refuted : exists Y V, returns (globopt par [x12; x12] (PFlt f0) 0) mode_NE (Y, V) /\ Y <> [x12; x12].
Proof. exact par_off_by_one. Qed.
Print Assumptions C41_at_most_maxiter_bisections_refuted.
Example C41_case : Forall modest [x12; x12] /\ encloses_box [x12; x12] par parR /\
  (exists Y V, returns (globopt par [x12; x12] (PFlt f0) 3) mode_NE (Y, V)) /\
  exists Y V w, returns (globopt par [x12; x12] (PInt 10) 3) mode_NE (Y, V) /\ returns (wid V) mode_NE w /\ num_le (PInt 10) w = false.
Proof. split; [repeat (apply Forall_cons; [exact x12_modest|]); constructor|]. split; [exact par_encloses | exact par_runs]. Qed.

