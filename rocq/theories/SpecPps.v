(** Words used in the statements about PPS. *)
From Coq Require Import Reals Arith.
From Verif Require Import Exact SpecExact SpecEstim.
Open Scope R_scope.

(** [Q] is a proper interval matrix (vector) inside [A]. *)
Definition inside_mat (n : nat) (Q A : imat) : Prop := forall i j, (i < n)%nat -> (j < n)%nat -> rl (A i j) <= rl (Q i j) <= rh (Q i j) /\ rh (Q i j) <= rh (A i j).
Definition inside_vec (n : nat) (r b : ivec) : Prop := forall i, (i < n)%nat -> rl (b i) <= rl (r i) <= rh (r i) /\ rh (r i) <= rh (b i).
(** What the estimator returns for a system inside [A x = b] encloses the united
    solution set of that system. *)
Definition estimates_enclose (estimator : imat -> ivec -> option ivec) (n : nat) (A : imat) (b : ivec) : Prop :=
  forall Q r v x, inside_mat n Q A -> inside_vec n r b -> estimator Q r = Some v -> united n n Q r x -> in_ivec n v x.
(** What the interval inverse returns for a matrix inside [A] encloses the inverses
    of its members. *)
Definition inverses_enclose (inverse : imat -> option imat) (n : nat) (A : imat) : Prop :=
  forall Q Y M Z, inside_mat n Q A -> inverse Q = Some Y -> in_imat n n Q M -> inverse_of n M Z -> in_imat n n Y Z.
(** The solver of real systems returns a solution. *)
Definition solutions_exact (solve : mat -> vec -> option vec) (n : nat) : Prop :=
  forall M v x, solve M v = Some x -> solves n n M v x.
(** The component [nu] is smallest over the united solution set at [x], for some
    members of [A] and [b], and there neither [x] nor the row [nu] of the inverse
    has a zero component. *)
Definition generic_minimum (n : nat) (A : imat) (b : ivec) (nu : nat) (x : vec) : Prop :=
  (forall x', united n n A b x' -> x nu <= x' nu) /\
  exists M v Z, in_imat n n A M /\ in_ivec n b v /\ solves n n M v x /\ inverse_of n M Z /\
    (forall i, (i < n)%nat -> Z nu i <> 0) /\ (forall j, (j < n)%nat -> x j <> 0).
Definition negated (b : ivec) : ivec := fun i => mkr (- rh (b i)) (- rl (b i)).
(** For a matrix of numbers the estimator is exact: every lower end is a component
    of a solution. *)
Definition exact_on_numbers (estimator : imat -> ivec -> option ivec) (n : nat) (A : imat) (b : ivec) : Prop :=
  forall Q r v j, inside_mat n Q A -> inside_vec n r b -> (forall i k, (i < n)%nat -> (k < n)%nat -> rl (Q i k) = rh (Q i k)) ->
    estimator Q r = Some v -> (j < n)%nat -> exists x, united n n Q r x /\ x j = rl (v j).
(** Every call made for a system inside [A x = b] returns a value. *)
Definition calls_return (estimator : imat -> ivec -> option ivec) (inverse : imat -> option imat) (solve : mat -> vec -> option vec) (n : nat) (A : imat) (b : ivec) : Prop :=
  forall Q r, inside_mat n Q A -> inside_vec n r b ->
    (exists v, estimator Q r = Some v) /\ (exists Y, inverse Q = Some Y) /\ (exists x, solve (mids Q) (fun i => r_mid (r i)) = Some x).
(** What the inversion of real matrices returns is an inverse. *)
Definition inverses_exact (inv : mat -> option mat) (n : nat) : Prop := forall M Z, inv M = Some Z -> inverse_of n M Z.
