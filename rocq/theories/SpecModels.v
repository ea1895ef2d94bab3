(** Vocabulary for the regression models: slacks of single observations, exact
    ranges, additive models. *)
From Coq Require Import Reals List Arith.
From Verif Require Import Exact Recog SpecExact Models.
Import ListNotations.
Open Scope R_scope.

(** How far the ends of [b i] can be moved inwards so that every value of row [i]
    (every member of the data), or some value, stays in [b i]. *)
Definition tol_slack_of (n : nat) (A : imat) (b : ivec) (x : vec) (i : nat) (s : R) : Prop :=
  forall t, t <= s <-> tolerable 1 n (fun _ => A i) (shrink t (fun _ => b i)) x.
Definition uni_slack_of (n : nat) (A : imat) (b : ivec) (x : vec) (i : nat) (s : R) : Prop :=
  forall t, t <= s <-> united 1 n (fun _ => A i) (shrink t (fun _ => b i)) x.
(** [v] is the least of the first [m] entries. *)
Definition least (m : nat) (f : nat -> R) (v : R) : Prop := (forall i, (i < m)%nat -> v <= f i) /\ exists i, (i < m)%nat /\ f i = v.

(** [Z] is the exact range of [f] over [X]: it contains all values and its ends
    are values. *)
Definition exact_range (f : R -> R) (X Z : rit) : Prop :=
  (forall x, inI X x -> inI Z (f x)) /\ (exists x, inI X x /\ f x = rl Z) /\ (exists x, inI X x /\ f x = rh Z).
(** [roots] lists every point where the derivative of [f] vanishes, unless [f]
    is constant. *)
Definition lists_roots (f : R -> R) (roots : list R) : Prop :=
  (forall x, derivable_pt_lim f x 0 -> In x roots) \/ (forall x y, f x = f y).
(** Boxes and points with as many components as there are columns. *)
Definition in_box (Xs : list rit) (xs : list R) : Prop := Forall2 inI Xs xs.
Definition exact_range_box (f : list R -> R) (Xs : list rit) (Z : rit) : Prop :=
  (forall xs, in_box Xs xs -> inI Z (f xs)) /\ (exists xs, in_box Xs xs /\ f xs = rl Z) /\ (exists xs, in_box Xs xs /\ f xs = rh Z).

(** A polynomial of one column: c1 phi_1 + c2 phi_2 + ... *)
Fixpoint combination (phi : nat -> R -> R) (d : nat) (coefs : list R) (x : R) : R :=
  match coefs with [] => 0 | c :: cs => c * phi d x + combination phi (S d) cs x end.
(** The additive model: one polynomial per column, whose coefficients follow
    each other in [beta]. *)
Fixpoint additive (phi : nat -> R -> R) (beta : list R) (orders : list nat) (xs : list R) : R :=
  match orders, xs with
  | o :: orders', x :: xs' => combination phi 1 (firstn o beta) x + additive phi (skipn o beta) orders' xs'
  | _, _ => 0
  end.

(** What fit maximizes: the objective minus the penalty of the constraint. *)
Definition fit_value (o : objective) (nm : norm) (constraint : option (R * list (vec * R))) (k n : nat) (A : imat) (b : ivec) (w x : vec) : R :=
  - fst (wils_calcfg o nm k n A b w x) - match constraint with None => 0 | Some (mu, rows) => fst (linear_penalty n mu rows x) end.
(** The root finder is right for the polynomials of the given orders, and for the
    basis polynomials of lower degree. *)
Definition roots_ok (bk : basis_kind) (orders : list nat) (roots : list R -> list nat -> list R) : Prop :=
  forall o beta, In o orders -> lists_roots (poly bk beta (seq 1 o)) (roots beta (seq 1 o)).
Definition basis_roots_ok (bk : basis_kind) (orders : list nat) (roots : list R -> list nat -> list R) : Prop :=
  forall o d, In o orders -> (1 <= d <= o)%nat -> lists_roots (basis bk d) (roots [1] [d]).
(** The model stays in [y] for all, or for some, members of the row. *)
Definition fits_all (bk : basis_kind) (beta : list R) (cols : list (nat * rit)) (y : rit) : Prop :=
  forall xs, in_box (map snd cols) xs -> inI y (additive (basis bk) beta (map fst cols) xs).
Definition fits_some (bk : basis_kind) (beta : list R) (cols : list (nat * rit)) (y : rit) : Prop :=
  exists xs, in_box (map snd cols) xs /\ inI y (additive (basis bk) beta (map fst cols) xs).
(** Proper data, right roots. *)
Definition data_ok (bk : basis_kind) (roots : list R -> list nat -> list R) (k : nat) (rows : nat -> list (nat * rit)) : Prop :=
  forall i, (i < S k)%nat -> Forall (fun c => proper (snd c)) (rows i) /\ roots_ok bk (map fst (rows i)) roots.
(** The range of the basis polynomial of degree one over [X]: of x for monomials,
    Chebyshev and Legendre polynomials, 2x for Hermite, 1 - x for Laguerre. *)
Definition first_range (bk : basis_kind) (X : rit) : rit :=
  match bk with Monom | Chebyshev | Legendre => X | Hermite => mkr (2 * rl X) (2 * rh X) | Laguerre => mkr (1 - rh X) (1 - rl X) end.
(** [N] columns of order one, proper data. *)
Definition first_order (k N : nat) (rows : nat -> list (nat * rit)) : Prop :=
  forall i, (i < S k)%nat -> length (rows i) = N /\ Forall (fun c => fst c = 1%nat /\ proper (snd c)) (rows i).
Definition column_matrix (bk : basis_kind) (rows : nat -> list (nat * rit)) : imat := fun i j => first_range bk (snd (nth j (rows i) (1%nat, r_point 0))).
