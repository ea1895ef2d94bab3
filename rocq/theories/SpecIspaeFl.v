(** Vocabulary for the values of ISPAE in binary64. *)
From Coq Require Import ZArith Reals List.
From Flocq Require Import Core IEEE754.BinarySingleNaN.
From Verif Require Import Base PyNum Kernel Spec SpecModels.
Import ListNotations.
Open Scope R_scope.

Definition reals (l : list flt) : list R := map (fun f => B2R f) l.
(** b1 x + b2 x^2 + ... *)
Definition polynomial (beta : list flt) (x : R) : R := combination (fun d x => x ^ d) 1 (reals beta) x.
(** The size of the terms of a polynomial with coefficients [c0, c1, ...] at
    points of modulus at most [M], every coefficient counted as at least 2^-1000. *)
Fixpoint bulk (M : R) (c : list R) : R :=
  match c with [] => 0 | a :: c' => Rabs a + bpow radix2 (-1000) + M * bulk M c' end.
(** What rounding can change: 2^-50 of the size for every coefficient. *)
Definition rounding (M : R) (beta : list flt) : R := INR (S (length beta)) * bpow radix2 (-50) * bulk M (0 :: reals beta).
(** Finite coefficients and ends, nothing overflows. *)
Definition tame (M : R) (beta : list flt) (l u : flt) : Prop :=
  Forall (fun f => is_finite f = true) beta /\ is_finite l = true /\ is_finite u = true /\ B2R l <= B2R u /\
  1 <= M /\ Rabs (B2R l) <= M /\ Rabs (B2R u) <= M /\
  bulk M (0 :: reals beta) <= bpow radix2 960 /\ INR (S (length beta)) <= bpow radix2 40.
(** Every critical point of [f] in [l, u] has a listed double of the interval
    beside it at which [f] differs by at most [delta] ([f] not constant). *)
Definition critical_near (f : R -> R) (l u : flt) (delta : R) (roots : list flt) : Prop :=
  (forall x, B2R l <= x <= B2R u -> derivable_pt_lim f x 0 ->
     exists r, In r roots /\ is_finite r = true /\ B2R l <= B2R r <= B2R u /\ Rabs (f (B2R r) - f x) <= delta) \/
  (forall x y, f x = f y).
(** [Z] is the range of [f] over [l, u], up to [e1] from outside and [e2] from
    inside: all values lie in [Z] widened by [e1], the ends of [Z] are within
    [e2] of values. *)
Definition range_within (f : R -> R) (l u : flt) (e1 e2 : R) (Z : itv) : Prop :=
  exists a b, Z = mkitv Classical (PFlt a) (PFlt b) /\ is_finite a = true /\ is_finite b = true /\ B2R a <= B2R b /\
  (forall x, B2R l <= x <= B2R u -> B2R a - e1 <= f x <= B2R b + e1) /\
  (exists x, B2R l <= x <= B2R u /\ Rabs (f x - B2R a) <= e2) /\
  (exists x, B2R l <= x <= B2R u /\ Rabs (f x - B2R b) <= e2).
(** The columns of a row: each as above. *)
Fixpoint tame_row (M delta : R) (roots : list flt -> list flt) (beta : list flt) (cols : list (nat * (flt * flt))) : Prop :=
  match cols with
  | [] => True
  | (o, (l, u)) :: cols' =>
      tame M (firstn o beta) l u /\ critical_near (polynomial (firstn o beta)) l u delta (roots (firstn o beta)) /\
      tame_row M delta roots (skipn o beta) cols'
  end.
(** The sum over the columns of a quantity of their coefficients. *)
Fixpoint over_row (g : list flt -> R) (beta : list flt) (cols : list (nat * (flt * flt))) : R :=
  match cols with [] => 0 | (o, _) :: cols' => g (firstn o beta) + over_row g (skipn o beta) cols' end.
(** A point of the row: one number in every column. *)
Definition in_row (cols : list (nat * (flt * flt))) (xs : list R) : Prop :=
  Forall2 (fun c x => B2R (fst (snd c)) <= x <= B2R (snd (snd c))) cols xs.
(** The additive model: the sum of the polynomials of the columns. *)
Definition model (beta : list flt) (cols : list (nat * (flt * flt))) (xs : list R) : R :=
  additive (fun d x => x ^ d) (reals beta) (map fst cols) xs.
(** [Z] is the range of the additive model over the row, up to [e1] from outside
    and [e2] from inside. *)
Definition row_range_within (beta : list flt) (cols : list (nat * (flt * flt))) (e1 e2 : R) (Z : itv) : Prop :=
  kd Z = Classical /\ finite_itv Z /\
  (forall xs, in_row cols xs -> num_val (lo Z) - e1 <= model beta cols xs <= num_val (hi Z) + e1) /\
  (exists xs, in_row cols xs /\ Rabs (model beta cols xs - num_val (lo Z)) <= e2) /\
  (exists xs, in_row cols xs /\ Rabs (model beta cols xs - num_val (hi Z)) <= e2).
