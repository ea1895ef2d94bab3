(** Vocabulary for WILS.fit in binary64. *)
From Coq Require Import ZArith Reals List.
From Flocq Require Import Core IEEE754.BinarySingleNaN.
From Verif Require Models.
From Verif Require Import Base PyNum Expr Arrays RecogFl SpecRecogFl UssFl SpecUssFl RecogOpt SpecRecogOpt SpecRecogOptCon.
Import ListNotations.
Open Scope R_scope.

(** All doubles of the list are finite and lie between [a] and [b]. *)
Definition between (a b : R) (l : list flt) : Prop := Forall (fun w => is_finite w = true /\ a <= B2R w <= b) l.
(** [a] and [b] are the same number (the sign of zero does not matter). *)
Definition same_value (a b : flt) : Prop := flt_leb a b = true /\ flt_leb b a = true.
(** The value [t] less the penalty for leaving the constraint, if there is one. *)
Definition less_penalty (cdot : list flt -> list flt -> flt) (csum : list flt -> flt)
  (constraint : option (flt * list (list flt * flt))) (x : list flt) (t v : flt) : Prop :=
  match constraint with None => same_value v t | Some (mu, rows) => v = penalised cdot csum mu rows x t end.
(** The penalty coefficient, if any, is not negative. *)
Definition penalises (constraint : option (flt * list (list flt * flt))) : Prop :=
  match constraint with None => True | Some (mu, _) => flt_leb f0 mu = true end.
(** The coefficient is finite and the point satisfies the constraint, if any. *)
Definition satisfied (cdot : list flt -> list flt -> flt) (constraint : option (flt * list (list flt * flt))) (x : list flt) : Prop :=
  match constraint with None => True | Some (mu, rows) => is_finite mu = true /\ holds cdot rows x end.
(** [T] holds the doubles of [l]. *)
Definition doubles (T : arr pynum) (l : list flt) : Prop := adata T = map PFlt l.
(** The coefficients [x] explain the observations [y] of the data [X], with the
    ends of observation [i] moved outwards by [d i]: with Tol the model sends
    every matrix of the data, else some matrix, into them. *)
Definition explains (o : Models.objective) (n : nat) (X y : aitv) (d : nat -> R) (x : list flt) : Prop :=
  match o with
  | Models.OTol => forall Q, in_matrix X Q -> in_rhs_by y d (row_value n Q (point x))
  | _ => exists Q, in_matrix X Q /\ in_rhs_by y d (row_value n Q (point x))
  end.
(** The weighted slacks of the observations at the point [x] (C92, C93). *)
Definition slacks (fdot : list (flt * flt) -> flt) (o : Models.objective) (X y : aitv) (w x : list flt) : M (arr pynum) :=
  match o with
  | Models.OTol => tol_calc fdot X y (point x) (point w)
  | Models.OUni => uni_calc fdot X y (point x) (point w)
  | Models.OUss => uss_calc fdot X y (point x) (point w)
  end.
(** What the norm makes of them: the least one, or their sum by [np.sum]. *)
Definition norm_of (csum : list flt -> flt) (nm : Models.norm) (T : arr pynum) (t : flt) : Prop :=
  match nm with Models.NInf => least T t | Models.NL1 => exists l, doubles T l /\ t = csum l end.
(** [b] is [z] up to a relative error of 2^-49. *)
Definition nearly (z : R) (b : flt) : Prop := is_finite b = true /\ Rabs (B2R b - z) <= bpow radix2 (-49) * z.
(** [w] is [weight] after exponential smoothing: the first entry is
    beta (1 - alpha) times the old one, every other one is beta times the mean,
    with weights 1 - alpha and alpha, of the old one and the new one before it. *)
Definition smoothed (alpha beta : R) (weight w : list flt) : Prop :=
  length w = length weight /\
  (forall a b, nth_error weight 0 = Some a -> nth_error w 0 = Some b -> nearly (beta * B2R a * (1 - alpha)) b) /\
  forall k a p b, nth_error weight (S k) = Some a -> nth_error w k = Some p -> nth_error w (S k) = Some b ->
    nearly (beta * (B2R a * (1 - alpha) + alpha * B2R p)) b.
