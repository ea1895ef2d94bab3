(** Vocabulary for the statements about powers with exponents that are not
    natural numbers.  Nothing here refers to how the code computes. *)
From Coq Require Import ZArith Reals.
From Verif Require Import PyNum.
Open Scope R_scope.

(** [y] is [x] to the power [e]: e^(e ln x) for a positive [x], and 0 for
    [x = 0] and a positive exponent.  (0^0, powers of 0 with negative exponents
    and powers of negative numbers are left undefined.) *)
Definition real_power (x e y : R) : Prop :=
  (0 < x /\ y = Rpower x e) \/ (x = 0 /\ 0 < e /\ y = 0).

(** An exponent that is not a Python int >= 0: a float of any value, or a
    negative int. *)
Definition not_natural (e : pynum) : Prop :=
  match e with PInt n => (n < 0)%Z | PFlt _ => True end.
