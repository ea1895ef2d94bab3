(** Shared vocabulary of the model: exceptions as values and the
    rounding-mode state monad.  Nothing here models a single function of
    /repo; it models the Python/C machine the code runs on. *)
From Coq Require Import ZArith List Bool.
From Flocq Require Import IEEE754.BinarySingleNaN.
Import ListNotations.

(** Python exceptions that the modelled code can raise (builtin classes, or
    the bare [Exception] used at many places of /repo). *)
Inductive exn : Set :=
| ZeroDivisionError | ValueError | TypeError | OverflowError | AssertionError
| IndexError | NotImplementedError | AttributeError | UnboundLocalError | NameError
| LinAlgError | GenericException.

(** Outcome of a Python call: a value or a raised exception. *)
Inductive res (A : Type) : Type :=
| Ok (a : A)
| Err (e : exn).
Arguments Ok {A} a.
Arguments Err {A} e.

Definition rbind {A B} (r : res A) (k : A -> res B) : res B :=
  match r with Ok a => k a | Err e => Err e end.

Definition rmap {A B} (f : A -> B) (r : res A) : res B :=
  match r with Ok a => Ok (f a) | Err e => Err e end.

(** The C floating-point environment: the rounding mode ([fegetround]). *)
Definition rmode := mode.

(** A computation that may raise and may read/change the rounding mode. *)
Definition M (A : Type) : Type := rmode -> res A * rmode.

Definition mret {A} (a : A) : M A := fun m => (Ok a, m).
Definition mraise {A} (e : exn) : M A := fun m => (Err e, m).
Definition mbind {A B} (c : M A) (k : A -> M B) : M B :=
  fun m => match c m with
           | (Ok a, m1) => k a m1
           | (Err e, m1) => (Err e, m1)
           end.
(** Run a mode-dependent but mode-preserving primitive in the current mode. *)
Definition mprim {A} (f : rmode -> res A) : M A := fun m => (f m, m).
Definition mlift {A} (r : res A) : M A := fun m => (r, m).

(** fenv primitives, kernel/interval_arithmetics.pyx:30-36. *)
Definition fegetround : M rmode := fun m => (Ok m, m).
Definition fesetround (new : rmode) : M unit := fun _ => (Ok tt, new).

(** [try: body finally: fin]; [fin] runs whether or not [body] raised. *)
Definition mfinally {A} (body : M A) (fin : M unit) : M A :=
  fun m => let (r, m1) := body m in let (_, m2) := fin m1 in (r, m2).

Declare Scope pym_scope.
Delimit Scope pym_scope with pym.
Notation "x <- c ;; k" := (mbind c (fun x => k))
  (at level 61, c at next level, right associativity) : pym_scope.
Notation "c ;;; k" := (mbind c (fun _ => k))
  (at level 61, right associativity) : pym_scope.
Open Scope pym_scope.

Declare Scope res_scope.
Delimit Scope res_scope with res.
Notation "x <~ c ;; k" := (rbind c (fun x => k))
  (at level 61, c at next level, right associativity) : res_scope.
Open Scope res_scope.

(** kernel/interval_arithmetics.pyx:38-50, class RoundingContext used in a
    [with] statement: [__enter__] saves [fegetround()] and sets the new mode,
    [__exit__] restores the saved mode; [with] calls [__exit__] on exceptions
    too. *)
Definition with_rounding {A} (new_mode : rmode) (body : M A) : M A :=
  old_mode <- fegetround ;;
  fesetround new_mode ;;;
  mfinally body (fesetround old_mode).

(** The two modes the kernel uses. *)
Definition FE_DOWNWARD : rmode := mode_DN.
Definition FE_UPWARD : rmode := mode_UP.
