(** Arithmetic expressions over interval variables, as a Python program would
    write them, evaluated with the kernel's operators; and their real meaning. *)
From Coq Require Import ZArith Reals List Bool.
From Flocq Require Import Core IEEE754.BinarySingleNaN.
From Verif Require Import Base PyNum Kernel Spec.

Inductive binop : Set := OpAdd | OpSub | OpMul | OpDiv.

(** [EBinR o e c] is [e o c] and [EBinL o c e] is [c o e] with a Python number
    [c]. *)
Inductive expr : Type :=
| EVar (n : nat)
| EBin (o : binop) (a b : expr)
| EBinR (o : binop) (a : expr) (c : pynum)
| EBinL (o : binop) (c : pynum) (b : expr)
| ENeg (a : expr)
| EAbs (a : expr)
| EPro (a : expr).

(** Operator dispatch, pyx:392-526 (see py_add ... in Kernel.v). *)
Definition py_op (o : binop) : operand -> operand -> M itv :=
  match o with OpAdd => py_add | OpSub => py_sub | OpMul => py_mul | OpDiv => py_div end.

(** The numpy ufunc behind each operator. *)
Definition np_op (o : binop) : ufunc :=
  match o with OpAdd => U_add | OpSub => U_subtract | OpMul => U_multiply | OpDiv => U_divide end.
(** [X * X.inv] *)
Definition mul_inv (X : itv) : M itv := Y <- inv X ;; py_mul (OItv X) (OItv Y).

(** Python evaluation: operands left to right, exceptions propagate. *)
Fixpoint eval (env : nat -> itv) (e : expr) : M itv :=
  match e with
  | EVar n => mret (env n)
  | EBin o a b => x <- eval env a ;; y <- eval env b ;; py_op o (OItv x) (OItv y)
  | EBinR o a c => x <- eval env a ;; py_op o (OItv x) (ONum c)
  | EBinL o c b => y <- eval env b ;; py_op o (ONum c) (OItv y)
  | ENeg a => x <- eval env a ;; mret (neg x)
  | EAbs a => x <- eval env a ;; abs_itv x
  | EPro a => x <- eval env a ;; mret (pro x)
  end.

(** *** The meaning over the reals (specification) *)
Open Scope R_scope.
Definition real_op (o : binop) (x y : R) : option R :=
  match o with
  | OpAdd => Some (x + y) | OpSub => Some (x - y) | OpMul => Some (x * y)
  | OpDiv => if Req_EM_T y 0 then None else Some (x / y)
  end.
(** The real operation. *)
Definition opR (o : binop) : R -> R -> R :=
  match o with OpAdd => Rplus | OpSub => Rminus | OpMul => Rmult | OpDiv => Rdiv end.
Definition obind {A B} (a : option A) (k : A -> option B) : option B :=
  match a with Some x => k x | None => None end.
Fixpoint real_eval (rho : nat -> R) (e : expr) : option R :=
  match e with
  | EVar n => Some (rho n)
  | EBin o a b => obind (real_eval rho a) (fun x => obind (real_eval rho b) (fun y => real_op o x y))
  | EBinR o a c => obind (real_eval rho a) (fun x => real_op o x (num_val c))
  | EBinL o c b => obind (real_eval rho b) (fun y => real_op o (num_val c) y)
  | ENeg a => obind (real_eval rho a) (fun x => Some (- x))
  | EAbs a => obind (real_eval rho a) (fun x => Some (Rabs x))
  | EPro a => real_eval rho a
  end.

(** The constants of the expression are finite doubles or ints up to 2^26, and
    an interval is divided only by numbers whose reciprocal is a double. *)
Fixpoint good_consts (e : expr) : Prop :=
  match e with
  | EVar _ => True
  | EBin _ a b => good_consts a /\ good_consts b
  | EBinR o a c => (o = OpDiv -> exact_reciprocal c) /\ small_num c /\ finite_num c /\ good_consts a
  | EBinL _ c b => small_num c /\ finite_num c /\ good_consts b
  | ENeg a | EAbs a | EPro a => good_consts a
  end.
