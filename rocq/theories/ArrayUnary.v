(** Model of the remaining unary properties of interval arrays
    (kernel/real_intervals.py) and of khi (kernel/utils.py). *)
From Coq Require Import ZArith List Bool.
From Verif Require Import Base PyNum Kernel Expr Arrays.
Import ListNotations.
Open Scope nat_scope.

(** real_intervals.py:98-100 *)
Definition arr_khi (x : aitv) : M (arr pynum) := vectorize_num khi (adat x).
(** utils.py:178-191 on an interval or a number *)
Definition u_khi (o : operand) : M pynum :=
  match o with OItv e => khi e | ONum _ => mret (PInt 1) end.
(** utils.py:178-191 on a sequence of intervals and numbers, given as the array numpy
    makes of it: [np.vectorize] converts the results to the dtype of the first one. *)
Definition u_khi_arr (a : arr operand) : M (arr pynum) := vectorize_num u_khi a.
(** real_intervals.py:336-341: [np.matmul(x, y)] with the interval array [x] first:
    [args[2]] is [x] itself. *)
Definition np_matmul_left (x : aitv) (y : arr operand) : M (arr operand) := matmul (op_arr x) (op_arr x).
