(** Model of kernel/real_intervals.py:24-25 (iteration), 148-149 (reversed),
    168-208 (comparisons), 210-211 (len), 358-359 (other ufuncs) and of the
    builtin [sum] on interval vectors. *)
From Coq Require Import ZArith List Bool Arith.
From Verif Require Import Base PyNum Kernel Expr Arrays.
Import ListNotations.

(** The six comparison operators and their scalar versions (pyx:207-253). *)
Inductive comparison_op : Set := CLt | CLe | CEq | CNe | CGt | CGe.
Definition py_cmp (c : comparison_op) (s : itv) (o : operand) : bool :=
  match c with
  | CLt => py_lt s o | CLe => py_le s o | CEq => py_eq s o
  | CNe => py_ne s o | CGt => py_gt s o | CGe => py_ge s o
  end.
(** real_intervals.py:174-208 with an ArrayInterval (given by its data), a numpy
    array or a number: numpy compares the object arrays element by element.
    ([__it__], 168-172, is a misspelt [__lt__] that nothing calls; the right
    one follows at 198-202.) *)
Definition arr_cmp (c : comparison_op) (x : aitv) (other : arr operand) : M (arr bool) :=
  binop_arr (fun e o => mret (py_cmp c e o)) (adat x) other.
(** The same with a scalar interval: numpy hands the comparison to the
    interval's [__array_ufunc__] (pyx:387-388), which knows none.  (numpy before
    1.25 replaces a failing [==] or [!=] by a deprecation warning; that is not
    modelled.) *)
Definition arr_cmp_itv (c : comparison_op) (x : aitv) (s : itv) : M (arr bool) := mraise NotImplementedError.
(** A numpy array or numpy scalar on the left: [ArrayInterval.__array_ufunc__]
    (real_intervals.py:358-359). *)
Definition np_cmp_right (c : comparison_op) (other : arr operand) (x : aitv) : M (arr bool) := mraise GenericException.

(** real_intervals.py:210-211: TypeError for a 0-dimensional array. *)
Definition arr_len (x : aitv) : res nat :=
  match ashape (adat x) with [] => Err TypeError | n :: _ => Ok n end.
(** real_intervals.py:24-25: iteration over the first dimension; a piece is an
    interval (here a 0-dimensional array) for a vector and a numpy array (not an
    ArrayInterval) otherwise. *)
Definition arr_iter (x : aitv) : res (list (arr itv)) :=
  match ashape (adat x) with
  | [] => Err TypeError
  | n :: t => Ok (map (fun i => mkarr t (firstn (size t) (skipn (i * size t) (adata (adat x))))) (seq 0 n))
  end.
(** real_intervals.py:148-149: there is no attribute [storage]. *)
Definition arr_reversed (x : aitv) : res (list (arr itv)) := Err AttributeError.
(** [sum(x)] for a vector: the int 0, then one element after the other.
    (real_intervals.py:24-26 and 246-252 carry it out) *)
Fixpoint sum_from (acc : operand) (l : list itv) : M operand :=
  match l with [] => mret acc | e :: l' => s <- oadd acc (OItv e) ;; sum_from s l' end.
Definition arr_sum (x : aitv) : M operand :=
  match ashape (adat x) with
  | [_] => sum_from (ONum (PInt 0)) (adata (adat x))
  | _ => mraise TypeError
  end.
(** [sum(x)] for an array of two or more dimensions: the int 0, then one piece after the
    other, which numpy adds element by element; the result is a numpy array.
    (real_intervals.py:24-26 and 246-252 carry it out) *)
Fixpoint add_each (acc : list operand) (l : list itv) : M (list operand) :=
  match acc, l with
  | a :: acc', e :: l' => s <- oadd a (OItv e) ;; r <- add_each acc' l' ;; mret (s :: r)
  | _, _ => mret []
  end.
Fixpoint sum_pieces (acc : list operand) (ps : list (arr itv)) : M (list operand) :=
  match ps with [] => mret acc | p :: ps' => s <- add_each acc (adata p) ;; sum_pieces s ps' end.
Inductive sumres : Type := SumNum (c : operand) | SumArr (a : arr operand).
Definition arr_sum_nd (x : aitv) : M sumres :=
  match ashape (adat x) with
  | [] => mraise TypeError
  | [_] => s <- arr_sum x ;; mret (SumNum s)
  | n :: t => if (n =? 0)%nat then mret (SumNum (ONum (PInt 0)))
              else ps <- mlift (arr_iter x) ;; r <- sum_pieces (repeat (ONum (PInt 0)) (size t)) ps ;; mret (SumArr (mkarr t r))
  end.
