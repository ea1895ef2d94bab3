(** Model of kernel/preprocessing.py:48-80 (get_shape). *)
From Coq Require Import List Bool Arith.
From Verif Require Import Base.
Import ListNotations.

(** The arguments, as far as get_shape looks at them: numbers, scalar intervals,
    interval arrays and numpy arrays (by their shapes), lists and tuples.
    (preprocessing.py:49-80) *)
Inductive shaped : Type := SNum | SItv | SIArr (s : list nat) | SNd (s : list nat) | SSeq (l : list shaped).
(** [len(x)]: numbers, intervals and 0-dimensional arrays have none.
    (preprocessing.py:64 and 69-75) *)
Definition py_len (x : shaped) : res nat :=
  match x with
  | SIArr (n :: _) | SNd (n :: _) => Ok n
  | SSeq l => Ok (length l)
  | _ => Err TypeError
  end.
Definition is_seq (x : shaped) : bool := match x with SSeq _ => true | _ => false end.
(** preprocessing.py:70: [all(len(item) == l for item in lst)], preprocessing.py:71-72. *)
Fixpoint all_len (n : nat) (l : list shaped) : res unit :=
  match l with
  | [] => Ok tt
  | x :: l' => k <~ py_len x ;; if k =? n then all_len n l' else Err ValueError
  end.
(** preprocessing.py:63-80 for an interval array of shape [s]: it is no Sequence
    and no ndarray; [lst[0]] is an interval or an array with one dimension
    less. *)
Fixpoint shape_iarr (s acc : list nat) : res (list nat) :=
  match s with
  | [] => Err TypeError
  | n :: t =>
      if n =? 1 then Ok acc
      else if n =? 0 then Err IndexError
      else match t with [] => Err TypeError | _ => shape_iarr t (acc ++ [n]) end
  end.
(** preprocessing.py:63-80. *)
Fixpoint get_shape (x : shaped) (acc : list nat) : res (list nat) :=
  match x with
  | SNum => Ok acc
  | SItv => Err TypeError
  | SIArr s => shape_iarr s acc
  | SNd [] => Err TypeError
  | SNd s => Ok s
  | SSeq l =>
      match l with
      | [] => Err IndexError
      | y :: _ =>
          _ <~ (if is_seq y then n <~ py_len y ;; all_len n l else Ok tt) ;;
          get_shape y (acc ++ [length l])
      end
  end.
