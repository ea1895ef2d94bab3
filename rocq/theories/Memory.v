(** Model of what kernel/real_intervals.py does to memory: which calls make new
    objects and buffers, which return the object they were given, and which
    write into an existing buffer.  Intervals themselves have no operation that
    changes them (interval_arithmetics.pyx:62-95: private fields, read-only
    properties), so they are values here. *)
From Coq Require Import ZArith List Bool Arith.
From Verif Require Import Base PyNum Kernel Expr Arrays Construct Slices.
Import ListNotations.

(** What a Python variable holds: an ArrayInterval object, an interval, or a
    numpy array that is a view of a buffer (element [idx] of the view is element
    [src idx] of the buffer). (real_intervals.py:14-53) *)
Inductive val : Type := Obj (o : nat) | Elt (e : itv) | View (b : nat) (sh : list nat) (src : list nat -> list nat).
(** Buffers; objects, each with the buffer in its [_data] and its [_shape];
    variables. (real_intervals.py:14-18) *)
Record mem : Type := mkmem { bufs : list (arr itv); objs : list (nat * list nat); vars : nat -> option val }.
Definition start : mem := mkmem [] [] (fun _ => None).
Definition bind (m : mem) (v : nat) (x : val) : mem :=
  mkmem (bufs m) (objs m) (fun w => if w =? v then Some x else vars m w).
Definition buffer (m : mem) (b : nat) : arr itv := nth b (bufs m) (mkarr [] []).
Definition object (m : mem) (o : nat) : aitv := mkaitv (buffer m (fst (nth o (objs m) (0, [])))) (snd (nth o (objs m) (0, []))).
Definition view_value (m : mem) (b : nat) (sh : list nat) (src : list nat -> list nat) : arr itv :=
  of_fun sh (fun idx => elem (buffer m b) (src idx)).

(** real_intervals.py:14-19: [ArrayInterval(a)] copies its argument
    ([np.array]); the new object is bound to [v]. *)
Definition alloc (m : mem) (v : nat) (a : arr itv) : mem :=
  bind (mkmem (bufs m ++ [a]) (objs m ++ [(length (bufs m), ashape a)]) (vars m)) v (Obj (length (objs m))).
(** The result of a method: an interval, or a new object.
    (real_intervals.py:213-218 and 281-305) *)
Definition deliver (m : mem) (v : nat) (r : ivres) : mem :=
  match r with RItv e => bind m v (Elt e) | RArr z => alloc m v (adat z) end.
(** Object [o] gets a new array as its [_data], with shape [s] noted.
    (real_intervals.py:231-243) *)
Definition rebind (m : mem) (o : nat) (a : arr itv) (s : list nat) : mem :=
  mkmem (bufs m ++ [a]) (set_nth o (length (bufs m), s) (objs m)) (vars m).
(** The buffer [b] gets new contents. (real_intervals.py:220-229) *)
Definition store (m : mem) (b : nat) (a : arr itv) : mem := mkmem (set_nth b a (bufs m)) (objs m) (vars m).

(** An operand: a variable or a given number, interval or array of numbers.
    (real_intervals.py:246-286) *)
Inductive rhs : Type := RV (w : nat) | RC (c : arr operand).
(** The value assigned to items. (real_intervals.py:220-229) *)
Inductive sval : Type := SV (w : nat) | SC (c : setval).
(** One-argument methods that return a new array (or an interval). (real_intervals.py:83-153) *)
Inductive method : Type := MCopy | MTranspose | MReshape (s : list nat) | MItem (key : list item) | MMask (k : arr bool).
Inductive cmd : Type :=
| New (v : nat) (a : arr itv)                     (* v = Interval(...) from numbers, zeros(...), ... *)
| Assign (v w : nat)                              (* v = w *)
| AsInterval (v w : nat)                          (* v = asinterval(w) *)
| Call (v : nat) (f : method) (w : nat)           (* v = w.copy(), w.T, w.reshape(s), w[key] *)
| Bin (v : nat) (o : binop) (w : nat) (y : rhs)   (* v = w + y *)
| SetItem (w : nat) (key : list item) (y : sval)  (* w[key] = y *)
| InPlace (o : binop) (w : nat) (y : rhs)         (* w += y *)
| DelItem (w : nat) (key : del_key)               (* del w[key] *)
| Data (v w : nat)                                (* v = w.data, v = np.asarray(w) *)
| Piece (v w : nat) (i : nat)                     (* v = the i-th piece of iter(w) *)
| Put (w : nat) (idx : list nat) (e : itv).       (* w[idx] = e for a numpy array w *)

(** real_intervals.py:129-143, 213-218. *)
Definition call (f : method) (x : aitv) : res ivres :=
  match f with
  | MCopy => Ok (RArr (arr_copy x))
  | MTranspose => Ok (RArr (arr_T x))
  | MReshape s => z <~ arr_reshape x s ;; Ok (RArr z)
  | MItem key => getkey x key
  | MMask k => getmask x k
  end.
(** real_intervals.py:246-276; the rounding mode is the one at the call. *)
Definition binary (rm : rmode) (o : binop) (x : aitv) (y : arr operand + itv) : res aitv :=
  match y with
  | inl c => fst (arr_op o x c rm)
  | inr e => fst (arr_op_itv o x e rm)
  end.
(** real_intervals.py:307-321. *)
Definition in_place (rm : rmode) (o : binop) (x : aitv) (y : arr operand + itv) : res aitv :=
  match y with
  | inl c => fst (arr_iop o x c rm)
  | inr e => z <~ fst (arr_op_itv o x e rm) ;; Ok (mkaitv (adat z) (shp x))
  end.
Definition get_obj (m : mem) (w : nat) : res nat :=
  match vars m w with Some (Obj o) => Ok o | Some _ => Err TypeError | None => Err NameError end.
Definition operand_of (m : mem) (y : rhs) : res (arr operand + itv) :=
  match y with
  | RC c => Ok (inl c)
  | RV w => match vars m w with
            | Some (Obj o) => Ok (inl (op_arr (object m o)))
            | Some (Elt e) => Ok (inr e)
            | Some (View b sh src) => Ok (inl (amap OItv (view_value m b sh src)))
            | None => Err NameError
            end
  end.
(** real_intervals.py:220-229: a numpy array of intervals fails in
    [SingleInterval], which asserts that its arguments are numbers. *)
Definition setval_of (m : mem) (y : sval) : res setval :=
  match y with
  | SC c => Ok c
  | SV w => match vars m w with
            | Some (Obj o) => Ok (VArr (adat (object m o)))
            | Some (Elt e) => Ok (VItv e)
            | Some (View b sh src) => Err (if size sh =? 0 then ValueError else AssertionError)
            | None => Err NameError
            end
  end.
(** real_intervals.py:24-25: iteration is numpy's; pieces of arrays with two or
    more dimensions are views of the buffer.  A variable that is not an array
    object or view, and a piece beyond the end, raise here. *)
Definition piece (m : mem) (v b : nat) (sh : list nat) (src : list nat -> list nat) (i : nat) : res mem :=
  match sh with
  | [] => Err TypeError
  | n :: s => if i <? n
              then Ok (bind m v (match s with [] => Elt (elem (buffer m b) (src [i])) | _ => View b s (fun idx => src (i :: idx)) end))
              else Err IndexError
  end.
Definition exec (rm : rmode) (m : mem) (c : cmd) : res mem :=
  match c with
  | New v a => Ok (alloc m v a)
  | Assign v w => match vars m w with Some x => Ok (bind m v x) | None => Err NameError end
  (* preprocessing.py:97-108 *)
  | AsInterval v w => match vars m w with
                      | Some (View b sh src) => Ok (alloc m v (view_value m b sh src))
                      | Some x => Ok (bind m v x)
                      | None => Err NameError
                      end
  | Call v f w => o <~ get_obj m w ;; r <~ call f (object m o) ;; Ok (deliver m v r)
  | Bin v p w y => o <~ get_obj m w ;; c <~ operand_of m y ;; z <~ binary rm p (object m o) c ;; Ok (alloc m v (adat z))
  | SetItem w key y => o <~ get_obj m w ;; c <~ setval_of m y ;; z <~ setkey (object m o) key c ;;
                       Ok (store m (fst (nth o (objs m) (0, []))) (adat z))
  | InPlace p w y => o <~ get_obj m w ;; c <~ operand_of m y ;; z <~ in_place rm p (object m o) c ;; Ok (rebind m o (adat z) (shp z))
  | DelItem w key => o <~ get_obj m w ;; z <~ delitem (object m o) key ;; Ok (rebind m o (adat z) (shp z))
  | Data v w => o <~ get_obj m w ;; let b := fst (nth o (objs m) (0, [])) in Ok (bind m v (View b (ashape (buffer m b)) (fun idx => idx)))
  | Piece v w i => match vars m w with
                   | Some (Obj o) => let b := fst (nth o (objs m) (0, [])) in piece m v b (ashape (buffer m b)) (fun idx => idx) i
                   | Some (View b sh src) => piece m v b sh src i
                   | Some (Elt _) => Err TypeError
                   | None => Err NameError
                   end
  | Put w idx e => match vars m w with
                   | Some (View b sh src) =>
                       match flat sh idx, flat (ashape (buffer m b)) (src idx) with
                       | Some _, Some k => Ok (store m b (mkarr (ashape (buffer m b)) (set_nth k e (adata (buffer m b)))))
                       | _, _ => Err IndexError
                       end
                   | Some _ => Err TypeError
                   | None => Err NameError
                   end
  end.
(** A command that raises leaves everything as it was; the program goes on.
    (real_intervals.py:213-321) *)
Definition step (rm : rmode) (m : mem) (c : cmd) : mem := match exec rm m c with Ok m' => m' | Err _ => m end.
Definition run (rm : rmode) (p : list cmd) : mem := fold_left (step rm) p start.
