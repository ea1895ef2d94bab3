(** Model of kernel/real_intervals.py: [ArrayInterval] on top of numpy object
    arrays.  An n-dimensional array is its shape and its elements in row-major
    order. *)
From Coq Require Import ZArith List Bool Arith.
From Flocq Require Import Core IEEE754.BinarySingleNaN.
From Verif Require Import Base PyNum Kernel Expr.
Import ListNotations.

(** ** numpy arrays *)
(** the [_data] and [_shape] of real_intervals.py:14-18 *)
Record arr (A : Type) : Type := mkarr { ashape : list nat; adata : list A }.
Arguments mkarr {A} _ _.
Arguments ashape {A} _.
Arguments adata {A} _.

Fixpoint size (s : list nat) : nat := match s with [] => 1 | n :: t => n * size t end.

(** Row-major position of a multi-index; [None] when out of bounds.
    (numpy, for real_intervals.py:213-229) *)
Fixpoint flat (s idx : list nat) : option nat :=
  match s, idx with
  | [], [] => Some 0
  | n :: s', i :: idx' =>
      if i <? n then match flat s' idx' with Some k => Some (i * size s' + k) | None => None end else None
  | _, _ => None
  end.
Definition aget {A} (a : arr A) (idx : list nat) : option A :=
  match flat (ashape a) idx with Some k => nth_error (adata a) k | None => None end.

(** [itertools.product] over the ranges: all multi-indices in row-major order
    (real_intervals.py:157, 162). *)
Fixpoint indices (s : list nat) : list (list nat) :=
  match s with
  | [] => [[]]
  | n :: s' => flat_map (fun i => map (cons i) (indices s')) (seq 0 n)
  end.
(** The array of shape [s] whose element at [idx] is [f idx].
    (numpy, for real_intervals.py:14-18) *)
Definition of_fun {A} (s : list nat) (f : list nat -> A) : arr A := mkarr s (map f (indices s)).
Definition amap {A B} (f : A -> B) (a : arr A) : arr B := mkarr (ashape a) (map f (adata a)).
Definition scalar {A} (x : A) : arr A := mkarr [] [x].

(** Evaluate [f] on the elements of a list from left to right.
    (the order of np.vectorize, real_intervals.py:28-101) *)
Fixpoint mapM {A B} (f : A -> M B) (l : list A) : M (list B) :=
  match l with
  | [] => mret []
  | x :: l' => y <- f x ;; ys <- mapM f l' ;; mret (y :: ys)
  end.
Definition amapM {A B} (f : A -> M B) (a : arr A) : M (arr B) :=
  l <- mapM f (adata a) ;; mret (mkarr (ashape a) l).

(** numpy broadcasting: shapes aligned at the right, a dimension of size 1
    stretches. (numpy, for real_intervals.py:246-286) *)
Fixpoint bcast_rev (s t : list nat) : option (list nat) :=
  match s, t with
  | [], _ => Some t
  | _, [] => Some s
  | a :: s', b :: t' =>
      match bcast_rev s' t' with
      | None => None
      | Some r => if a =? b then Some (a :: r) else if a =? 1 then Some (b :: r)
                  else if b =? 1 then Some (a :: r) else None
      end
  end.
Definition bcast (s t : list nat) : option (list nat) :=
  match bcast_rev (rev s) (rev t) with Some r => Some (rev r) | None => None end.
(** Index into an array of shape [s] that corresponds to [idx] of the broadcast
    result. (numpy, for real_intervals.py:246-286) *)
Fixpoint bidx_rev (s idx : list nat) : list nat :=
  match s, idx with
  | n :: s', i :: idx' => (if n =? 1 then 0 else i) :: bidx_rev s' idx'
  | _, _ => []
  end.
Definition bidx (s idx : list nat) : list nat := rev (bidx_rev (rev s) (rev idx)).
Definition bget {A} (a : arr A) (idx : list nat) : option A := aget a (bidx (ashape a) idx).

(** Elementwise operation of two object arrays ([ValueError] when the shapes
    do not broadcast). (real_intervals.py:246-276) *)
Definition binop_arr {A B C} (f : A -> B -> M C) (x : arr A) (y : arr B) : M (arr C) :=
  match bcast (ashape x) (ashape y) with
  | None => mraise ValueError
  | Some s =>
      l <- mapM (fun idx => match bget x idx, bget y idx with
                            | Some a, Some b => f a b
                            | _, _ => mraise IndexError
                            end) (indices s) ;;
      mret (mkarr s l)
  end.

(** [np.vectorize(f)(a)] without otypes: ValueError on empty input. (real_intervals.py:28-101) *)
Definition vectorize {A B} (f : A -> M B) (a : arr A) : M (arr B) :=
  match adata a with [] => mraise ValueError | _ => amapM f a end.

(** *** dtype chosen by np.vectorize for number results: from the first one *)
(** numpy, for real_intervals.py:28-81 *)
Definition int64_ok (z : Z) : bool := ((- 2 ^ 63 <=? z) && (z <? 2 ^ 63))%Z.
Inductive dtype : Set := DInt64 | DFloat64 | DObject.
Definition dtype_of (x : pynum) : dtype :=
  match x with PFlt _ => DFloat64 | PInt z => if int64_ok z then DInt64 else DObject end.
(** Python [int(f)] for a double: truncation towards zero. (numpy, for real_intervals.py:28-81) *)
Definition flt_trunc (f : flt) : res Z :=
  match f with
  | B754_nan => Err ValueError
  | B754_infinity _ => Err OverflowError
  | B754_zero _ => Ok 0%Z
  | B754_finite s m e _ =>
      let v := if (0 <=? e)%Z then (Zpos m * 2 ^ e)%Z else (Zpos m / 2 ^ (- e))%Z in
      Ok (if s then (- v)%Z else v)
  end.
Definition cast (d : dtype) (x : pynum) : res pynum :=
  match d with
  | DObject => Ok x
  | DFloat64 => f <~ to_double x ;; Ok (PFlt f)
  | DInt64 =>
      z <~ match x with PInt z => Ok z | PFlt f => flt_trunc f end ;;
      if int64_ok z then Ok (PInt z) else Err OverflowError
  end.
(** [np.vectorize(lambda el: number)(a)]: the results are converted to the
    dtype of the first one. (real_intervals.py:28-81) *)
Definition vectorize_num {A} (f : A -> M pynum) (a : arr A) : M (arr pynum) :=
  r <- vectorize f a ;;
  match adata r with
  | [] => mret r
  | x :: _ => amapM (fun v => mlift (cast (dtype_of x) v)) r
  end.

(** ** ArrayInterval *)

(** real_intervals.py:14-19: the object keeps the data and separate copies of
    shape, ndim and ranges (ndim and ranges are functions of [shp]). *)
Record aitv : Type := mkaitv { adat : arr itv; shp : list nat }.
Definition array_interval (d : arr itv) : aitv := mkaitv d (ashape d).
Definition ndim (x : aitv) : nat := length (shp x).

(** real_intervals.py:27-41 (a, b, inf, sup), 62-80 (rad, mid, wid, mig, mag),
    98-100 (khi). *)
Definition arr_a (x : aitv) : M (arr pynum) := vectorize_num (fun e => mret (lo e)) (adat x).
Definition arr_b (x : aitv) : M (arr pynum) := vectorize_num (fun e => mret (hi e)) (adat x).
Definition arr_wid (x : aitv) : M (arr pynum) := vectorize_num wid (adat x).
Definition arr_rad (x : aitv) : M (arr pynum) := vectorize_num rad (adat x).
Definition arr_mid (x : aitv) : M (arr pynum) := vectorize_num mid (adat x).
Definition arr_mig (x : aitv) : M (arr pynum) := vectorize_num (fun e => v <- mig e ;; mret (PFlt v)) (adat x).
Definition arr_mag (x : aitv) : M (arr pynum) := vectorize_num (fun e => v <- mag e ;; mret (PFlt v)) (adat x).
(** real_intervals.py:82-96: dual, pro, opp, inv. *)
Definition lift_arr (c : M (arr itv)) : M aitv := d <- c ;; mret (array_interval d).
Definition arr_map (f : itv -> M itv) (x : aitv) : M aitv := lift_arr (vectorize f (adat x)).
Definition arr_dual := arr_map (fun e => mret (dual e)).
Definition arr_pro := arr_map (fun e => mret (pro e)).
Definition arr_opp := arr_map (fun e => mret (opp e)).
Definition arr_inv := arr_map inv.
Definition arr_abs := arr_map abs_itv.
(** real_intervals.py:145-146: [-self._data] is elementwise, also when empty. *)
Definition arr_neg (x : aitv) : M aitv := lift_arr (amapM (fun e => mret (neg e)) (adat x)).

(** The other operand of an array operation, as the array numpy makes of it:
    0-dimensional for a number.  A scalar interval takes another path, see
    [arr_op_itv]. (real_intervals.py:246-276) *)
Definition op_arr (x : aitv) : arr operand := amap OItv (adat x).

(** real_intervals.py:246-276: [self + other] etc. *)
Definition arr_op (o : binop) (x : aitv) (other : arr operand) : M aitv :=
  lift_arr (binop_arr (py_op o) (op_arr x) other).
(** real_intervals.py:246-276 with a scalar interval [s]: numpy hands
    [self._data + s] to [s.__array_ufunc__] (pyx:354-370), which maps
    [o + s], [o + (-s)], [o * s] or [o * [1/s.b, 1/s.a]] over the elements
    [o] with np.vectorize. *)
Definition arr_op_itv (o : binop) (x : aitv) (s : itv) : M aitv :=
  lift_arr
    match o with
    | OpAdd => vectorize (fun e => radd_any s (OItv e)) (adat x)
    | OpSub => vectorize (fun e => radd_any (mkitv (kd s) (num_neg (hi s)) (num_neg (lo s))) (OItv e)) (adat x)
    | OpMul => vectorize (fun e => rmul_any s (OItv e)) (adat x)
    | OpDiv =>
        i <- with_rounding FE_DOWNWARD (as_double (div_ (PInt 1) (hi s))) ;;
        v <- with_rounding FE_UPWARD (as_double (div_ (PInt 1) (lo s))) ;;
        vectorize (fun e => rmul_any (mkitv (kd s) (PFlt i) (PFlt v)) (OItv e)) (adat x)
    end.
(** real_intervals.py:288-298: reflected operators.  [__radd__] and [__rmul__]
    compute [self._data + other], [self._data * other]; [__rsub__] is
    [other - self._data]; [__rtruediv__] multiplies the reciprocals by other. *)
Definition arr_rop (o : binop) (other : arr operand) (x : aitv) : M aitv :=
  match o with
  | OpAdd => arr_op OpAdd x other
  | OpMul => arr_op OpMul x other
  | OpSub => lift_arr (binop_arr (py_op OpSub) other (op_arr x))
  | OpDiv => r <- lift_arr (binop_arr (py_op OpDiv) (scalar (ONum (PInt 1))) (op_arr x)) ;;
             arr_op OpMul r other
  end.
(** real_intervals.py:323-334: numpy ufuncs; [arg2] is the first input. *)
Definition arr_ufunc (o : binop) (x : aitv) (arg2 : arr operand) : M aitv :=
  match o with
  | OpAdd => arr_op OpAdd x arg2
  | _ => lift_arr (binop_arr (py_op o) arg2 (op_arr x))
  end.
(** [np.add(x, y)] etc. with at least one ArrayInterval input. (real_intervals.py:323-361) *)
Definition np_arr_left (o : binop) (x : aitv) (y : arr operand) : M aitv := arr_ufunc o x (op_arr x).
Definition np_arr_right (o : binop) (c : arr operand) (x : aitv) : M aitv := arr_ufunc o x c.

(** ** Matrix products, real_intervals.py:281-286, 300-305, 336-341 *)

(** Products and sums of object-array elements: numbers or intervals.
    (numpy, for real_intervals.py:281-286) *)
Definition omul (x y : operand) : M operand :=
  match x, y with
  | ONum a, ONum b => v <- mul_ a b ;; mret (ONum v)
  | _, _ => v <- py_mul x y ;; mret (OItv v)
  end.
Definition oadd (x y : operand) : M operand :=
  match x, y with
  | ONum a, ONum b => v <- add_ a b ;; mret (ONum v)
  | _, _ => v <- py_add x y ;; mret (OItv v)
  end.
(** numpy's inner product of object arrays: the first product, then
    [acc = acc + product]; the int 0 when there is nothing to add.
    (numpy, for real_intervals.py:281-286) *)
Fixpoint dot_from (acc : operand) (l : list (operand * operand)) : M operand :=
  match l with
  | [] => mret acc
  | (x, y) :: l' => p <- omul x y ;; s <- oadd acc p ;; dot_from s l'
  end.
Definition dot (l : list (operand * operand)) : M operand :=
  match l with
  | [] => mret (ONum (PInt 0))
  | (x, y) :: l' => p <- omul x y ;; dot_from p l'
  end.
Definition oget (a : arr operand) (idx : list nat) : operand :=
  match aget a idx with Some v => v | None => ONum (PInt 0) end.
(** [x @ y] for one- and two-dimensional operands (numpy also treats more
    dimensions as stacks of matrices; not modelled).  A 1-d @ 1-d product is a
    scalar, here a 0-dimensional array. (real_intervals.py:281-286) *)
Definition matmul (x y : arr operand) : M (arr operand) :=
  let entry n f g := dot (map (fun k => (f k, g k)) (seq 0 n)) in
  match ashape x, ashape y with
  | [n], [n'] =>
      if n =? n' then v <- entry n (fun k => oget x [k]) (fun k => oget y [k]) ;; mret (scalar v)
      else mraise ValueError
  | [r; n], [n'] =>
      if n =? n' then
        l <- mapM (fun i => entry n (fun k => oget x [i; k]) (fun k => oget y [k])) (seq 0 r) ;;
        mret (mkarr [r] l)
      else mraise ValueError
  | [n], [n'; c] =>
      if n =? n' then
        l <- mapM (fun j => entry n (fun k => oget x [k]) (fun k => oget y [k; j])) (seq 0 c) ;;
        mret (mkarr [c] l)
      else mraise ValueError
  | [r; n], [n'; c] =>
      if n =? n' then
        l <- mapM (fun ij => entry n (fun k => oget x [nth 0 ij 0; k]) (fun k => oget y [k; nth 1 ij 0])) (indices [r; c]) ;;
        mret (mkarr [r; c] l)
      else mraise ValueError
  | _, _ => mraise ValueError
  end.

(** ** vertex, real_intervals.py:102-127 *)

(** [itertools.product([0, 1], repeat=n)]: all 0/1 tuples, last varying fastest.
    (real_intervals.py:103-127) *)
Fixpoint ends_product (n : nat) : list (list bool) :=
  match n with
  | O => [[]]
  | S n' => map (cons false) (ends_product n') ++ map (cons true) (ends_product n')
  end.
(** One row: [result[k][ends == 0] = inf[ends == 0]] and the same for [sup].
    (real_intervals.py:103-127) *)
Definition choose_row (ends : list bool) (infs sups : list pynum) : list pynum :=
  map (fun t : bool * (pynum * pynum) => if fst t then snd (snd t) else fst (snd t)) (combine ends (combine infs sups)).
(** The matrix case flattens to the same rows: a product of products
    enumerates all 0/1 matrices in row-major order.  [np.zeros] makes the
    result double. (real_intervals.py:103-127) *)
Definition vertex (x : aitv) : M (arr pynum) :=
  infs <- arr_a x ;; sups <- arr_b x ;;
  match shp x with
  | [] => mraise GenericException
  | _ :: _ :: _ :: _ => mraise GenericException
  | s =>
      rows <- mapM (fun ends => mapM (fun v => mlift (cast DFloat64 v)) (choose_row ends (adata infs) (adata sups)))
                   (ends_product (size s)) ;;
      mret (mkarr (2 ^ size s :: s) (concat rows))
  end.

(** ** Membership, real_intervals.py:155-166: true as soon as one component
    contains; the variable is unbound when there are no components. *)
Fixpoint any_contains (l : list (itv * operand)) (last : option bool) : res bool :=
  match l with
  | [] => match last with Some b => Ok b | None => Err UnboundLocalError end
  | (e, o) :: l' => if py_contains e o then Ok true else any_contains l' (Some false)
  end.
Definition arr_contains_scalar (x : aitv) (o : operand) : res bool :=
  any_contains (map (fun e => (e, o)) (adata (adat x))) None.
Definition arr_contains (x : aitv) (other : arr operand) : res bool :=
  any_contains (combine (adata (adat x)) (adata other)) None.

(** ** Item access *)

(** A Python index [z] along a dimension of size [n]. (numpy, for real_intervals.py:213-243) *)
Definition norm_index (n : nat) (z : Z) : res nat :=
  if ((0 <=? z) && (z <? Z.of_nat n))%Z then Ok (Z.to_nat z)
  else if ((- Z.of_nat n <=? z) && (z <? 0))%Z then Ok (Z.to_nat (z + Z.of_nat n))
  else Err IndexError.
Fixpoint norm_key (s : list nat) (key : list Z) : res (list nat) :=
  match s, key with
  | [], [] => Ok []
  | n :: s', z :: key' => i <~ norm_index n z ;; r <~ norm_key s' key' ;; Ok (i :: r)
  | _, _ => Err IndexError
  end.
(** real_intervals.py:213-218 with a full tuple of int indices. *)
Definition getitem (x : aitv) (key : list Z) : res itv :=
  idx <~ norm_key (ashape (adat x)) key ;;
  match aget (adat x) idx with Some e => Ok e | None => Err IndexError end.
(** real_intervals.py:213-218 with a single int on a 2-d array (or more): the sub-array. *)
Definition getitem_row (x : aitv) (z : Z) : res aitv :=
  match ashape (adat x) with
  | n :: (_ :: _) as s =>
      i <~ norm_index n z ;;
      let t := tl (ashape (adat x)) in
      Ok (array_interval (mkarr t (firstn (size t) (skipn (i * size t) (adata (adat x))))))
  | _ => Err IndexError
  end.

Fixpoint set_nth {A} (k : nat) (v : A) (l : list A) : list A :=
  match l, k with
  | [], _ => []
  | _ :: l', O => v :: l'
  | y :: l', S k' => y :: set_nth k' v l'
  end.
(** real_intervals.py:220-229 with a full tuple of int indices and an interval
    or a number ([SingleInterval(value, value)]). *)
Definition setitem (x : aitv) (key : list Z) (v : operand) : res aitv :=
  idx <~ norm_key (ashape (adat x)) key ;;
  match flat (ashape (adat x)) idx with
  | Some k =>
      let e := match v with OItv e => e | ONum c => mkitv Classical c c end in
      Ok (mkaitv (mkarr (ashape (adat x)) (set_nth k e (adata (adat x)))) (shp x))
  | None => Err IndexError
  end.

(** [np.delete(a, k, axis)]. (real_intervals.py:231-243) *)
Fixpoint set_dim (s : list nat) (axis n : nat) : list nat :=
  match s, axis with
  | [], _ => []
  | _ :: s', O => n :: s'
  | d :: s', S axis' => d :: set_dim s' axis' n
  end.
Definition skip_index (axis k : nat) (idx : list nat) : list nat :=
  let i := nth axis idx 0 in set_dim idx axis (if i <? k then i else S i).
Definition np_delete (a : arr itv) (z : Z) (axis : nat) : res (arr itv) :=
  match nth_error (ashape a) axis with
  | None => Err IndexError (* AxisError, a subclass of ValueError and IndexError *)
  | Some n =>
      k <~ norm_index n z ;;
      let s := set_dim (ashape a) axis (n - 1) in
      Ok (mkarr s (map (fun idx => match aget a (skip_index axis k idx) with
                                   | Some e => e | None => mkitv Classical pn0 pn0 end) (indices s)))
  end.
(** real_intervals.py:231-244.  The tuple form deletes along the last axis of
    the key and ignores the other components; a slice has no [-1] item. *)
Inductive del_key : Type := KInt (z : Z) | KTuple (zs : list Z) | KSlice | KOther.
Definition delitem (x : aitv) (key : del_key) : res aitv :=
  match key with
  | KInt z => d <~ np_delete (adat x) z 0 ;; Ok (array_interval d)
  | KTuple [] => Err IndexError
  | KTuple zs => d <~ np_delete (adat x) (last zs 0%Z) (length zs - 1) ;; Ok (array_interval d)
  | KSlice => Err TypeError
  | KOther => Err TypeError
  end.

(** real_intervals.py:307-321: in-place arithmetic replaces [_data] only. *)
Definition arr_iop (o : binop) (x : aitv) (other : arr operand) : M aitv :=
  d <- binop_arr (py_op o) (op_arr x) other ;; mret (mkaitv d (shp x)).

(** real_intervals.py:129-143: copy, T, reshape. *)
Definition arr_copy (x : aitv) : aitv := array_interval (adat x).
Definition arr_T (x : aitv) : aitv :=
  let s := ashape (adat x) in
  array_interval (of_fun (rev s) (fun idx => match aget (adat x) (rev idx) with Some e => e | None => mkitv Classical pn0 pn0 end)).
Definition arr_reshape (x : aitv) (s : list nat) : res aitv :=
  if size s =? size (ashape (adat x)) then Ok (array_interval (mkarr s (adata (adat x)))) else Err ValueError.
