(** Model of interval construction: SingleInterval and Interval
    (kernel/real_intervals.py:370-471), asinterval and intersection
    (kernel/preprocessing.py:83-143), factories and test systems
    (kernel/new_objects.py), diag, compmat and the elementwise helpers of
    kernel/utils.py, and sign (kernel/elementary_functions.py:103-122). *)
From Coq Require Import ZArith List Bool Arith.
From Flocq Require Import Core IEEE754.BinarySingleNaN.
From Verif Require Import Base PyNum Kernel Expr Arrays.
Import ListNotations.
Open Scope nat_scope.

(** real_intervals.py:370-396.  Arguments that are not Numbers are excluded by
    the type, except in [interval2] below. *)
Definition single_interval (left right : pynum) (sortQ midRadQ : bool) : M itv :=
  lr <- (if midRadQ then
           if num_ge right (PInt 0) then
             l <- sub_ left right ;; r <- add_ left right ;; mret (l, r)
           else mraise AssertionError
         else mret (left, right)) ;;
  let (l, r) := (lr : pynum * pynum) in
  mret (if sortQ then
          if num_gt l r then mkitv Classical r l else mkitv Classical l r
        else
          if num_le l r then mkitv Classical l r else mkitv Kaucher l r).

(** Nested Python lists (or tuples, or ndarrays) with leaves of type [A].
    (the arguments of real_intervals.py:404) *)
Inductive nested (A : Type) : Type := NLeaf (a : A) | NList (l : list (nested A)).
Arguments NLeaf {A} a.
Arguments NList {A} l.
Fixpoint leaves {A} (t : nested A) : list A :=
  match t with NLeaf a => [a] | NList l => flat_map leaves l end.
Fixpoint shape_eqb (s t : list nat) : bool :=
  match s, t with
  | [], [] => true
  | a :: s', b :: t' => (a =? b) && shape_eqb s' t'
  | _, _ => false
  end.
(** The shape numpy finds: all sublists of a list must have the same one,
    otherwise ValueError ("inhomogeneous shape"). (numpy, for real_intervals.py:459-460 and 469) *)
Fixpoint nshape {A} (t : nested A) : res (list nat) :=
  match t with
  | NLeaf _ => Ok []
  | NList l =>
      match map nshape l with
      | [] => Ok [0]
      | Err e :: _ => Err e
      | Ok s :: rest =>
          if forallb (fun r => match r with Ok s' => shape_eqb s s' | Err _ => false end) rest
          then Ok (length l :: s) else Err ValueError
      end
  end.
Definition np_array {A} (t : nested A) : res (arr A) := s <~ nshape t ;; Ok (mkarr s (leaves t)).

(** dtype promotion of numeric data: one float among the elements makes them
    all doubles; otherwise ints keep their value.  (numpy's promotion of a mix
    of negative ints and ints above 2^63 to float is not modelled.)
    (numpy, for real_intervals.py:459-460 and 469) *)
Definition is_flt (x : pynum) : bool := match x with PFlt _ => true | PInt _ => false end.
Fixpoint rmapl {A B} (f : A -> res B) (l : list A) : res (list B) :=
  match l with [] => Ok [] | x :: l' => y <~ f x ;; ys <~ rmapl f l' ;; Ok (y :: ys) end.
Definition promote (l : list pynum) : res (list pynum) :=
  if existsb is_flt l then rmapl (cast DFloat64) l else Ok l.

(** What Interval returns. (real_intervals.py:404-471) *)
Inductive ivres : Type := RItv (e : itv) | RArr (x : aitv).
(** [np.vectorize(SingleInterval)(left, right)] for arrays of shape [s]. (real_intervals.py:471) *)
Definition build (s : list nat) (ls rs : list pynum) (sortQ midRadQ : bool) : M ivres :=
  x <- lift_arr (vectorize (fun p : pynum * pynum => single_interval (fst p) (snd p) sortQ midRadQ) (mkarr s (combine ls rs))) ;;
  mret (RArr x).

(** real_intervals.py:404-471 with two arguments.  (Two arguments the first of
    which is an interval object are not modelled.) *)
Definition interval2 (t1 t2 : nested pynum) (sortQ midRadQ : bool) : M ivres :=
  match t1, t2 with
  | NLeaf a, NLeaf b => e <- single_interval a b sortQ midRadQ ;; mret (RItv e)
  | NLeaf a, NList _ => mraise AssertionError
  | NList _, _ =>
      left <- mlift (np_array t1) ;; right <- mlift (np_array t2) ;;
      if shape_eqb (ashape left) (ashape right) then
        data <- mlift (promote (adata left ++ adata right)) ;;
        let n := length (adata left) in
        build (ashape left) (firstn n data) (skipn n data) sortQ midRadQ
      else mraise ValueError
  end.

(** One argument: an interval object or nested numbers. (real_intervals.py:461-469) *)
Inductive ivarg : Type := AItv (e : itv) | AArr (x : aitv) | ANest (t : nested pynum).
(** [data[..., j]] of an array whose last dimension is [k]: every [k]-th
    element from position [j]. (real_intervals.py:471) *)
Fixpoint every (k j : nat) (fuel : nat) (l : list pynum) : list pynum :=
  match fuel with
  | O => []
  | S f => match l with
           | [] => []
           | _ => match nth_error l j with Some v => v :: every k j f (skipn k l) | None => [] end
           end
  end.
Definition last_axis (a : arr pynum) (j : nat) : list pynum :=
  every (last (ashape a) 0) j (length (adata a)) (adata a).
(** real_intervals.py:464 takes [len] of the argument before real_intervals.py:467 asks whether it is a
    number, so a number raises TypeError.  Line 465: when the argument has
    length 2 but does not hold two numbers, control falls through to the
    array case. *)
Definition interval1 (a : ivarg) (sortQ midRadQ : bool) : M ivres :=
  match a with
  | AItv e => mret (RItv e)
  | AArr x => mret (RArr x)
  | ANest (NLeaf _) => mraise TypeError
  | ANest (NList [NLeaf l; NLeaf r]) => e <- single_interval l r sortQ midRadQ ;; mret (RItv e)
  | ANest t =>
      data <- mlift (np_array t) ;;
      vals <- mlift (promote (adata data)) ;;
      let d := mkarr (ashape data) vals in
      if last (ashape d) 0 <? 2 then mraise IndexError
      else build (removelast (ashape d)) (last_axis d 0) (last_axis d 1) sortQ midRadQ
  end.
(** Other numbers of arguments. (real_intervals.py:453-454) *)
Definition interval0 : M ivres := mraise IndexError.
Definition interval_many : M ivres := mraise AssertionError.

(** ** asinterval, preprocessing.py:83-108 *)
Inductive asarg : Type := SItv (e : itv) | SArr (x : aitv) | SNest (t : nested operand) | SString | SNotIterable.
(** [Interval(x, x, sortQ=False)] of a number, an interval itself. (preprocessing.py:97-102) *)
Definition as_itv (o : operand) : M itv :=
  match o with OItv e => mret e | ONum c => single_interval c c false false end.
(** Numeric arrays are promoted to one dtype; an array with an interval in it
    has dtype object and keeps its elements. (numpy, for preprocessing.py:83-110) *)
Definition is_num (o : operand) : bool := match o with ONum _ => true | OItv _ => false end.
Definition promote_ops (l : list operand) : res (list operand) :=
  if forallb is_num l && existsb (fun o => match o with ONum c => is_flt c | OItv _ => false end) l
  then rmapl (fun o => match o with ONum c => v <~ cast DFloat64 c ;; Ok (ONum v) | OItv e => Ok (OItv e) end) l
  else Ok l.
(** [try ... except Exception: raise TypeError] (preprocessing.py:83-110) *)
Definition as_type_error {A} (c : M A) : M A :=
  fun m => match c m with (Err _, m1) => (Err TypeError, m1) | r => r end.
Definition asinterval (a : asarg) : M ivres :=
  match a with
  | SItv e => mret (RItv e)
  | SArr x => mret (RArr x)
  | SNest (NLeaf (OItv e)) => mret (RItv e)
  | SNest (NLeaf (ONum c)) => e <- single_interval c c false false ;; mret (RItv e)
  | SString => mraise AssertionError
  | SNotIterable => mraise AssertionError
  | SNest t => as_type_error
      (data <- mlift (np_array t) ;; vals <- mlift (promote_ops (adata data)) ;;
       d <- amapM as_itv (mkarr (ashape data) vals) ;; mret (RArr (array_interval d)))
  end.

(** ** intersection, preprocessing.py:111-143 *)

(** The double nearest to 1e-15 (python: 1e-15.hex() = 0x1.203af9ee75616p-50).
    (new_objects.py:62-110) *)
Definition c1em15 : pynum := PFlt (fl 5070602400912918 (-102)).
(** preprocessing.py:127-133. *)
Definition intersect (x y : itv) : M itv :=
  let sup := if num_lt (lo x) (lo y) then lo y else lo x in
  let inf := if num_lt (hi x) (hi y) then hi x else hi y in
  d <- sub_ sup inf ;;
  if num_le d c1em15 then single_interval sup inf true false
  else single_interval (PFlt fnan) (PFlt fnan) true false.
(** preprocessing.py:135-143.  [np.vectorize] broadcasts; the first branch has already
    asserted that the shapes agree. *)
Definition vectorize2 (f : itv -> itv -> M itv) (x y : arr itv) : M (arr itv) :=
  match bcast (ashape x) (ashape y) with
  | Some s => if size s =? 0 then mraise ValueError else binop_arr f x y
  | None => mraise ValueError
  end.
Definition intersection (x y : ivres) : M ivres :=
  match x, y with
  | RArr x, RArr y =>
      if shape_eqb (shp x) (shp y) then d <- vectorize2 intersect (adat x) (adat y) ;; mret (RArr (array_interval d))
      else mraise AssertionError
  | RItv x, RArr y => d <- vectorize2 intersect (scalar x) (adat y) ;; mret (RArr (array_interval d))
  | RArr x, RItv y => d <- vectorize2 intersect (adat x) (scalar y) ;; mret (RArr (array_interval d))
  | RItv x, RItv y => e <- intersect x y ;; mret (RItv e)
  end.

(** ** Factories, new_objects.py:6-57 *)

(** [Interval(left, right, sortQ=False)] of two ndarrays given by functions of
    the index ([interval2] without the list parsing; the elements are already
    of one dtype). (real_intervals.py:456-471) *)
Definition from_arrays (s : list nat) (l r : list nat -> pynum) (sortQ : bool) : M aitv :=
  lift_arr (vectorize (fun p : pynum * pynum => single_interval (fst p) (snd p) sortQ false) (of_fun s (fun idx => (l idx, r idx)))).
(** new_objects.py:6-21 *)
Definition zeros (s : list nat) : M aitv := from_arrays s (fun _ => PFlt f0) (fun _ => PFlt f0) false.
(** new_objects.py:24-26: dtype float64. *)
Definition full (s : list nat) (inf sup : pynum) : M aitv :=
  i <- mlift (cast DFloat64 inf) ;; u <- mlift (cast DFloat64 sup) ;; from_arrays s (fun _ => i) (fun _ => u) false.
(** new_objects.py:29-57: dtype int64; ones where column - row = k. *)
Definition eye_entry (k : Z) (idx : list nat) : pynum :=
  if (Z.of_nat (nth 1 idx 0%nat) - Z.of_nat (nth 0 idx 0%nat) =? k)%Z then PInt 1 else PInt 0.
Definition eye (N : nat) (M_ : option nat) (k : Z) : M aitv :=
  let M0 := match M_ with Some c => c | None => N end in from_arrays [N; M0] (eye_entry k) (eye_entry k) false.
(** utils.py:44-64: [asinterval(np.diag(v.data, k))].  A 1-d array becomes the
    matrix with it on the k-th diagonal and (np.diag fills with) int 0
    elsewhere, which asinterval turns into [0, 0]; from a 2-d array the k-th
    diagonal is extracted.  Other dimensions: ValueError. *)
Definition zero_itv : itv := mkitv Classical (PInt 0) (PInt 0).
Definition diag_len (r c : nat) (k : Z) : nat :=
  if (0 <=? k)%Z then Nat.min r (c - Z.to_nat k) else Nat.min (r - Z.to_nat (- k)) c.
Definition diag (v : aitv) (k : Z) : res aitv :=
  match ashape (adat v) with
  | [n] =>
      let N := n + Z.abs_nat k in
      Ok (array_interval (of_fun [N; N] (fun idx =>
        let i := nth 0 idx 0 in let j := nth 1 idx 0 in
        if (Z.of_nat j - Z.of_nat i =? k)%Z then
          match nth_error (adata (adat v)) (if (0 <=? k)%Z then i else j) with Some e => e | None => zero_itv end
        else zero_itv)))
  | [r; c] =>
      Ok (array_interval (of_fun [diag_len r c k] (fun idx =>
        let p := nth 0 idx 0 in
        match aget (adat v) (if (0 <=? k)%Z then [p; p + Z.to_nat k] else [p + Z.to_nat (- k); p]) with
        | Some e => e | None => zero_itv end)))
  | _ => Err ValueError
  end.

(** ** Test systems, new_objects.py:62-174 *)

(** [for k in range(n): A[k, k] = e] (new_objects.py:62-176) *)
Fixpoint set_diag (A : aitv) (e : itv) (k : nat) : res aitv :=
  match k with
  | O => Ok A
  | S k' => B <~ set_diag A e k' ;; setitem B [Z.of_nat k'; Z.of_nat k'] (OItv e)
  end.
(** new_objects.py:62-110 *)
Definition neumaier_system (n : nat) (theta : pynum) (infb supb : option pynum) : M (aitv * aitv) :=
  let i := match infb with Some v => v | None => PInt (-1) end in
  let s := match supb with Some v => v | None => PInt 1 end in
  r <- interval1 (ANest (NList (repeat (NList [NLeaf i; NLeaf s]) n))) true false ;;
  match r with
  | RArr b =>
      Z <- zeros [n; n] ;; S <- single_interval (PInt 0) (PInt 2) false false ;;
      A <- arr_op_itv OpAdd Z S ;; D <- single_interval theta theta false false ;;
      A' <- mlift (set_diag A D n) ;; mret (A', b)
  | RItv _ => mraise TypeError (* not reached *)
  end.
(** new_objects.py:113-158 *)
Definition shary_system (n : nat) (N : option pynum) (alpha beta : pynum) : M (aitv * aitv) :=
  let pn := PInt (Z.of_nat n) in let pn1 := PInt (Z.of_nat n - 1) in
  N' <- match N with
        | None => mret pn
        | Some v => if num_ge v pn1 then mret v else mraise AssertionError
        end ;;
  if num_lt alpha (PInt 0) || num_lt beta alpha || num_gt beta (PInt 1) then mraise GenericException
  else
    l <- sub_ alpha (PInt 1) ;; r <- sub_ (PInt 1) beta ;;
    Z <- zeros [n; n] ;; S <- single_interval l r false false ;; A <- arr_op_itv OpAdd Z S ;;
    zb <- zeros [n] ;; T <- single_interval (PInt (1 - Z.of_nat n)) pn1 false false ;; b <- arr_op_itv OpAdd zb T ;;
    D <- single_interval pn1 N' false false ;;
    A' <- mlift (set_diag A D n) ;; mret (A', b).
(** new_objects.py:161-174; [for k in range(n): a[k] = Interval(k+1-r, k+1+r)] *)
Definition toft_a (r : pynum) (k : nat) : M itv :=
  l <- sub_ (PInt (Z.of_nat k + 1)) r ;; h <- add_ (PInt (Z.of_nat k + 1)) r ;; single_interval l h true false.
(** [A[:, -1], A[-1, :] = a.copy(), a.copy()]: the column, then the row.
    (new_objects.py:161-176) *)
Definition set_col (A : aitv) (j : nat) (a : list itv) : aitv :=
  mkaitv (of_fun (ashape (adat A)) (fun idx =>
    if nth 1 idx 0 =? j then nth (nth 0 idx 0) a zero_itv
    else match aget (adat A) idx with Some e => e | None => zero_itv end)) (shp A).
Definition set_row (A : aitv) (i : nat) (a : list itv) : aitv :=
  mkaitv (of_fun (ashape (adat A)) (fun idx =>
    if nth 0 idx 0 =? i then nth (nth 1 idx 0) a zero_itv
    else match aget (adat A) idx with Some e => e | None => zero_itv end)) (shp A).
Definition toft_system (n : nat) (r R : pynum) : M (aitv * aitv) :=
  if num_ge r (PInt 0) && num_ge R (PInt 0) then
    A <- zeros [n; n] ;; zb <- zeros [n] ;;
    bl <- sub_ (PInt 1) R ;; bh <- add_ (PInt 1) R ;; T <- single_interval bl bh false false ;;
    b <- arr_op_itv OpAdd zb T ;;
    dl <- sub_ (PInt 1) r ;; dh <- add_ (PInt 1) r ;; D <- single_interval dl dh false false ;;
    A1 <- mlift (set_diag A D n) ;;
    a <- mapM (toft_a r) (seq 0 n) ;;
    mret (set_row (set_col A1 (n - 1) a) (n - 1) a, b)
  else mraise AssertionError.

(** ** utils.py *)

(** utils.py:89-191 on an interval or a number: [float(x)] is [to_double]. *)
Definition u_wid (o : operand) : M pynum :=
  match o with OItv e => wid e | ONum c => f <- mlift (to_double c) ;; mret (PFlt f) end.
Definition u_mid (o : operand) : M pynum :=
  match o with OItv e => mid e | ONum c => f <- mlift (to_double c) ;; mret (PFlt f) end.
Definition u_rad (o : operand) : M pynum :=
  match o with OItv e => rad e | ONum c => mret (PFlt f0) end.
Definition u_inf (o : operand) : M pynum :=
  match o with OItv e => mret (lo e) | ONum c => f <- mlift (to_double c) ;; mret (PFlt f) end.
Definition u_sup (o : operand) : M pynum :=
  match o with OItv e => mret (hi e) | ONum c => f <- mlift (to_double c) ;; mret (PFlt f) end.
(** [float(abs(x))] (utils.py:164-177) *)
Definition num_abs (c : pynum) : pynum := match c with PInt z => PInt (Z.abs z) | PFlt f => PFlt (fabs f) end.
Definition u_mag (o : operand) : M pynum :=
  match o with OItv e => v <- mag e ;; mret (PFlt v) | ONum c => f <- mlift (to_double (num_abs c)) ;; mret (PFlt f) end.
(** utils.py:67-76 *)
Definition compmat (A : aitv) : M (arr pynum) :=
  Amag <- arr_mag A ;; Amig <- arr_mig A ;;
  match shp A with
  | [r; c] =>
      l <- mapM (fun idx =>
             if nth 0 idx 0 =? nth 1 idx 0
             then match aget Amig idx with Some v => mret v | None => mraise IndexError end
             else match aget Amag idx with Some v => mret (num_neg v) | None => mraise IndexError end) (indices [r; c]) ;;
      mret (mkarr [r; c] l)
  | _ => mraise IndexError
  end.
(** utils.py:79-86 *)
Definition isnan_itv (x : itv) : bool := is_nan_num (lo x) || is_nan_num (hi x).
(** utils.py:194-201 on arrays of equal shape (given by their elements): the
    endpoint arrays are compared elementwise and the results are and-ed. *)
Definition subset_l (a b : list itv) : bool :=
  forallb (fun p => num_ge (lo (fst p)) (lo (snd p)) && num_le (hi (fst p)) (hi (snd p))) (combine a b).
Definition proper_subset_l (a b : list itv) : bool :=
  forallb (fun p => num_gt (lo (fst p)) (lo (snd p)) && num_lt (hi (fst p)) (hi (snd p))) (combine a b).
Definition contain_l (a b : list itv) : list bool :=
  map (fun p => num_ge (lo (fst p)) (lo (snd p)) && num_le (hi (fst p)) (hi (snd p))) (combine a b).

(** ** sign, elementary_functions.py:103-122 *)
Definition sign_itv (x : itv) : M itv :=
  let z := PInt 0 in
  if num_lt (hi x) z then single_interval (PInt (-1)) (PInt (-1)) false false
  else if num_lt (lo x) z && num_eq (hi x) z then single_interval (PInt (-1)) (PInt 0) false false
  else if num_lt (lo x) z && num_lt z (hi x) then single_interval (PInt (-1)) (PInt 1) false false
  else if num_eq (lo x) z && num_eq (hi x) z then single_interval (PInt 0) (PInt 0) false false
  else if num_eq (lo x) z && num_lt z (hi x) then single_interval (PInt 0) (PInt 1) false false
  else single_interval (PInt 1) (PInt 1) false false.
