(** Vocabulary for statements about interval arrays.  [aget a idx] is the
    element of [a] at a multi-index (Arrays.v). *)
From Coq Require Import ZArith Reals List Bool Arith.
From Flocq Require Import Core IEEE754.BinarySingleNaN.
From Verif Require Import Base PyNum Kernel Spec Expr Arrays Construct.
Import ListNotations.
Open Scope nat_scope.

(** The number of elements is the product of the dimensions. *)
Definition awf {A} (a : arr A) : Prop := length (adata a) = size (ashape a).
(** [idx] is a valid index of an array of shape [s]. *)
Definition in_bounds (s idx : list nat) : Prop := Forall2 (fun i n => i < n) idx s.

(** numpy's broadcasting rule.  Pad the shorter shape with ones on the left;
    then in every position the two dimensions are equal, or one of them is 1
    and the result has the other. *)
Definition pad (k : nat) (s : list nat) : list nat := repeat 1 (k - length s) ++ s.
Definition broadcast_shape (s t r : list nat) : Prop :=
  let k := Nat.max (length s) (length t) in
  length r = k /\
  forall i, i < k ->
    let a := nth i (pad k s) 1 in let b := nth i (pad k t) 1 in let c := nth i r 1 in
    (a = c /\ (b = c \/ b = 1)) \/ (b = c /\ a = 1).
(** Position [idx] of the result reads position [idx'] of an operand of shape
    [s]: align at the right, and use 0 where the operand's dimension is 1. *)
Definition source_index (s idx idx' : list nat) : Prop :=
  length idx' = length s /\
  forall i, i < length s ->
    nth i idx' 0 = if nth i s 0 =? 1 then 0 else nth (length idx - length s + i) idx 0.
Definition reads {A} (a : arr A) (idx : list nat) (v : A) : Prop :=
  exists idx', source_index (ashape a) idx idx' /\ aget a idx' = Some v.

Open Scope R_scope.
(** A number or interval operand that stands for reals, and the reals it stands
    for. *)
Definition good_operand (o : operand) : Prop :=
  match o with ONum c => small_num c /\ finite_num c | OItv X => good X end.
Definition in_operand (o : operand) (r : R) : Prop :=
  match o with ONum c => r = num_val c | OItv X => member X r end.
Definition in_operand_or_nan (o : operand) (r : R) : Prop :=
  match o with ONum c => r = num_val c | OItv X => member_or_nan X r end.
(** Numbers by which dividing an interval is safe (see C08). *)
Definition safe_divisor (o : operand) : Prop :=
  match o with ONum c => exact_reciprocal c | OItv _ => True end.

(** f 0 + ... + f (n-1) *)
Fixpoint Rsum (n : nat) (f : nat -> R) : R :=
  match n with O => 0 | S n' => Rsum n' f + f n' end.

(** All numbers in the list are doubles; all are ints that fit in 64 bits. *)
Definition is_double (x : pynum) : Prop := exists f, x = PFlt f.
Definition is_int64 (x : pynum) : Prop := exists z, x = PInt z /\ (- 2 ^ 63 <= z < 2 ^ 63)%Z.
Definition uniform (l : list pynum) : Prop := Forall is_double l \/ Forall is_int64 l.

(** Shape metadata agrees with the data. *)
Definition consistent (x : aitv) : Prop := shp x = ashape (adat x) /\ awf (adat x).
(** A Python index [z] selects position [i] of a dimension of size [n]:
    counting from the start or, when negative, from the end. *)
Definition py_index (n : nat) (z : Z) (i : nat) : Prop :=
  (i < n)%nat /\ (z = Z.of_nat i \/ z = (Z.of_nat i - Z.of_nat n)%Z).
Inductive py_key : list nat -> list Z -> list nat -> Prop :=
| pk_nil : py_key [] [] []
| pk_cons n s z key i idx : py_index n z i -> py_key s key idx -> py_key (n :: s) (z :: key) (i :: idx).

(** Nested data of shape [s]: every list on level [i] has the [i]-th dimension
    as its length, and the leaves are on the last level. *)
Inductive regular {A} : list nat -> nested A -> Prop :=
| reg_leaf a : regular [] (NLeaf a)
| reg_empty : regular [0%nat] (NList [])
| reg_list s l : l <> [] -> Forall (regular s) l -> regular (length l :: s) (NList l).
(** [t[i1][i2]...[ik]] *)
Fixpoint tget {A} (t : nested A) (idx : list nat) {struct idx} : option A :=
  match idx, t with
  | [], NLeaf a => Some a
  | i :: idx', NList l => match nth_error l i with Some t' => tget t' idx' | None => None end
  | _, _ => None
  end.

(** [e] is the interval made of the numbers [l] and [r]: with sorting the
    classical interval between them, without sorting [l, r] as given, classical
    exactly when l <= r.  (Values, so an int and the equal double are the same.) *)
Definition made_of (sorted : bool) (l r : pynum) (e : itv) : Prop :=
  if sorted then
    kd e = Classical /\ ((same_num (lo e) l /\ same_num (hi e) r) \/ (same_num (lo e) r /\ same_num (hi e) l)) /\
    (is_nan_num l = false -> is_nan_num r = false -> num_le (lo e) (hi e) = true)
  else same_num (lo e) l /\ same_num (hi e) r /\ (kd e = Classical <-> num_le l r = true).

(** The sign of a real. *)
Definition sign_of (x s : R) : Prop := (x < 0 /\ s = -1) \/ (x = 0 /\ s = 0) \/ (0 < x /\ s = 1).
(** [v] is the least / greatest absolute value on [X]. *)
Definition least_abs (X : itv) (v : R) : Prop := (exists x, member X x /\ v = Rabs x) /\ forall x, member X x -> v <= Rabs x.
Definition greatest_abs (X : itv) (v : R) : Prop := (exists x, member X x /\ v = Rabs x) /\ forall x, member X x -> Rabs x <= v.
(** An interval operand, or a number that converts exactly to a double. *)
Definition medium_operand (o : operand) : Prop :=
  match o with OItv _ => True | ONum c => medium_num c /\ is_nan_num c = false end.
(** [e] is the operand as an interval: itself, or the point interval. *)
Definition as_point (o : operand) (e : itv) : Prop :=
  match o with OItv E => e = E | ONum c => kd e = Classical /\ same_num (lo e) c /\ same_num (hi e) c end.

(** A history of item assignments, deletions and in-place arithmetic on one
    array object in a fixed rounding mode.  A step that raises leaves the
    object as it was. *)
Inductive update : Type := USet (key : list Z) (v : operand) | UDel (key : del_key) | UOp (o : binop) (other : arr operand).
Inductive history (m : rmode) : aitv -> list update -> aitv -> Prop :=
| h_nil x : history m x [] x
| h_set x key v y l z : setitem x key v = Ok y -> history m y l z -> history m x (USet key v :: l) z
| h_set_err x key v e l z : setitem x key v = Err e -> history m x l z -> history m x (USet key v :: l) z
| h_del x key y l z : delitem x key = Ok y -> history m y l z -> history m x (UDel key :: l) z
| h_del_err x key e l z : delitem x key = Err e -> history m x l z -> history m x (UDel key :: l) z
| h_op x o other y l z : returns (arr_iop o x other) m y -> history m y l z -> history m x (UOp o other :: l) z
| h_op_err x o other e l z : raises (arr_iop o x other) m e -> history m x l z -> history m x (UOp o other :: l) z.
(** The operand of an in-place operation is a single number or interval. *)
Definition scalar_update (u : update) : Prop := match u with UOp _ other => ashape other = [] | _ => True end.

(** Number operands only; interval operands. *)
Definition num_operand (o : operand) : Prop := match o with ONum c => small_num c /\ finite_num c | OItv _ => False end.
Definition is_itv (o : operand) : Prop := match o with OItv _ => True | ONum _ => False end.
(** Well-formed operands of a matrix product, one of them all intervals. *)
Definition product_ok (x y : arr operand) : Prop :=
  awf x /\ awf y /\ Forall good_operand (adata x) /\ Forall good_operand (adata y) /\
  (Forall is_itv (adata x) \/ Forall is_itv (adata y)).
(** With at least one summand, an entry of a product is an interval. *)
Definition entry_result (z : operand) (n : nat) : Prop := (0 < n)%nat -> exists W, z = OItv W /\ good W.
(** What an assigned value becomes: numbers become point intervals. *)
Definition as_item (v : operand) : itv := match v with OItv e => e | ONum c => mkitv Classical c c end.
(** [0.0, 0.0] *)
Definition fzero : itv := mkitv Classical (PFlt f0) (PFlt f0).
(** A default for an optional argument. *)
Definition dflt (o : option pynum) (d : pynum) : pynum := match o with Some v => v | None => d end.
(** Test system parameters: doubles or ints up to 2^25. *)
Definition param (c : pynum) : Prop := match c with PInt z => (Z.abs z <= 2 ^ 25)%Z | PFlt _ => True end.
(** [e] is [c - r, c + r] as computed by Python. *)
Definition plus_minus (m : rmode) (c : pynum) (r : pynum) (e : itv) : Prop :=
  exists l h, num_sub m c r = Ok l /\ num_add m c r = Ok h /\ kd e = Classical /\ same_num (lo e) l /\ same_num (hi e) h.
(** The result of asinterval as an argument. *)
Definition as_again (r : ivres) : asarg := match r with RItv e => SItv e | RArr x => SArr x end.
(** [Z] is the smallest interval that contains the signs of the members of [X]. *)
Definition sign_hull (X Z : itv) : Prop :=
  kd Z = Classical /\ finite_itv Z /\
  (exists x, member X x /\ sign_of x (num_val (lo Z))) /\ (exists x, member X x /\ sign_of x (num_val (hi Z))) /\
  forall x s, member X x -> sign_of x s -> num_val (lo Z) <= s <= num_val (hi Z).
