(** Which elements a key made of ints, slices, lists and masks selects, in terms
    of Python's rules. *)
From Coq Require Import ZArith List Bool Arith.
From Verif Require Import Base PyNum Kernel Expr Arrays SpecArray Slices.
Import ListNotations.
Open Scope nat_scope.

(** The slice [start:stop:step] of a dimension of size [n].  A negative bound
    counts from the end; a bound beyond the ends means the end; omitted bounds
    are the two ends, in the direction of the step. *)
Definition step_of (s : slice) : Z := match s_step s with Some k => k | None => 1%Z end.
Definition from_end (n z : Z) : Z := if (z <? 0)%Z then (z + n)%Z else z.
Definition first_of (n : Z) (s : slice) : Z :=
  if (0 <? step_of s)%Z
  then match s_start s with None => 0%Z | Some z => Z.max 0 (Z.min n (from_end n z)) end
  else match s_start s with None => (n - 1)%Z | Some z => Z.max (-1) (Z.min (n - 1) (from_end n z)) end.
Definition last_of (n : Z) (s : slice) : Z :=
  if (0 <? step_of s)%Z
  then match s_stop s with None => n | Some z => Z.max 0 (Z.min n (from_end n z)) end
  else match s_stop s with None => (-1)%Z | Some z => Z.max (-1) (Z.min (n - 1) (from_end n z)) end.
(** The [k]-th selected position is [i]: first + k * step, before the stop. *)
Definition slice_pos (n : nat) (s : slice) (k i : nat) : Prop :=
  Z.of_nat i = (first_of (Z.of_nat n) s + Z.of_nat k * step_of s)%Z /\
  if (0 <? step_of s)%Z then (Z.of_nat i < last_of (Z.of_nat n) s)%Z else (last_of (Z.of_nat n) s < Z.of_nat i)%Z.

(** How many of the booleans are true. *)
Definition trues (bs : list bool) : nat := count_occ bool_dec bs true.
(** The [k]-th position selected by a component that keeps the dimension. *)
Definition item_pos (n : nat) (it : item) (k i : nat) : Prop :=
  match it with
  | KI _ => False
  | KS s => slice_pos n s k i
  | KL zs => exists z, nth_error zs k = Some z /\ py_index n z i
  | KM bs => nth_error bs i = Some true /\ k = trues (firstn i bs)
  end.
Definition valid_item (n : nat) (it : item) : Prop :=
  match it with
  | KI z => exists i, py_index n z i
  | KS s => step_of s <> 0%Z
  | KL zs => Forall (fun z => exists i, py_index n z i) zs
  | KM bs => length bs = n
  end.
Inductive valid_key : list nat -> list item -> Prop :=
| vk_rest s : valid_key s []
| vk_item n s it key : valid_item n it -> valid_key s key -> valid_key (n :: s) (it :: key).
(** Ints and slices, or a list or mask among slices. *)
Definition is_slice (it : item) : Prop := exists s, it = KS s.
Definition simple_key (key : list item) : Prop :=
  Forall (fun it => is_slice it \/ exists z, it = KI z) key \/
  exists pre it post, key = pre ++ it :: post /\ Forall is_slice pre /\ Forall is_slice post.

(** Element [idx] of the selection is element [p] of the array. *)
Inductive reaches : list nat -> list item -> list nat -> list nat -> Prop :=
| re_nil : reaches [] [] [] []
| re_rest n s i idx p : i < n -> reaches s [] idx p -> reaches (n :: s) [] (i :: idx) (i :: p)
| re_int n s z key i idx p : py_index n z i -> reaches s key idx p -> reaches (n :: s) (KI z :: key) idx (i :: p)
| re_many n s it key k i idx p : item_pos n it k i -> reaches s key idx p -> reaches (n :: s) (it :: key) (k :: idx) (i :: p).
(** The shape of the selection: ints remove their dimension. *)
Inductive result_shape : list nat -> list item -> list nat -> Prop :=
| rs_rest s : result_shape s [] s
| rs_int n s z key r : result_shape s key r -> result_shape (n :: s) (KI z :: key) r
| rs_many n s it key c r : (forall z, it <> KI z) -> (forall k, k < c <-> exists i, item_pos n it k i) ->
    result_shape s key r -> result_shape (n :: s) (it :: key) (c :: r).
(** Keys with a list or mask together with ints or with further lists or masks: the
    ints, lists and masks are run through together.  How many positions each has: *)
Inductive widths : list nat -> list item -> list nat -> Prop :=
| w_rest s : widths s [] []
| w_slice n s sl key ws : widths s key ws -> widths (n :: s) (KS sl :: key) ws
| w_int n s z key ws : widths s key ws -> widths (n :: s) (KI z :: key) (1 :: ws)
| w_many n s it key c ws : ~ is_slice it -> (forall z, it <> KI z) -> (forall k, k < c <-> exists i, item_pos n it k i) ->
    widths s key ws -> widths (n :: s) (it :: key) (c :: ws).
(** ... which must be one number [c], or 1. *)
Definition joined (ws : list nat) (c : nat) : Prop := Forall (fun m => m = 1 \/ m = c) ws /\ (c = 1 \/ In c ws).
(** The [k]-th position of such a component; a single one serves for every [k]. *)
Definition taken (n : nat) (it : item) (k i : nat) : Prop :=
  match it with
  | KI z => py_index n z i
  | _ => (item_pos n it 0 i /\ forall k', (exists i', item_pos n it k' i') -> k' = 0) \/
         (item_pos n it k i /\ exists k' i', k' <> 0 /\ item_pos n it k' i')
  end.
(** Element [k] along the common dimension and [b] along those of the slices is
    element [p] of the array. *)
Inductive together : list nat -> list item -> nat -> list nat -> list nat -> Prop :=
| to_nil k : together [] [] k [] []
| to_rest n s k i b p : i < n -> together s [] k b p -> together (n :: s) [] k (i :: b) (i :: p)
| to_slice n s sl key k j i b p : slice_pos n sl j i -> together s key k b p -> together (n :: s) (KS sl :: key) k (j :: b) (i :: p)
| to_taken n s it key k i b p : ~ is_slice it -> taken n it k i -> together s key k b p -> together (n :: s) (it :: key) k b (i :: p).
Inductive slices_shape : list nat -> list item -> list nat -> Prop :=
| ss_rest s : slices_shape s [] s
| ss_slice n s sl key c r : (forall k, k < c <-> exists i, slice_pos n sl k i) -> slices_shape s key r -> slices_shape (n :: s) (KS sl :: key) (c :: r)
| ss_taken n s it key r : ~ is_slice it -> slices_shape s key r -> slices_shape (n :: s) (it :: key) r.
(** The common dimension stands where the components stand when no slice is between
    them, and in front otherwise. *)
Definition one_block (key : list item) (q : nat) : Prop :=
  exists pre mid post, key = pre ++ mid ++ post /\ Forall is_slice pre /\ mid <> [] /\ Forall (fun it => ~ is_slice it) mid /\ Forall is_slice post /\ length pre = q.
Definition stands_at (key : list item) (q : nat) : Prop := one_block key q \/ (q = 0 /\ forall q', ~ one_block key q').
Definition joint_reaches (s : list nat) (key : list item) (idx p : list nat) : Prop :=
  exists ws c b1 k b2, widths s key ws /\ joined ws c /\ k < c /\ stands_at key (length b1) /\ idx = b1 ++ k :: b2 /\ together s key k (b1 ++ b2) p.
Definition joint_shape (s : list nat) (key : list item) (r : list nat) : Prop :=
  exists ws c r1 r2, widths s key ws /\ joined ws c /\ stands_at key (length r1) /\ r = r1 ++ c :: r2 /\ slices_shape s key (r1 ++ r2).
(** A list or a mask is in the key. *)
Definition with_list (key : list item) : Prop := exists it, In it key /\ ~ is_slice it /\ forall z, it <> KI z.
(** Under a mask with the shape of the array: the [k]-th true position. *)
Definition mask_reaches (m : arr bool) (idx p : list nat) : Prop :=
  aget m p = Some true /\ exists q, flat (ashape m) p = Some q /\ idx = [trues (firstn q (adata m))].

(** The value that element [idx] of a selection of shape [r] receives: an
    interval or number for all; an array by broadcasting to [r], after leading
    dimensions 1 in excess are dropped. *)
Definition same_but_leading_ones (s s' : list nat) (k : nat) : Prop :=
  exists j, s = repeat 1 j ++ s' /\ (j = 0 \/ k <= length s') /\ length s' <= k.
Definition fits (a : arr itv) (r : list nat) (a' : arr itv) : Prop :=
  adata a' = adata a /\ same_but_leading_ones (ashape a) (ashape a') (length r) /\ broadcast_shape (ashape a') r r.
Definition gives (v : setval) (r idx : list nat) (e : itv) : Prop :=
  match v with
  | VItv e' => e = e'
  | VNum c => e = mkitv Classical c c
  | VArr a => exists a', fits a r a' /\ reads a' idx e
  | VNums a => exists a', fits (amap (fun c => mkitv Classical c c) a) r a' /\ reads a' idx e
  end.
(** The value can be stored in a selection of that shape. *)
Definition storable (v : setval) (r : list nat) : Prop :=
  match v with
  | VItv _ | VNum _ => True
  | VArr a => exists a', fits a r a'
  | VNums a => adata a <> [] /\ exists a', fits (amap (fun c => mkitv Classical c c) a) r a'
  end.
Definition is_array (v : setval) : Prop := match v with VArr _ | VNums _ => True | _ => False end.
Definition well_formed (v : setval) : Prop := match v with VArr a => awf a | VNums a => awf a | _ => True end.
(** All components are ints and there is one for each dimension. *)
Definition full_int_key (s : list nat) (key : list item) : Prop := length key = length s /\ Forall (fun it => exists z, it = KI z) key.
(** In the order of the elements of an array of shape [r], [i] is not after [j]. *)
Definition not_after (r i j : list nat) : Prop := forall a b, flat r i = Some a -> flat r j = Some b -> a <= b.
(** What an assignment of [v] to a selection of shape [r], given by the relation
    [sel idx p], does to the elements: the positions reached hold their value (if
    one is reached several times, the last), the others keep theirs. *)
Definition assigned (sel : list nat -> list nat -> Prop) (r : list nat) (v : setval) (x y : aitv) : Prop :=
  forall p, in_bounds (shp x) p ->
    (exists idx e, sel idx p /\ gives v r idx e /\ aget (adat y) p = Some e /\ forall idx', sel idx' p -> not_after r idx' idx) \/
    ((forall idx, ~ sel idx p) /\ aget (adat y) p = aget (adat x) p).
(** [z] is the selection as a new array. *)
Definition selected (sel : list nat -> list nat -> Prop) (r : list nat) (x z : aitv) : Prop :=
  consistent z /\ shp z = r /\
  forall idx, in_bounds r idx -> exists p, sel idx p /\ exists e, aget (adat x) p = Some e /\ aget (adat z) idx = Some e.
(** [z] holds the value [v] assigned to the selection: at every index the value of the
    last index that names the same element of the array. *)
Definition read_back (sel : list nat -> list nat -> Prop) (r : list nat) (v : setval) (z : aitv) : Prop :=
  consistent z /\ shp z = r /\
  forall idx, in_bounds r idx -> exists p last e, sel idx p /\ sel last p /\ (forall idx', sel idx' p -> not_after r idx' last) /\
    gives v r last e /\ aget (adat z) idx = Some e.
