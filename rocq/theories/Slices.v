(** Model of kernel/real_intervals.py:213-229 (item access) with keys made of
    integers, slices, lists of integers and masks. *)
From Coq Require Import ZArith List Bool Arith.
From Verif Require Import Base PyNum Kernel Expr Arrays Construct.
Import ListNotations.

(** Python's slice objects and [slice.indices(n)]. (for real_intervals.py:213-229) *)
Record slice : Type := mkslice { s_start : option Z; s_stop : option Z; s_step : option Z }.
Definition clamp (down : bool) (n z : Z) : Z :=
  let z := if (z <? 0)%Z then (z + n)%Z else z in
  if (z <? 0)%Z then (if down then -1 else 0)%Z
  else if (n <=? z)%Z then (if down then n - 1 else n)%Z else z.
Definition slice_indices (n : nat) (s : slice) : res (list nat) :=
  let n := Z.of_nat n in
  let step := match s_step s with Some k => k | None => 1%Z end in
  if (step =? 0)%Z then Err ValueError
  else
    let down := (step <? 0)%Z in
    let start := match s_start s with Some z => clamp down n z | None => if down then (n - 1)%Z else 0%Z end in
    let stop := match s_stop s with Some z => clamp down n z | None => if down then (-1)%Z else n end in
    let len := if down then (if (stop <? start)%Z then ((start - stop - 1) / (- step) + 1)%Z else 0%Z)
               else (if (start <? stop)%Z then ((stop - start - 1) / step + 1)%Z else 0%Z) in
    Ok (map (fun k => Z.to_nat (start + Z.of_nat k * step)) (seq 0 (Z.to_nat len))).

(** One component of a key: an int, a slice, a list of ints, a mask (list of
    bools). (real_intervals.py:213-229) *)
Inductive item : Type := KI (z : Z) | KS (s : slice) | KL (zs : list Z) | KM (bs : list bool).
(** What it selects along a dimension: one position (the dimension goes away)
    or a list of positions. (numpy, for real_intervals.py:213-229) *)
Inductive sel : Type := One (i : nat) | Many (l : list nat).
Fixpoint mask_positions (k : nat) (bs : list bool) : list nat :=
  match bs with [] => [] | b :: bs' => if b then k :: mask_positions (S k) bs' else mask_positions (S k) bs' end.
Definition axis (n : nat) (k : item) : res sel :=
  match k with
  | KI z => i <~ norm_index n z ;; Ok (One i)
  | KS s => l <~ slice_indices n s ;; Ok (Many l)
  | KL zs => l <~ rmapl (norm_index n) zs ;; Ok (Many l)
  | KM bs => if (length bs =? n)%nat then Ok (Many (mask_positions 0 bs)) else Err IndexError
  end.
(** Missing components select everything. (numpy, for real_intervals.py:213-229) *)
Fixpoint axes (s : list nat) (key : list item) : res (list sel) :=
  match s, key with
  | [], [] => Ok []
  | n :: s', [] => r <~ axes s' [] ;; Ok (Many (seq 0 n) :: r)
  | n :: s', k :: key' => a <~ axis n k ;; r <~ axes s' key' ;; Ok (a :: r)
  | [], _ :: _ => Err IndexError
  end.
(** Ints and slices, or one list or mask among slices: every component acts on its
    own dimension.  Other keys with lists or masks follow numpy's rules for
    "advanced" indices below. (numpy, for real_intervals.py:213-229) *)
Definition is_adv (k : item) : bool := match k with KL _ | KM _ => true | _ => false end.
Definition is_int (k : item) : bool := match k with KI _ => true | _ => false end.
Definition separate (key : list item) : bool :=
  match filter is_adv key with [] => true | [_] => negb (existsb is_int key) | _ => false end.
Definition read_key (s : list nat) (key : list item) : res (list sel) :=
  if (length s <? length key)%nat then Err IndexError else axes s key.

Fixpoint sel_shape (l : list sel) : list nat :=
  match l with [] => [] | One _ :: r => sel_shape r | Many p :: r => length p :: sel_shape r end.
(** The index in the array of the element at [idx] of the selection.
    (numpy, for real_intervals.py:213-229) *)
Fixpoint sel_source (l : list sel) (idx : list nat) : list nat :=
  match l with
  | [] => []
  | One i :: r => i :: sel_source r idx
  | Many p :: r => match idx with j :: idx' => nth j p 0 :: sel_source r idx' | [] => [] end
  end.
Definition all_one (l : list sel) : bool := forallb (fun a => match a with One _ => true | Many _ => false end) l.

(** What a key selects: the shape of the selection, for each of its indices the
    index in the array, and whether it is a single element.
    (numpy, for real_intervals.py:213-229) *)
Record selection : Type := mksel { sshape : list nat; ssrc : list nat -> list nat; sone : bool }.
(** Several lists or masks, or one with ints: these components are run through
    together (one of a single position, or an int, is used again and again); their
    common dimension stands where they stand if no slice is between them, otherwise
    in front.  [joint]: which components take part. (numpy, for real_intervals.py:213-229) *)
Definition joint (key : list item) : list bool := map (fun k => is_adv k || is_int k) key.
Definition sel_len (a : sel) : nat := match a with One _ => 1 | Many p => length p end.
Fixpoint joint_lens (l : list sel) (fl : list bool) : list nat :=
  match l, fl with
  | a :: l', true :: fl' => sel_len a :: joint_lens l' fl'
  | _ :: l', false :: fl' => joint_lens l' fl'
  | _, _ => []
  end.
Fixpoint slice_lens (l : list sel) (fl : list bool) : list nat :=
  match l with
  | [] => []
  | a :: l' => match fl with
               | true :: fl' => slice_lens l' fl'
               | _ :: fl' => sel_len a :: slice_lens l' fl'
               | [] => sel_len a :: slice_lens l' []
               end
  end.
Definition common (ls : list nat) : res nat :=
  match filter (fun k => negb (k =? 1)) ls with
  | [] => Ok 1
  | k :: r => if forallb (Nat.eqb k) r then Ok k else Err IndexError
  end.
(** The position [k] along the common dimension, [b] along the others.
    (numpy, for real_intervals.py:213-229) *)
Definition joint_pos (a : sel) (k : nat) : nat :=
  match a with One i => i | Many p => nth (if length p =? 1 then 0 else k) p 0 end.
Definition slice_at (a : sel) (j : nat) : nat := match a with One i => i | Many p => nth j p 0 end.
Fixpoint joint_source (l : list sel) (fl : list bool) (k : nat) (b : list nat) : list nat :=
  match l with
  | [] => []
  | a :: l' => match fl with
               | true :: fl' => joint_pos a k :: joint_source l' fl' k b
               | _ :: fl' => match b with j :: b' => slice_at a j :: joint_source l' fl' k b' | [] => [] end
               | [] => match b with j :: b' => slice_at a j :: joint_source l' [] k b' | [] => [] end
               end
  end.
Fixpoint run (f : bool) (fl : list bool) : nat := match fl with g :: fl' => if Bool.eqb f g then S (run f fl') else 0 | [] => 0 end.
Definition place (fl : list bool) : nat :=
  let k := run false fl in let rest := skipn k fl in
  if existsb (fun f => f) (skipn (run true rest) rest) then 0 else k.
Definition select_joint (s : list nat) (key : list item) : res selection :=
  l <~ read_key s key ;;
  let fl := joint key in
  c <~ common (joint_lens l fl) ;;
  let r := slice_lens l fl in let q := place fl in
  Ok (mksel (firstn q r ++ c :: skipn q r) (fun idx => joint_source l fl (nth q idx 0) (firstn q idx ++ skipn (S q) idx)) false).
Definition select_key (s : list nat) (key : list item) : res selection :=
  if separate key then l <~ read_key s key ;; Ok (mksel (sel_shape l) (sel_source l) (all_one l))
  else select_joint s key.
(** A mask with the shape of the array selects the elements under [True], in
    order. (numpy, for real_intervals.py:213-229) *)
Definition mask_indices (m : arr bool) : list (list nat) :=
  filter (fun p => match aget m p with Some b => b | None => false end) (indices (ashape m)).
Definition select_mask (s : list nat) (m : arr bool) : res selection :=
  if list_eq_dec Nat.eq_dec (ashape m) s
  then let l := mask_indices m in Ok (mksel [length l] (fun idx => nth (hd 0 idx) l []) false)
  else Err IndexError.

(** real_intervals.py:213-218: the interval when the selection is one element,
    otherwise a new array. *)
Definition elem (a : arr itv) (idx : list nat) : itv := match aget a idx with Some e => e | None => mkitv Classical pn0 pn0 end.
Definition get_sel (x : aitv) (c : selection) : ivres :=
  if sone c then RItv (elem (adat x) (ssrc c []))
  else RArr (array_interval (of_fun (sshape c) (fun idx => elem (adat x) (ssrc c idx)))).
Definition getkey (x : aitv) (key : list item) : res ivres :=
  c <~ select_key (ashape (adat x)) key ;; Ok (get_sel x c).
Definition getmask (x : aitv) (m : arr bool) : res ivres :=
  c <~ select_mask (ashape (adat x)) m ;; Ok (get_sel x c).

(** real_intervals.py:220-229: the value is an interval, an interval array, a
    number, or an array of numbers (which become point intervals). *)
Inductive setval : Type := VItv (e : itv) | VArr (a : arr itv) | VNum (c : pynum) | VNums (a : arr pynum).
Definition point (c : pynum) : itv := mkitv Classical c c.
(** numpy drops leading dimensions 1 of a value with too many dimensions.
    (numpy, for real_intervals.py:220-229) *)
Fixpoint strip (k : nat) (s : list nat) : list nat :=
  match s with 1 :: t => if (k <? length s)%nat then strip k t else s | _ => s end.
Definition fit (r : list nat) (a : arr itv) : res (list nat -> itv) :=
  let a' := mkarr (strip (length r) (ashape a)) (adata a) in
  match bcast (ashape a') r with
  | Some r' => if list_eq_dec Nat.eq_dec r' r then Ok (fun idx => match bget a' idx with Some e => e | None => mkitv Classical pn0 pn0 end) else Err ValueError
  | None => Err ValueError
  end.
(** A full int key with an array as value stores the array object itself in the
    place of the element; this is not modelled, NotImplementedError stands for it.
    (real_intervals.py:220-229) *)
Definition values (c : selection) (v : setval) : res (list nat -> itv) :=
  match v with
  | VItv e => Ok (fun _ => e)
  | VNum u => Ok (fun _ => point u)
  | VArr a => if sone c then Err NotImplementedError else fit (sshape c) a
  | VNums a => match adata a with
               | [] => Err ValueError
               | _ => if sone c then Err NotImplementedError else fit (sshape c) (amap point a)
               end
  end.
(** The elements are written one after the other. (real_intervals.py:220-229) *)
Definition write (c : selection) (f : list nat -> itv) (a : arr itv) : arr itv :=
  mkarr (ashape a) (fold_left (fun d idx => match flat (ashape a) (ssrc c idx) with Some k => set_nth k (f idx) d | None => d end)
                              (indices (sshape c)) (adata a)).
Definition set_sel (x : aitv) (c : selection) (v : setval) : res aitv :=
  f <~ values c v ;; Ok (mkaitv (write c f (adat x)) (shp x)).
Definition setkey (x : aitv) (key : list item) (v : setval) : res aitv :=
  c <~ select_key (ashape (adat x)) key ;; set_sel x c v.
Definition setmask (x : aitv) (m : arr bool) (v : setval) : res aitv :=
  c <~ select_mask (ashape (adat x)) m ;; set_sel x c v.
