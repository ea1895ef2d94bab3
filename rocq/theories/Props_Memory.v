(** Which operations share memory: histories of commands on variables. *)
From Coq Require Import ZArith List Bool Arith Lia.
From Flocq Require Import IEEE754.BinarySingleNaN.
From Verif Require Import Base PyNum Kernel Expr Arrays Construct SpecArray Slices SpecSlices Memory SpecMemory MemoryProofs Props_Slices.
Import ListNotations.
Open Scope nat_scope.

(** C75: a program behaves as if every array object had a value of its own. *)
Theorem C75_objects : forall rm p, Forall pure_cmd p -> Forall given_ok p ->
  (forall v, show (run rm p) v = w_show (w_run rm p) v) /\
  (forall v u, is_same (run rm p) v u <-> w_is_same (w_run rm p) v u) /\
  outcomes rm start p = w_outcomes rm no_world p.
Proof. exact objects_have_values. Qed.
Print Assumptions C75_objects.

(** C75: changing one array leaves all other arrays alone. *)
Theorem C75_others_unchanged : forall rm p c w o v o', Forall given_ok p -> through c w ->
  vars (run rm p) w = Some (Obj o) -> vars (run rm p) v = Some (Obj o') -> o' <> o ->
  show (step rm (run rm p) c) v = show (run rm p) v.
Proof. exact others_unchanged. Qed.
Print Assumptions C75_others_unchanged.

(** C75: all other operations change no array. *)
Theorem C75_readers_change_nothing : forall rm p c v, Forall given_ok p -> (forall w, ~ through c w) -> (forall w idx e, c <> Put w idx e) -> target c <> Some v ->
  show (step rm (run rm p) c) v = show (run rm p) v.
Proof. exact readers_change_nothing. Qed.
Print Assumptions C75_readers_change_nothing.

(** C75: the numpy array x.data is x's memory until x is replaced by += or del. *)
Theorem C75_data_is_live : forall rm p q w h o, Forall given_ok p -> Forall given_ok q -> vars (run rm p) w = Some (Obj o) ->
  let m1 := step rm (run rm p) (Data h w) in let m2 := fold_left (step rm) q m1 in
  not_replaced rm m1 q o -> vars m2 h = vars m1 h ->
  (exists b sh src, vars m2 h = Some (View b sh src) /\ view_value m2 b sh src = adat (object m2 o)) /\
  forall idx e, in_bounds (ashape (adat (object m2 o))) idx -> exists m3, exec rm m2 (Put h idx e) = Ok m3 /\
    shp (object m3 o) = shp (object m2 o) /\ aget (adat (object m3 o)) idx = Some e /\
    (forall p, p <> idx -> aget (adat (object m3 o)) p = aget (adat (object m2 o)) p) /\
    (forall v o', vars m2 v = Some (Obj o') -> o' <> o -> show m3 v = show m2 v).
Proof. exact data_live. Qed.
Print Assumptions C75_data_is_live.

(** C75: after += or del, an x.data taken before is no array's memory any more. *)
Theorem C75_data_detached : forall rm p q r w h c u, Forall given_ok p -> Forall given_ok q -> Forall given_ok r ->
  forall o, vars (run rm p) w = Some (Obj o) ->
  let m1 := step rm (run rm p) (Data h w) in let m2 := fold_left (step rm) q m1 in
  not_replaced rm m1 q o -> replaces c u -> vars m2 u = Some (Obj o) -> forall m3, exec rm m2 c = Ok m3 ->
  let m4 := fold_left (step rm) r m3 in vars m4 h = vars m1 h ->
  forall idx e v, show (step rm m4 (Put h idx e)) v = show m4 v.
Proof. exact data_detached. Qed.
Print Assumptions C75_data_detached.

(** C75: the pieces met when iterating over a matrix are the matrix's memory. *)
Theorem C75_pieces_are_live : forall rm p w h o n n' s i, Forall given_ok p -> vars (run rm p) w = Some (Obj o) ->
  ashape (adat (object (run rm p) o)) = n :: n' :: s -> i < n ->
  exists m1, exec rm (run rm p) (Piece h w i) = Ok m1 /\
  forall idx e, in_bounds (n' :: s) idx -> exists m2, exec rm m1 (Put h idx e) = Ok m2 /\
    shp (object m2 o) = shp (object (run rm p) o) /\ aget (adat (object m2 o)) (i :: idx) = Some e /\
    (forall p', p' <> i :: idx -> aget (adat (object m2 o)) p' = aget (adat (object (run rm p) o)) p') /\
    (forall v o', v <> h -> vars (run rm p) v = Some (Obj o') -> o' <> o -> show m2 v = show (run rm p) v).
Proof. exact piece_live. Qed.
Print Assumptions C75_pieces_are_live.

(** x = 2 x 3 array; y = x; z = x[:, -1]; t = x.T; y[0, 0] = [7, 8];
    x changes with y, z and t do not; then x = asinterval(y); x += 1. *)
Definition prog : list cmd :=
  [New 0 (adat x23); Assign 1 0; Call 2 (MItem last_column) 0; Call 3 MTranspose 0;
   SetItem 1 [KI 0%Z; KI 0%Z] (SC (VItv (iv 7))); SetItem 3 [KI 5%Z] (SC (VItv (iv 7))); AsInterval 4 1].
Example C75_case : Forall pure_cmd prog /\ Forall given_ok prog /\
  show (run mode_NE prog) 0 = Some (Array (array_interval (mkarr [2; 3] (map iv [7; 11; 12; 20; 21; 22]%Z)))) /\
  show (run mode_NE prog) 2 = Some (Array (array_interval (mkarr [2] (map iv [12; 22]%Z)))) /\
  show (run mode_NE prog) 3 = Some (Array (array_interval (mkarr [3; 2] (map iv [10; 20; 11; 21; 12; 22]%Z)))) /\
  is_same (run mode_NE prog) 0 4 /\ outcomes mode_NE start prog = [None; None; None; None; None; Some IndexError; None].
Proof.
  split; [repeat constructor|]. split; [repeat constructor|]. split; [reflexivity|]. split; [reflexivity|]. split; [reflexivity|].
  split; [|reflexivity]. exists 0. split; reflexivity.
Qed.
(** The same array with a handle on its memory: writing through the handle is
    seen in x; after del x[0] it no longer is. *)
Example C75_handles : let m := run mode_NE (prog ++ [Data 5 0; Put 5 [1; 2] (iv 9)]) in
  show m 0 = Some (Array (array_interval (mkarr [2; 3] (map iv [7; 11; 12; 20; 21; 9]%Z)))) /\
  not_replaced mode_NE (step mode_NE (run mode_NE prog) (Data 5 0)) [Put 5 [1; 2] (iv 9)] 0 /\
  vars m 5 = vars (step mode_NE (run mode_NE prog) (Data 5 0)) 5 /\
  show (step mode_NE (step mode_NE m (DelItem 0 (KInt 0%Z))) (Put 5 [1; 2] (iv 3))) 4 = Some (Array (array_interval (mkarr [1; 3] (map iv [20; 21; 9]%Z)))) /\
  ashape (adat (object m 0)) = [2; 3].
Proof.
  cbv zeta. split; [reflexivity|]. split; [split; [intros w []|exact I]|]. split; [reflexivity|]. split; reflexivity.
Qed.

(** C75: a numpy array of intervals is no value for an item: x[key] = y.data raises, for
    every key, and so changes nothing. *)
Theorem C75_numpy_value : forall rm p h u w o o' key, vars (run rm p) u = Some (Obj o) -> w <> h -> vars (run rm p) w = Some (Obj o') ->
  let m1 := step rm (run rm p) (Data h u) in let y := adat (object (run rm p) o) in
  exec rm m1 (SetItem w key (SV h)) = Err (if size (ashape y) =? 0 then ValueError else AssertionError) /\
  step rm m1 (SetItem w key (SV h)) = m1.
Proof. exact numpy_value_raises. Qed.
Print Assumptions C75_numpy_value.
Example C75_numpy_value_case : vars (run mode_NE prog) 0 = Some (Obj 0) /\ 4 <> 6 /\ vars (run mode_NE prog) 4 = Some (Obj 0) /\
  exec mode_NE (step mode_NE (run mode_NE prog) (Data 6 0)) (SetItem 4 [KI 0%Z] (SV 6)) = Err AssertionError.
Proof. split; [reflexivity|]. split; [discriminate|]. split; reflexivity. Qed.
