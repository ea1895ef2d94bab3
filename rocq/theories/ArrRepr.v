(** The printed form of an interval array (real_intervals.py:21-22). *)
From Coq Require Import ZArith List Bool Ascii String Lia.
Import ListNotations.
Open Scope string_scope.

Definition newline : ascii := ascii_of_nat 10.
(** [s.rfind('\n') + 1] characters are dropped: the length of the last line. *)
Fixpoint last_line (s : string) : string :=
  match s with
  | EmptyString => EmptyString
  | String c t => if existsb (Ascii.eqb newline) (list_ascii_of_string t) then last_line t
                  else if Ascii.eqb newline c then t else s
  end.
(** Python's [s[i:-j]] for [0 < j]. *)
Definition slice (i j : nat) (s : string) : string := substring i (String.length s - j - i) s.

(** numpy's repr of an object array (numpy/core/arrayprint.py,
    [_array_repr_implementation]): [body] is what [array2string] gives for the
    elements; the type is put on a new line when the last line would become
    longer than [width] (75 unless set otherwise). *)
Definition np_repr (width : nat) (body : string) : string :=
  let s := "array(" ++ body ++ "," in
  let spacer := if (width <? String.length (last_line s) + 14)%nat then String newline "      " else " " in
  s ++ spacer ++ "dtype=object)".
(** real_intervals.py:21-22 *)
Definition arr_repr (width : nat) (body : string) : string := "Interval" ++ slice 5 15 (np_repr width body) ++ ")".
