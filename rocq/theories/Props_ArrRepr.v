(** C89: the printed form of interval arrays. *)
From Coq Require Import ZArith List Bool Ascii String Lia.
From Verif Require Import Base PyNum Kernel Repr ArrRepr ArrReprProofs.
Import ListNotations.
Open Scope string_scope.

(** [body] is numpy's text of the elements, brackets included. *)
Theorem C89_short_last_line : forall width body last,
  ~ List.In newline (list_ascii_of_string last) ->
  ("array(" ++ body ++ "," = last \/ exists before, "array(" ++ body ++ "," = before ++ String newline last) ->
  (String.length last + 14 <= width)%nat ->
  arr_repr width body = "Interval(" ++ body ++ ")".
Proof. exact arr_repr_fits. Qed.
Print Assumptions C89_short_last_line.
Theorem C89_long_last_line : forall width body last,
  ~ List.In newline (list_ascii_of_string last) ->
  ("array(" ++ body ++ "," = last \/ exists before, "array(" ++ body ++ "," = before ++ String newline last) ->
  (width < String.length last + 14)%nat ->
  arr_repr width body = "Interval(" ++ body ++ String "," (String newline "    )").
Proof. exact arr_repr_overflows. Qed.
Print Assumptions C89_long_last_line.
(** A vector of four intervals, on one line of the usual 75 characters. *)
Theorem C89_closes_refuted : exists X Y s t body, repr X = Ok s /\ repr Y = Ok t /\ body = "[" ++ s ++ ", " ++ t ++ ", " ++ s ++ ", " ++ t ++ "]" /\
  (String.length body <= 68)%nat /\ arr_repr 75 body <> "Interval(" ++ body ++ ")".
Proof. exact arr_repr_refuted. Qed.
Print Assumptions C89_closes_refuted.

Example C89_case : arr_repr 75 "['[1, 2]', '[3, 4]']" = "Interval(['[1, 2]', '[3, 4]'])" /\
  arr_repr 75 ("[['[1, 2]']," ++ String newline "       ['[3, 4]']]") = "Interval([['[1, 2]']," ++ String newline "       ['[3, 4]']])".
Proof. split; vm_compute; reflexivity. Qed.
