(** Proofs about the printed form of arrays. *)
From Coq Require Import ZArith List Bool Ascii String Lia.
From Verif Require Import Base PyNum Kernel Repr ArrRepr.
Import ListNotations.
Open Scope string_scope.

Lemma app_len (a b : string) : String.length (a ++ b) = (String.length a + String.length b)%nat.
Proof. induction a; simpl; congruence. Qed.
Lemma app_ass (a b c : string) : (a ++ b) ++ c = a ++ (b ++ c).
Proof. induction a; simpl; congruence. Qed.
Lemma sub_pre (m t : string) : substring 0 (String.length m) (m ++ t) = m.
Proof. induction m; simpl; [destruct t; reflexivity | congruence]. Qed.
Lemma sub_mid (p m t : string) : substring (String.length p) (String.length m) (p ++ m ++ t) = m.
Proof. induction p; simpl; [apply sub_pre | assumption]. Qed.
Lemma slice_mid (p m t : string) i j : String.length p = i -> String.length t = j -> slice i j (p ++ m ++ t) = m.
Proof.
  intros <- <-. unfold slice. rewrite !app_len. replace (_ - _)%nat with (String.length m) by lia. apply sub_mid.
Qed.

Theorem arr_repr_short w body : (String.length (last_line ("array(" ++ body ++ ",")) + 14 <= w)%nat -> arr_repr w body = "Interval(" ++ body ++ ")".
Proof.
  intro H. unfold arr_repr, np_repr. cbv zeta. rewrite (proj2 (Nat.ltb_ge _ _) H).
  replace (("array(" ++ body ++ ",") ++ " " ++ "dtype=object)") with ("array" ++ ("(" ++ body) ++ ", dtype=object)") by (rewrite !app_ass; reflexivity).
  rewrite slice_mid by reflexivity. rewrite app_ass. reflexivity.
Qed.
Theorem arr_repr_long w body : (w < String.length (last_line ("array(" ++ body ++ ",")) + 14)%nat ->
  arr_repr w body = "Interval(" ++ body ++ String "," (String newline "    )").
Proof.
  intro H. unfold arr_repr, np_repr. cbv zeta. rewrite (proj2 (Nat.ltb_lt _ _) H).
  replace (("array(" ++ body ++ ",") ++ String newline "      " ++ "dtype=object)")
    with ("array" ++ ("(" ++ body ++ String "," (String newline "    ")) ++ "  dtype=object)") by (rewrite !app_ass; reflexivity).
  rewrite slice_mid by reflexivity. rewrite !app_ass. reflexivity.
Qed.
(** What [last_line] means. *)
Lemma mem_newline (s : string) : existsb (Ascii.eqb newline) (list_ascii_of_string s) = true <-> List.In newline (list_ascii_of_string s).
Proof.
  rewrite existsb_exists. split; [intros (x & H & E); apply Ascii.eqb_eq in E; now subst | intro H; exists newline; split; [exact H | apply Ascii.eqb_refl]].
Qed.
Theorem last_line_spec s : ~ List.In newline (list_ascii_of_string (last_line s)) /\
  (last_line s = s \/ exists p, s = p ++ String newline (last_line s)).
Proof.
  induction s as [|c t [I1 I2]]; [split; [intros [] | now left]|]. cbn [last_line].
  destruct (existsb _ _) eqn:E.
  - split; [exact I1|]. right. destruct I2 as [I2 | [p I2]]; [exfalso; rewrite I2 in I1; apply I1; now apply mem_newline | exists (String c p); change (String c t = String c (p ++ String newline (last_line t))); now rewrite <- I2].
  - assert (N : ~ List.In newline (list_ascii_of_string t)) by (intro C; apply mem_newline in C; congruence).
    destruct (Ascii.eqb newline c) eqn:Ec.
    + apply Ascii.eqb_eq in Ec. subst c. split; [exact N|]. right. now exists EmptyString.
    + split; [|now left]. cbn. intros [-> |C]; [rewrite Ascii.eqb_refl in Ec; discriminate | contradiction].
Qed.

Lemma no_newline_last (u : string) : ~ List.In newline (list_ascii_of_string u) -> last_line u = u.
Proof.
  destruct u as [|c t]; [reflexivity|]. cbn [last_line list_ascii_of_string List.In]. intro H.
  destruct (existsb _ _) eqn:E; [exfalso; apply H; right; now apply mem_newline|].
  destruct (Ascii.eqb newline c) eqn:Ec; [apply Ascii.eqb_eq in Ec; exfalso; apply H; now left | reflexivity].
Qed.
Lemma after_newline (p u : string) : ~ List.In newline (list_ascii_of_string u) -> last_line (p ++ String newline u) = u.
Proof.
  intro H. induction p as [|c p IH].
  - cbn [append last_line]. destruct (existsb _ _) eqn:E; [exfalso; apply H; now apply mem_newline|]. now rewrite Ascii.eqb_refl.
  - cbn [append last_line]. destruct (existsb _ _) eqn:E; [exact IH|].
    exfalso. assert (existsb (Ascii.eqb newline) (list_ascii_of_string (p ++ String newline u)) = true); [|congruence].
    apply mem_newline. clear. induction p; cbn; auto.
Qed.
Lemma last_is s u : ~ List.In newline (list_ascii_of_string u) -> (s = u \/ exists p, s = p ++ String newline u) -> last_line s = u.
Proof. intros H [-> | [p ->]]; [now apply no_newline_last | now apply after_newline]. Qed.
Theorem arr_repr_fits w body u : ~ List.In newline (list_ascii_of_string u) ->
  ("array(" ++ body ++ "," = u \/ exists p, "array(" ++ body ++ "," = p ++ String newline u) -> (String.length u + 14 <= w)%nat ->
  arr_repr w body = "Interval(" ++ body ++ ")".
Proof. intros H E L. apply arr_repr_short. now rewrite (last_is _ u H E). Qed.
Theorem arr_repr_overflows w body u : ~ List.In newline (list_ascii_of_string u) ->
  ("array(" ++ body ++ "," = u \/ exists p, "array(" ++ body ++ "," = p ++ String newline u) -> (w < String.length u + 14)%nat ->
  arr_repr w body = "Interval(" ++ body ++ String "," (String newline "    )").
Proof. intros H E L. apply arr_repr_long. now rewrite (last_is _ u H E). Qed.
Theorem arr_repr_refuted : exists X Y s t body, repr X = Ok s /\ repr Y = Ok t /\ body = "[" ++ s ++ ", " ++ t ++ ", " ++ s ++ ", " ++ t ++ "]" /\
  (String.length body <= 68)%nat /\ arr_repr 75 body <> "Interval(" ++ body ++ ")".
Proof.
  exists (mkitv Classical (PInt (-100)) (PInt 100)), (mkitv Classical (PInt (-200)) (PInt 200)).
  eexists. eexists. eexists. split; [vm_compute; reflexivity|]. split; [vm_compute; reflexivity|]. split; [reflexivity|].
  split; [vm_compute; lia|]. vm_compute. discriminate.
Qed.
