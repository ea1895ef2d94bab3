(** The shape of nested lists. *)
From Coq Require Import List Arith Bool Lia.
From Verif Require Import Base GetShape SpecGetShape.
Import ListNotations.

Lemma all_len_ok n l : (forall x, In x l -> py_len x = Ok n) -> all_len n l = Ok tt.
Proof.
  induction l as [|x l IH]; intro H; [reflexivity|]. simpl. rewrite (H x) by (left; reflexivity). cbn [rbind]. rewrite Nat.eqb_refl. apply IH. intros y Hy. apply H. now right.
Qed.
Lemma has_shape_ind' (P : list nat -> shaped -> Prop) : P [] SNum ->
  (forall s x l, Forall (has_shape s) (x :: l) -> Forall (P s) (x :: l) -> P (length (x :: l) :: s) (SSeq (x :: l))) ->
  forall s x, has_shape s x -> P s x.
Proof.
  intros P0 P1. fix IH 3. intros s x [|s' y l F]; [exact P0|]. apply P1; [assumption|].
  revert F. generalize (y :: l). fix IHl 2. intros l0 F. destruct F as [|z l1 Hz Fz]; constructor; [exact (IH _ _ Hz) | exact (IHl _ Fz)].
Qed.
Lemma regular_shape s x : has_shape s x -> forall acc, get_shape x acc = Ok (acc ++ s).
Proof.
  intro H. induction H as [|s x l F IH] using has_shape_ind'; intro acc; [now rewrite app_nil_r|].
  inversion F as [|? ? Hx Fl]; subst. inversion IH as [|? ? IHx _]; subst. cbn [get_shape].
  assert (E : (if is_seq x then n <~ py_len x ;; all_len n (x :: l) else Ok tt) = Ok tt).
  { destruct (is_seq x) eqn:Sx; [|reflexivity]. inversion Hx as [|s0 y l0 F0]; subst; [discriminate|]. cbn [py_len]. cbn [rbind]. apply all_len_ok.
    intros z Hz. rewrite Forall_forall in F. specialize (F z Hz). inversion F; subst. cbn [py_len length] in *. f_equal. lia. }
  rewrite E. cbn [rbind]. rewrite IHx, <- app_assoc. reflexivity.
Qed.
Lemma all_len_lists n l : Forall nested_list l -> (all_len n l = Ok tt <-> Forall (list_of n) l).
Proof.
  induction l as [|x l IH]; intro F; [split; auto|]. inversion F as [|? ? Nx Fl]; subst. destruct Nx as [|lx Fx]; simpl.
  - split; [discriminate|]. intro H. inversion H as [|? ? (l0 & E & _) _]; subst. discriminate.
  - destruct (Nat.eqb_spec (length lx) n) as [E|E].
    + rewrite (IH Fl). split; [intro H; constructor; [exists lx; auto|assumption] | intro H; now inversion H].
    + split; [discriminate|]. intro H. inversion H as [|? ? (l0 & E0 & E1) _]; subst. inversion E0; subst. contradiction.
Qed.
Lemma leftmost_shape : forall x, nested_list x -> forall acc r, get_shape x acc = Ok r <-> exists s, r = acc ++ s /\ leftmost s x.
Proof.
  fix IH 1. intros x N acc r. destruct x as [| | | |[|y l]].
  - split.
    + intro E. inversion E; subst. exists []. split; [now rewrite app_nil_r | constructor].
    + intros (s & -> & L). inversion L; subst. now rewrite app_nil_r.
  - inversion N.
  - inversion N.
  - inversion N.
  - split; [discriminate|]. intros (s & _ & L). inversion L.
  - assert (F : Forall nested_list (y :: l)) by (now inversion N). inversion F as [|? ? Ny Fl]; subst.
    assert (C : (if is_seq y then n <~ py_len y ;; all_len n (y :: l) else Ok tt) = Ok tt <-> (forall n, list_of n y -> Forall (list_of n) l)).
    { destruct Ny as [|ly Fy]; simpl is_seq; cbv iota.
      - split; [|reflexivity]. intros _ n (l0 & E & _). discriminate.
      - cbn [py_len rbind]. rewrite (all_len_lists _ _ F). split.
        + intros H n (l0 & E & En). inversion E; subst. now inversion H.
        + intro H. constructor; [exists ly; auto|]. apply H. exists ly. auto. }
    cbn [get_shape]. split.
    + intro E. destruct (if is_seq y then n <~ py_len y ;; all_len n (y :: l) else Ok tt) as [u|] eqn:Ec; [|discriminate]. cbn [rbind] in E. destruct u.
      apply (IH y Ny) in E. destruct E as (s & -> & L). exists (length (y :: l) :: s). split; [now rewrite <- app_assoc | constructor; [assumption|now apply C]].
    + intros (s & -> & L). inversion L as [|? ? s0 L0 H0]; subst. rewrite (proj2 C H0). cbn [rbind]. apply (IH y Ny). exists s0. split; [now rewrite <- app_assoc|assumption].
Qed.

(** C76: regular nested lists get their shape. *)
Theorem C76_regular : forall s x, has_shape s x -> get_shape x [] = Ok s.
Proof. intros s x H. exact (regular_shape s x H []). Qed.
Print Assumptions C76_regular.

(** C76: an ndarray gets its shape. *)
Theorem C76_ndarray : forall n s, get_shape (SNd (n :: s)) [] = Ok (n :: s).
Proof. reflexivity. Qed.
Print Assumptions C76_ndarray.

(** C76: for any nested lists: there is a result exactly when on each level along
    the first elements a list is followed by lists of the same length, and the
    result is those lengths. *)
Theorem C76_reads_first_elements : forall x r, nested_list x -> (get_shape x [] = Ok r <-> leftmost r x).
Proof.
  intros x r N. rewrite (leftmost_shape x N [] r). split; [intros (s & -> & L); exact L | intro L; exists r; auto].
Qed.
Print Assumptions C76_reads_first_elements.

(** C76: ragged lists are not always rejected, and arrays in lists and interval
    arrays get wrong shapes or raise. *)
Theorem C76_ragged_refuted :
  (exists x r, nested_list x /\ get_shape x [] = Ok r /\ forall s, ~ has_shape s x) /\
  (forall n t l, get_shape (SSeq (SNd (n :: t) :: l)) [] = Ok (n :: t)) /\
  (forall n, n <> 0 -> n <> 1 -> get_shape (SIArr [n]) [] = Err TypeError) /\ get_shape (SIArr [0]) [] = Err IndexError /\ get_shape (SIArr [1]) [] = Ok [] /\
  (forall n, n <> 0 -> n <> 1 -> get_shape (SIArr [n; 1]) [] = Ok [n]) /\
  get_shape SItv [] = Err TypeError /\ get_shape (SSeq []) [] = Err IndexError.
Proof.
  split.
  - exists (SSeq [SSeq [SNum; SNum]; SSeq [SSeq [SNum]; SNum]]), [2; 2]. split.
    + repeat constructor.
    + split; [reflexivity|]. intros s H. inversion H as [|s0 x0 l0 F]; subst. inversion F as [|? ? H1 F1]; subst. inversion F1 as [|? ? H2 _]; subst.
      inversion H1 as [|s1 x1 l1 F2 E1]; subst. inversion F2 as [|? ? H3 _]; subst. inversion H3; subst.
      inversion H2 as [|s2 x2 l2 F3]; subst. inversion F3 as [|? ? H4 _]; subst. inversion H4.
  - split; [reflexivity|]. split.
    + intros n Hn0 Hn. simpl. destruct (Nat.eqb_spec n 1); [contradiction|]. destruct (Nat.eqb_spec n 0); [contradiction|reflexivity].
    + split; [reflexivity|]. split; [reflexivity|]. split; [|split; reflexivity]. intros n H0 H1. simpl. destruct (Nat.eqb_spec n 1); [contradiction|]. destruct (Nat.eqb_spec n 0); [contradiction|]. reflexivity.
Qed.
Print Assumptions C76_ragged_refuted.

(** [[1, 2, 3], [4, 5, 6]] *)
Example C76_case : has_shape [2; 3] (SSeq [SSeq [SNum; SNum; SNum]; SSeq [SNum; SNum; SNum]]) /\
  get_shape (SSeq [SSeq [SNum; SNum; SNum]; SSeq [SNum; SNum]]) [] = Err ValueError.
Proof.
  split; [|reflexivity].
  assert (R : has_shape [3] (SSeq [SNum; SNum; SNum])) by (apply (hs_list [] SNum [SNum; SNum]); repeat constructor).
  apply (hs_list [3] _ [SSeq [SNum; SNum; SNum]]). constructor; [exact R|]. constructor; [exact R|constructor].
Qed.
