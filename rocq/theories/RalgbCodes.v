(** The termination codes of ralgb5. *)
From Coq Require Import ZArith List Bool Arith Lia.
From Flocq Require Import IEEE754.BinarySingleNaN.
From Verif Require Import PyNum Ralgb5 SpecRalgb.
Import ListNotations.

Section R.
Variable OP : ops.
Variable P : params OP.
Variable calcfg : vct OP -> num OP * vct OP.
Variable x0 : vct OP.
Notation rec t := (record OP calcfg t x0).
Notation G x := (snd (calcfg x)).
Definition flat_at (y : vct OP) : Prop := n_lt OP (v_norm OP (G y)) (tolg OP P) = true.
(** The log of a state is [u ++ [x0]], its head the current point. *)
Definition ok (st : state OP) (u : list (vct OP)) : Prop :=
  s_trace OP st = u ++ [x0] /\ (exists v, s_trace OP st = s_x OP st :: v) /\ s_fr OP st = rec u /\ forall y, In y (s_trace OP st) -> ~ flat_at y.

Lemma search fuel : forall nit dx st g1 d cal deltax u t0, ok st u -> (cal <= 501)%nat -> (502 - cal <= fuel)%nat ->
  steps OP calcfg dx cal deltax t0 (s_trace OP st) ->
  (cal <> O -> d = v_dot OP dx (G (s_x OP st))) ->
  match line_search OP P calcfg fuel nit dx (v_norm OP dx) st g1 d cal deltax with
  | inl r => r_code OP (fst r) = 2%nat /\ exists y, In y (snd r) /\ flat_at y
  | inr (st', g1', cal', dlt) => exists u', ok st' (u' ++ u) /\ (cal' <= 501)%nat /\ steps OP calcfg dx cal' dlt t0 (s_trace OP st')
  end.
Proof.
  induction fuel as [|fuel IH]; intros nit dx st g1 d cal deltax u t0 I C Fu Hst D; [lia|]. cbn [line_search].
  destruct (n_lt OP (n_zero OP) d && (cal <=? 500)) eqn:E; [|exists []; split; [exact I | split; assumption]].
  apply andb_true_iff in E. destruct E as [E0 E]. apply Nat.leb_le in E.
  set (x := v_sub OP _ _). destruct (calcfg x) as [f g] eqn:Ec.
  assert (Ff : f = fst (calcfg x)) by (rewrite Ec; reflexivity). assert (Gg : g = G x) by (rewrite Ec; reflexivity).
  destruct I as (I1 & (v & I2) & I3 & I4).
  destruct (n_lt OP (v_norm OP g) (tolg OP P)) eqn:En.
  - split; [reflexivity|]. exists x. split; [left; reflexivity | unfold flat_at; rewrite <- Gg; exact En].
  - specialize (IH nit dx (mkstate OP x (if n_lt OP f (s_fr OP st) then x else s_xr OP st) (if n_lt OP f (s_fr OP st) then f else s_fr OP st)
      (if mod0 cal (nh OP P) then n_mul OP (s_hs OP st) (q2 OP P) else s_hs OP st) (S (s_ncalls OP st)) (x :: s_trace OP st)) g (v_dot OP dx g) (S cal)
      (n_add OP deltax (n_mul OP (s_hs OP st) (v_norm OP dx))) (x :: u) t0).
    assert (Q : ok (mkstate OP x (if n_lt OP f (s_fr OP st) then x else s_xr OP st) (if n_lt OP f (s_fr OP st) then f else s_fr OP st)
      (if mod0 cal (nh OP P) then n_mul OP (s_hs OP st) (q2 OP P) else s_hs OP st) (S (s_ncalls OP st)) (x :: s_trace OP st)) (x :: u)).
    { unfold ok. cbn [s_trace s_x s_fr]. split; [rewrite I1; reflexivity|]. split; [eauto|]. split; [cbn [record]; rewrite Ff, I3; reflexivity|].
      intros y [<-|Hy]; [unfold flat_at; rewrite <- Gg, En; discriminate | now apply I4]. }
    specialize (IH Q ltac:(lia) ltac:(lia)). cbn [s_trace s_x] in IH.
    assert (S' : steps OP calcfg dx (S cal) (n_add OP deltax (n_mul OP (s_hs OP st) (v_norm OP dx))) t0 (x :: s_trace OP st)).
    { unfold x. rewrite I2. apply steps_more; [rewrite <- I2; exact Hst|]. intro N. rewrite <- (D N). exact E0. }
    specialize (IH S' ltac:(intros _; now rewrite Gg)).
    destruct line_search as [r|[[[st' g1'] cal'] dlt]]; [exact IH|].
    destruct IH as (u' & A & B & T). exists (u' ++ [x]). rewrite <- app_assoc. repeat split; assumption || apply A.
Qed.

Lemma removelast_firstn' {A} k : forall (l : list A), (S k <= length l)%nat -> removelast (firstn (S k) l) = firstn k l.
Proof. intros l H. now apply removelast_firstn. Qed.

(** What each code says. *)
Definition code_meaning (r : result OP) (t : list (vct OP)) : Prop :=
  (r_code OP r = 2%nat <-> exists y, In y t /\ flat_at y) /\
  (r_code OP r = 5%nat -> exists dx len t0, steps OP calcfg dx 501 len t0 t) /\
  (r_code OP r = 3%nat -> exists dx k len t0, steps OP calcfg dx k len t0 t /\ n_lt OP len (tolx OP P) = true) /\
  (r_code OP r = 1%nat -> exists u ends, t = u ++ [x0] /\ iterations OP calcfg x0 (u :: ends) /\ length ends = S (r_nit OP r) /\
     n_lt OP (relative_to OP (rec u) (total_change OP calcfg (S (k_sims OP P)) x0 (u :: ends))) (tolf OP P) = true).

Lemma loop fuel : forall nit st B g0 vf u ends, ok st u -> iterations OP calcfg x0 (u :: ends) -> length ends = nit ->
  vf = firstn (S (k_sims OP P)) (changes OP calcfg x0 (u :: ends) ++ repeat (n_inf OP) (S (k_sims OP P))) ->
  let r := main_loop OP P calcfg fuel nit st B g0 vf in code_meaning (fst r) (snd r).
Proof.
  induction fuel as [|fuel IH]; intros nit st B g0 vf u ends I IT LN V; cbv zeta; cbn [main_loop].
  { unfold code_meaning. cbn [fst snd r_code]. split; [|repeat split; discriminate]. split; [discriminate|]. intros (y & Hy & Fy). now apply I in Hy. }
  destruct (Z.of_nat nit <=? maxiter OP P)%Z.
  2:{ unfold code_meaning. cbn [fst snd r_code]. split; [|repeat split; discriminate]. split; [discriminate|]. intros (y & Hy & Fy). now apply I in Hy. }
  set (g1 := m_tv OP B g0). set (dx := m_v OP B _).
  assert (Hs := search 502 nit dx st g1 (n_one OP) 0 (n_zero OP) u (s_trace OP st) I ltac:(lia) ltac:(lia) ltac:(constructor) ltac:(lia)).
  destruct line_search as [r|[[[st' g1'] cal] dlt]].
  { destruct Hs as (C & H). unfold code_meaning. rewrite C. split; [split; auto|]. repeat split; discriminate. }
  destruct Hs as (u' & A & C & T).
  assert (NF : forall c, c <> 2%nat -> (c = 2%nat <-> exists y, In y (s_trace OP st') /\ flat_at y)).
  { intros c Hc. split; [contradiction|]. intros (y & Hy & Fy). now apply A in Hy. }
  destruct (500 <? cal)%nat eqn:E5.
  { apply Nat.ltb_lt in E5. assert (cal = 501%nat) by lia. subst cal. unfold code_meaning. cbn [fst snd r_code]. split; [apply NF; lia|].
    split; [intros _; eauto|]. split; discriminate. }
  cbn [s_xr s_fr s_ncalls s_trace s_x s_hs].
  destruct (n_lt OP dlt (tolx OP P)) eqn:E3.
  { unfold code_meaning. cbn [fst snd r_code]. split; [apply NF; lia|]. split; [discriminate|]. split; [intros _; eauto 8 | discriminate]. }
  assert (IT' : iterations OP calcfg x0 ((u' ++ u) :: u :: ends)).
  { apply Nat.ltb_ge in E5. eapply it_next with (k := cal); [exact E5 | | exact IT]. destruct A as (A1 & _). destruct I as (I1 & _). rewrite <- A1, <- I1. exact T. }
  assert (V' : set_first OP (roll OP (set_last OP vf (s_fr OP st))) (s_fr OP st') =
    firstn (S (k_sims OP P)) (changes OP calcfg x0 ((u' ++ u) :: u :: ends) ++ repeat (n_inf OP) (S (k_sims OP P)))).
  { destruct I as (_ & _ & I3 & _). destruct A as (_ & _ & A3 & _). change (changes OP calcfg x0 ((u' ++ u) :: u :: ends)) with (n_abs OP (n_sub OP (rec (u' ++ u)) (rec u)) :: changes OP calcfg x0 (u :: ends)).
    set (ch := changes OP calcfg x0 (u :: ends)) in *. rewrite <- I3, <- A3.
    assert (LV : length vf = S (k_sims OP P)) by (rewrite V, firstn_length, app_length, repeat_length; lia).
    unfold set_last. rewrite V, removelast_firstn' by (rewrite app_length, repeat_length; lia).
    set (L := ch ++ _). unfold roll.
    destruct (firstn (k_sims OP P) L ++ [s_fr OP st]) as [|a l] eqn:Q; [now apply app_eq_nil in Q|]. rewrite <- Q.
    rewrite last_last, removelast_last. cbn [set_first app]. fold L. reflexivity. }
  rewrite V'. fold (relative_to OP (s_fr OP st') (n_sum OP (firstn (S (k_sims OP P)) (changes OP calcfg x0 ((u' ++ u) :: u :: ends) ++ repeat (n_inf OP) (S (k_sims OP P)))))).
  fold (total_change OP calcfg (S (k_sims OP P)) x0 ((u' ++ u) :: u :: ends)).
  match goal with |- context [if ?c then (mkresult _ _ _ _ _ 1, _) else _] => destruct c eqn:E1 end.
  { unfold code_meaning. cbn [fst snd r_code r_nit]. split; [apply NF; lia|]. split; [discriminate|]. split; [discriminate|]. intros _.
    exists (u' ++ u), (u :: ends). split; [apply A|]. split; [exact IT'|]. split; [cbn [length]; lia|].
    destruct A as (_ & _ & A3 & _). rewrite <- A3. exact E1. }
  match goal with |- context [main_loop OP P calcfg fuel ?a ?b ?c ?d ?e] => assert (Q := IH a b c d e (u' ++ u) (u :: ends)) end.
  cbv zeta in Q. apply Q; [exact A | exact IT' | cbn [length]; lia | reflexivity].
Qed.

Lemma ralgb5_codes m r t : ralgb5 OP P calcfg m x0 = (r, t) -> code_meaning r t.
Proof.
  unfold ralgb5. destruct (calcfg x0) as [f g] eqn:Ec. intro H.
  destruct (n_lt OP (v_norm OP g) (tolg OP P)) eqn:En.
  - inversion H; subst. unfold code_meaning. cbn [r_code]. split; [|repeat split; discriminate]. split; [|reflexivity]. intros _. exists x0. split; [left; reflexivity|]. unfold flat_at. now rewrite Ec.
  - assert (Q := loop (Z.to_nat (maxiter OP P + 2)) 0 (mkstate OP x0 x0 f (h0 OP P) 1 [x0]) (m_eye OP m) g (repeat (n_inf OP) (S (k_sims OP P))) [] []).
    cbv zeta in Q. rewrite H in Q. cbn [fst snd] in Q. apply Q; [|constructor|reflexivity|].
    + split; [reflexivity|]. split; [exists []; reflexivity|]. split; [cbn [record]; now rewrite Ec|]. intros y [<-|[]]. unfold flat_at. rewrite Ec. cbn [snd]. now rewrite En.
    + cbn [changes app]. symmetry. apply firstn_all2. now rewrite repeat_length.
Qed.
End R.

(** The code 1 needs [nsims] iterations. *)
Definition huge (f : flt) : Prop := f = B754_infinity false \/ f = B754_nan.
Lemma huge_add_l a b : huge a -> huge (fadd mode_NE a b).
Proof. unfold huge; intros [-> | ->]; destruct b as [s|[]| |s m e H]; cbn; auto. Qed.
Lemma huge_add_r a b : huge b -> huge (fadd mode_NE a b).
Proof. unfold huge; intros [-> | ->]; destruct a as [s|[]| |s m e H]; cbn; auto. Qed.
Lemma huge_div a b : huge a -> huge (fdiv mode_NE a (fabs b)).
Proof. unfold huge; intros [-> | ->]; destruct b as [s|[]| |s m e H]; cbn; auto. Qed.
Lemma huge_not_lt a b : huge a -> flt_ltb a b = false.
Proof. unfold huge; intros [-> | ->]; destruct b as [s|[]| |[] m e H]; reflexivity. Qed.
Lemma huge_fold l : forall a, huge a -> huge (fold_left (fadd mode_NE) l a).
Proof. induction l as [|b l IH]; intros a H; [exact H|]. cbn [fold_left]. apply IH, huge_add_l, H. Qed.
Lemma huge_sum l : forall a, In finf l -> huge (fold_left (fadd mode_NE) l a).
Proof.
  induction l as [|b l IH]; intros a H; [destruct H|]. destruct H as [H|H]; cbn [fold_left]; [|now apply IH].
  subst b. apply huge_fold, huge_add_r. left. reflexivity.
Qed.
Lemma changes_length OP calcfg x0 ends : forall e, length (changes OP calcfg x0 (e :: ends)) = length ends.
Proof. induction ends as [|b r IH]; intro e; [reflexivity|]. cbn [changes length]. f_equal. apply IH. Qed.
Lemma code1_flt P calcfg m x0 r t : ralgb5 flt_ops P calcfg m x0 = (r, t) -> r_code _ r = 1%nat -> (S (k_sims _ P) <= r_nit _ r + 1)%nat.
Proof.
  intros H C. destruct (ralgb5_codes flt_ops P calcfg x0 m r t H) as (_ & _ & _ & C1). destruct (C1 C) as (u & ends & _ & IT & LE & L). clear C1.
  destruct (le_lt_dec (S (k_sims _ P)) (r_nit _ r + 1)) as [Q|Q]; [exact Q|]. exfalso.
  assert (HU : huge (relative_to flt_ops (record flt_ops calcfg u x0) (total_change flt_ops calcfg (S (k_sims flt_ops P)) x0 (u :: ends)))).
  { assert (T : huge (total_change flt_ops calcfg (S (k_sims flt_ops P)) x0 (u :: ends))).
    { unfold total_change. apply huge_sum. rewrite firstn_app, changes_length, LE. apply in_or_app. right.
      destruct (S (k_sims flt_ops P) - S (r_nit flt_ops r))%nat as [|q] eqn:Z; [lia|]. left. reflexivity. }
    unfold relative_to. match goal with |- huge (if ?c then _ else _) => destruct c end; [apply huge_div, T | exact T]. }
  apply (huge_not_lt _ (tolf _ P)) in HU. change (flt_ltb (relative_to flt_ops (record flt_ops calcfg u x0) (total_change flt_ops calcfg (S (k_sims flt_ops P)) x0 (u :: ends))) (tolf flt_ops P) = true) in L. congruence.
Qed.

(** Runs that end with each code: on |x| with a zero gradient at the start, with
    a large tolx, with a large tolf, and on an unbounded linear function. *)
Definition lin_fg (x : list flt) : flt * list flt := (nth 0 x f0, [f1]).
Definition code_params (tx tg tf : flt) : params flt_ops := mkparams flt_ops tx tg tf 5%Z (fl 2 0) 1 f1 3 f1 f1.
Definition code_of (P : params flt_ops) fg : nat * nat := let r := fst (ralgb5 flt_ops P fg 1 [f1]) in (r_code _ r, r_nit _ r).
