(** Proofs about ralgb5. *)
From Coq Require Import ZArith List Bool Arith Lia Reals Lra.
From Verif Require Import Exact Recog SpecExact ExactProofs RecogProofs Ralgb5.
Import ListNotations.

Section R.
Variable OP : ops.
Variable P : params OP.
Variable calcfg : vct OP -> num OP * vct OP.
Let F (x : vct OP) : num OP := fst (calcfg x).
Let G (x : vct OP) : vct OP := snd (calcfg x).
Definition order_ok : Prop := (forall a, n_lt OP a a = false) /\ (forall a b c, n_lt OP a b = true -> n_lt OP c b = false -> n_lt OP c a = false).

(** [best x t]: among the evaluated points [x] is one, and none is strictly better *)
Definition best_of (x : vct OP) (f : num OP) (t : list (vct OP)) : Prop := In x t /\ f = F x.
Definition inv (st : state OP) : Prop :=
  best_of (s_xr _ st) (s_fr _ st) (s_trace _ st) /\ s_ncalls _ st = length (s_trace _ st) /\
  (order_ok -> forall y, In y (s_trace _ st) -> n_lt OP (F y) (s_fr _ st) = false).
Definition good_res (r : result OP * list (vct OP)) : Prop :=
  best_of (r_x _ (fst r)) (r_f _ (fst r)) (snd r) /\ r_ncalls _ (fst r) = length (snd r) /\
  (order_ok -> forall y, In y (snd r) -> n_lt OP (F y) (r_f _ (fst r)) = false).

Lemma inv_step st x fr xr hs : inv st ->
  fr = (if n_lt OP (F x) (s_fr _ st) then F x else s_fr _ st) -> xr = (if n_lt OP (F x) (s_fr _ st) then x else s_xr _ st) ->
  inv (mkstate OP x xr fr hs (S (s_ncalls _ st)) (x :: s_trace _ st)).
Proof.
  intros ((I1 & I2) & N & B) -> ->. unfold inv, best_of; simpl. split; [|split; [lia|]].
  - destruct (n_lt OP (F x) (s_fr OP st)); split; auto.
  - intros OK y [<-|Hy].
    + destruct (n_lt OP (F x) (s_fr OP st)) eqn:E; [apply OK | exact E].
    + destruct (n_lt OP (F x) (s_fr OP st)) eqn:E; [|auto]. destruct OK as [R T]. exact (T _ _ _ E (B (conj R T) y Hy)).
Qed.

Lemma line_search_spec fuel : forall nit dx normdx st g1 d cal deltax, inv st -> (cal <= 501)%nat ->
  match line_search OP P calcfg fuel nit dx normdx st g1 d cal deltax with
  | inl r => good_res r /\ r_code _ (fst r) = 2%nat /\ r_nit _ (fst r) = nit /\
             (exists y, In y (snd r) /\ n_lt OP (v_norm OP (G y)) (tolg _ P) = true) /\
             (length (snd r) <= length (s_trace _ st) + (501 - cal))%nat /\ incl (s_trace _ st) (snd r)
  | inr (st', g1', cal', dx') => inv st' /\ (cal <= cal' <= 501)%nat /\
             length (s_trace _ st') = (length (s_trace _ st) + (cal' - cal))%nat /\ incl (s_trace _ st) (s_trace _ st')
  end.
Proof.
  induction fuel as [|fuel IH]; intros nit dx normdx st g1 d cal deltax I C; cbn [line_search].
  { split; [exact I|]. split; [lia|]. split; [lia | intros y Hy; exact Hy]. }
  destruct (n_lt OP (n_zero OP) d && (cal <=? 500)) eqn:E; [|split; [exact I|]; split; [lia|]; split; [lia | intros y Hy; exact Hy]].
  apply andb_true_iff in E. destruct E as [_ E]. apply Nat.leb_le in E.
  set (x := v_sub OP _ _). destruct (calcfg x) as [f g] eqn:Ec.
  assert (Ff : f = F x) by (unfold F; rewrite Ec; reflexivity). assert (Gg : g = G x) by (unfold G; rewrite Ec; reflexivity).
  assert (I' : forall hs, inv (mkstate OP x (if n_lt OP f (s_fr OP st) then x else s_xr OP st) (if n_lt OP f (s_fr OP st) then f else s_fr OP st) hs (S (s_ncalls OP st)) (x :: s_trace OP st))).
  { intro hs. rewrite Ff. apply inv_step; auto. }
  destruct (n_lt OP (v_norm OP g) (tolg OP P)) eqn:En.
  - specialize (I' (h0 OP P)). split; [exact I'|]. split; [reflexivity|]. split; [reflexivity|]. split; [|split; [cbn [snd length]; lia | intros y Hy; right; exact Hy]].
    exists x. split; [left; reflexivity | rewrite <- Gg; exact En].
  - specialize (I' (if mod0 cal (nh OP P) then n_mul OP (s_hs OP st) (q2 OP P) else s_hs OP st)).
    specialize (IH nit dx normdx _ g (v_dot OP dx g) (S cal) (n_add OP deltax (n_mul OP (s_hs OP st) normdx)) I' ltac:(lia)).
    destruct line_search as [r|[[[st' g1'] cal'] dx']].
    + destruct IH as (A & B & D & H & L & T). cbn [s_trace length] in L, T. split; [exact A|]. split; [exact B|]. split; [exact D|]. split; [exact H|]. split; [lia|].
      intros y Hy. apply T. right. exact Hy.
    + destruct IH as (A & B & L & T). cbn [s_trace length] in L, T. split; [exact A|]. split; [lia|]. split; [lia|]. intros y Hy. apply T. right. exact Hy.
Qed.

(** progress: at least one evaluation when the initial derivative is positive *)
Lemma main_loop_spec fuel : forall nit st B g0 vf, inv st -> (Z.of_nat nit <= maxiter _ P + 1)%Z \/ nit = O ->
  (length (s_trace _ st) <= 1 + nit * 501)%nat ->
  (Z.of_nat fuel + Z.of_nat nit >= maxiter _ P + 2)%Z ->
  let r := main_loop OP P calcfg fuel nit st B g0 vf in
  good_res r /\ In (r_code _ (fst r)) [1; 2; 3; 4; 5]%nat /\
  (r_code _ (fst r) = 2%nat -> exists y, In y (snd r) /\ n_lt OP (v_norm OP (G y)) (tolg _ P) = true) /\
  (r_code _ (fst r) = 4%nat <-> (Z.of_nat (r_nit _ (fst r)) > maxiter _ P)%Z) /\
  (Z.of_nat (r_nit _ (fst r)) <= Z.max 0 (maxiter _ P + 1))%Z /\ (length (snd r) <= 1 + (r_nit _ (fst r) + 1) * 501)%nat /\ incl (s_trace _ st) (snd r).
Proof.
  induction fuel as [|fuel IH]; intros nit st B g0 vf I Hn L Hf; cbv zeta; cbn [main_loop].
  { assert (good_res (mkresult OP (s_xr OP st) (s_fr OP st) nit (s_ncalls OP st) 4, s_trace OP st)) by exact I.
    cbn [fst snd r_code r_nit]. split; [assumption|]. split; [simpl; tauto|]. split; [discriminate|]. split; [split; intros; [lia|reflexivity]|]. split; [lia|]. split; [lia|]. intros y Hy; exact Hy. }
  destruct (Z.of_nat nit <=? maxiter OP P)%Z eqn:E.
  2:{ apply Z.leb_gt in E. assert (good_res (mkresult OP (s_xr OP st) (s_fr OP st) nit (s_ncalls OP st) 4, s_trace OP st)) by exact I.
    cbn [fst snd r_code r_nit]. split; [assumption|]. split; [simpl; tauto|]. split; [discriminate|]. split; [split; intros; [lia|reflexivity]|]. split; [lia|]. split; [lia|]. intros y Hy; exact Hy. }
  apply Z.leb_le in E.
  set (g1 := m_tv OP B g0). set (dx := m_v OP B _).
  assert (S := line_search_spec 502 nit dx (v_norm OP dx) st g1 (n_one OP) 0 (n_zero OP) I ltac:(lia)).
  destruct line_search as [r|[[[st' g1'] cal] dlt]].
  - destruct S as (A & C & D & H & LL & T). split; [exact A|]. rewrite C. split; [simpl; tauto|]. split; [intros _; exact H|].
    split; [split; [discriminate | rewrite D; lia]|]. rewrite D. split; [lia|]. split; [lia | exact T].
  - destruct S as (A & C & LL & T).
    assert (Fin : forall c, (c = 1 \/ c = 3 \/ c = 5)%nat -> forall r, r = (mkresult OP (s_xr OP st') (s_fr OP st') nit (s_ncalls OP st') c, s_trace OP st') ->
      good_res r /\ In (r_code _ (fst r)) [1; 2; 3; 4; 5]%nat /\
      (r_code _ (fst r) = 2%nat -> exists y, In y (snd r) /\ n_lt OP (v_norm OP (G y)) (tolg _ P) = true) /\
      (r_code _ (fst r) = 4%nat <-> (Z.of_nat (r_nit _ (fst r)) > maxiter _ P)%Z) /\
      (Z.of_nat (r_nit _ (fst r)) <= Z.max 0 (maxiter _ P + 1))%Z /\ (length (snd r) <= 1 + (r_nit _ (fst r) + 1) * 501)%nat /\ incl (s_trace _ st) (snd r)).
    { intros c Hc r ->. cbn [fst snd r_code r_nit]. split; [exact A|]. split; [simpl; intuition|]. split; [intros ->; lia|]. split; [split; lia|]. split; [lia|]. split; [lia | exact T]. }
    destruct (500 <? cal)%nat; [apply (Fin 5%nat); auto|].
    cbn [s_xr s_fr s_ncalls s_trace s_x s_hs].
    destruct (n_lt OP dlt (tolx OP P)); [apply (Fin 3%nat); auto|].
    match goal with |- context [if ?c then (mkresult _ _ _ _ _ 1, _) else _] => destruct c end; [apply (Fin 1%nat); auto|].
    match goal with |- context [main_loop OP P calcfg fuel ?a ?b ?c ?d ?e] => assert (Q := IH a b c d e) end.
    cbv zeta in Q. cbn [s_trace] in Q. destruct Q as (Q1 & Q2 & Q3 & Q4 & Q5 & Q6 & Q7); [exact A | lia | lia | lia |].
    split; [exact Q1|]. split; [exact Q2|]. split; [exact Q3|]. split; [exact Q4|]. split; [exact Q5|]. split; [exact Q6|].
    intros y Hy. apply Q7, T, Hy.
Qed.

Lemma ralgb5_spec m x0 : let r := ralgb5 OP P calcfg m x0 in
  good_res r /\ In (r_code _ (fst r)) [1; 2; 3; 4; 5]%nat /\
  (r_code _ (fst r) = 2%nat -> exists y, In y (snd r) /\ n_lt OP (v_norm OP (G y)) (tolg _ P) = true) /\
  (r_code _ (fst r) = 4%nat -> (Z.of_nat (r_nit _ (fst r)) > maxiter _ P)%Z) /\
  (Z.of_nat (r_nit _ (fst r)) <= Z.max 0 (maxiter _ P + 1))%Z /\ (length (snd r) <= 1 + (r_nit _ (fst r) + 1) * 501)%nat /\
  In x0 (snd r).
Proof.
  cbv zeta. unfold ralgb5. destruct (calcfg x0) as [f g] eqn:Ec.
  assert (I : inv (mkstate OP x0 x0 f (h0 OP P) 1 [x0])).
  { unfold inv, best_of; simpl. assert (f = F x0) by (unfold F; rewrite Ec; reflexivity). repeat split; auto. intros OK y [<-|[]]. subst f. apply OK. }
  destruct (n_lt OP (v_norm OP g) (tolg OP P)) eqn:En.
  - cbn [fst snd r_code r_nit]. split; [exact I|]. split; [simpl; tauto|]. split; [intros _; exists x0; split; [left; reflexivity | unfold G; rewrite Ec; exact En]|].
    split; [discriminate|]. simpl. split; [lia|]. split; [lia|auto].
  - assert (M := main_loop_spec (Z.to_nat (maxiter OP P + 2)) 0 _ (m_eye OP m) g (repeat (n_inf OP) (S (k_sims OP P))) I (or_intror eq_refl) ltac:(simpl; lia) ltac:(lia)).
    cbv zeta in M. set (r := main_loop _ _ _ _ _ _ _ _ _) in *. destruct M as (A & B & C & D & E & H & T).
    split; [exact A|]. split; [exact B|]. split; [exact C|]. split; [apply D|]. split; [exact E|]. split; [exact H|].
    apply T. left. reflexivity.
Qed.
End R.
