(** Proofs about PPS: where the smallest value is attained, signs, lists. *)
From Coq Require Import Reals List Arith Bool ZArith Lia Lra Psatz Sorted.
From Verif Require Import Exact SpecExact ExactProofs Estim SpecEstim EstimProofs Pss Pps SpecPps.
Import ListNotations.
Open Scope R_scope.

Lemma upd2_same {A} (M : nat -> nat -> A) i j a : upd2 M i j a i j = a.
Proof. unfold upd2. rewrite !Nat.eqb_refl. reflexivity. Qed.
Lemma upd2_cases {A} (M : nat -> nat -> A) i j a i' j' : (i' = i /\ j' = j /\ upd2 M i j a i' j' = a) \/ upd2 M i j a i' j' = M i' j'.
Proof. unfold upd2. destruct (Nat.eqb_spec i' i); destruct (Nat.eqb_spec j' j); simpl; auto. Qed.
Lemma upd1_cases {A} (v : nat -> A) i a i' : (i' = i /\ upd1 v i a i' = a) \/ upd1 v i a i' = v i'.
Proof. unfold upd1. destruct (Nat.eqb_spec i' i); auto. Qed.

(** ** Optimality conditions *)
Section Optimum.
Variables (n nu : nat) (A : imat) (b : ivec) (x v : vec) (M Z : mat).
Hypothesis Hnu : (nu < n)%nat.
Hypothesis HM : in_imat n n A M.
Hypothesis Hv : in_ivec n b v.
Hypothesis Hx : solves n n M v x.
Hypothesis HZ : inverse_of n M Z.
Hypothesis Hmin : forall x', united n n A b x' -> x nu <= x' nu.

Lemma times_column i c k : (i < n)%nat -> (k < n)%nat ->
  times n M (fun j => x j - c * Z j i) k = times n M x k - (if (k =? i)%nat then c else 0).
Proof.
  intros Hi Hk. unfold times. rewrite (total_ext n _ (fun j => M k j * x j - c * (M k j * Z j i))) by (intros; ring).
  rewrite total_minus, total_scal. destruct (HZ k i Hk Hi) as [E _]. rewrite E. destruct (k =? i)%nat; ring.
Qed.
Lemma perturb_rhs i e : (i < n)%nat -> inI (b i) (v i + e) -> 0 <= e * Z nu i.
Proof.
  intros Hi I. assert (U : united n n A b (fun j => x j - (- e) * Z j i)).
  { exists M, (upd1 v i (v i + e)). split; [exact HM|]. split.
    - intros k Hk. destruct (upd1_cases v i (v i + e) k) as [[-> E]|E]; rewrite E; auto.
    - intros k Hk. rewrite times_column by assumption. rewrite Hx by assumption.
      unfold upd1. destruct (Nat.eqb_spec k i) as [->|]; ring. }
  apply Hmin in U. cbv beta in U. lra.
Qed.
Lemma times_upd2 i j a y k : (i < n)%nat -> (j < n)%nat ->
  times n (upd2 M i j a) y k = times n M y k + (if (k =? i)%nat then (a - M i j) * y j else 0).
Proof.
  intros Hi Hj. unfold times. destruct (Nat.eqb_spec k i) as [->|N].
  - rewrite (total_ext n _ (fun l => M i l * y l + (if (j =? l)%nat then (a - M i j) * y j else 0))).
    + rewrite total_plus. f_equal. rewrite (total_pick n j); [now rewrite Nat.eqb_refl | exact Hj |]. intros l _ D. destruct (Nat.eqb_spec j l); congruence.
    + intros l Hl. unfold upd2. rewrite Nat.eqb_refl. simpl. destruct (Nat.eqb_spec l j) as [->|D]; [rewrite Nat.eqb_refl; ring|].
      destruct (Nat.eqb_spec j l); [congruence | ring].
  - rewrite Rplus_0_r. apply total_ext. intros l Hl. unfold upd2. destruct (Nat.eqb_spec k i); [contradiction | reflexivity].
Qed.
Lemma perturb_entry i j d : (i < n)%nat -> (j < n)%nat -> inI (A i j) (M i j + d) -> 0 < 1 + d * Z j i -> 0 <= - (d * (Z nu i * x j)).
Proof.
  intros Hi Hj I P. set (c := d * x j / (1 + d * Z j i)).
  assert (U : united n n A b (fun l => x l - c * Z l i)).
  { exists (upd2 M i j (M i j + d)), v. split; [|split; [exact Hv|]].
    - intros k l Hk Hl. destruct (upd2_cases M i j (M i j + d) k l) as [(-> & -> & E)|E]; rewrite E; auto.
    - intros k Hk. rewrite times_upd2, times_column, Hx by assumption.
      destruct (Nat.eqb_spec k i) as [->|]; [|ring]. unfold c. field. lra. }
  apply Hmin in U. cbv beta in U. assert (C : c * Z nu i <= 0) by lra.
  unfold c in C. assert (E : d * x j / (1 + d * Z j i) * Z nu i = d * (Z nu i * x j) * / (1 + d * Z j i)) by (unfold Rdiv; ring).
  rewrite E in C. assert (IP : 0 < / (1 + d * Z j i)) by now apply Rinv_0_lt_compat.
  destruct (Rle_lt_dec (d * (Z nu i * x j)) 0) as [L|L]; [lra|]. exfalso. pose proof (Rmult_lt_0_compat _ _ L IP). lra.
Qed.
Lemma small_step z w : 0 < w -> exists d, 0 < d <= w /\ 0 < 1 + d * z /\ 0 < 1 - d * z.
Proof.
  intros Hw. exists (Rmin w (/ (2 * (1 + Rabs z)))). assert (Hz := Rabs_pos z). assert (P : 0 < / (2 * (1 + Rabs z))) by (apply Rinv_0_lt_compat; lra).
  assert (D : Rmin w (/ (2 * (1 + Rabs z))) * Rabs z <= / 2).
  { eapply Rle_trans; [apply Rmult_le_compat_r; [exact Hz | apply Rmin_r]|].
    apply (Rmult_le_reg_l (2 * (1 + Rabs z))); [lra|]. rewrite <- Rmult_assoc, Rinv_r by lra. lra. }
  set (d := Rmin w _) in *. assert (0 < d) by (unfold d, Rmin; destruct (Rle_dec _ _); lra).
  assert (d <= w) by (unfold d; apply Rmin_l).
  assert (d * z <= d * Rabs z) by (apply Rmult_le_compat_l; [lra | apply Rle_abs]).
  assert (- (d * Rabs z) <= d * z) by (rewrite <- Ropp_mult_distr_r_reverse; apply Rmult_le_compat_l; [lra | pose proof (Rle_abs (- z)); rewrite Rabs_Ropp in *; lra]).
  repeat split; lra.
Qed.
Lemma entry_lower i j : (i < n)%nat -> (j < n)%nat -> Z nu i * x j < 0 -> M i j = rl (A i j).
Proof.
  intros Hi Hj S. destruct (HM i j Hi Hj) as [L U]. destruct (Rle_lt_or_eq_dec _ _ L) as [L'|]; [|auto]. exfalso.
  destruct (small_step (Z j i) (M i j - rl (A i j)) ltac:(lra)) as (d & D & _ & D2).
  assert (0 <= - (- d * (Z nu i * x j))) as Q.
  { apply perturb_entry; auto; [split; lra|]. lra. }
  assert (d * (Z nu i * x j) < 0) by (rewrite <- (Rmult_0_r d); apply Rmult_lt_compat_l; lra). lra.
Qed.
Lemma entry_upper i j : (i < n)%nat -> (j < n)%nat -> 0 < Z nu i * x j -> M i j = rh (A i j).
Proof.
  intros Hi Hj S. destruct (HM i j Hi Hj) as [L U]. destruct (Rle_lt_or_eq_dec _ _ U) as [U'|]; [|auto]. exfalso.
  destruct (small_step (Z j i) (rh (A i j) - M i j) ltac:(lra)) as (d & D & D1 & _).
  assert (0 <= - (d * (Z nu i * x j))) as Q by (apply perturb_entry; auto; split; lra).
  assert (0 < d * (Z nu i * x j)) by (apply Rmult_lt_0_compat; lra). lra.
Qed.
Lemma rhs_lower i : (i < n)%nat -> 0 < Z nu i -> v i = rl (b i).
Proof.
  intros Hi S. destruct (Hv i Hi) as [L U]. destruct (Rle_lt_or_eq_dec _ _ L) as [L'|]; [|auto]. exfalso.
  assert (0 <= (rl (b i) - v i) * Z nu i) by (apply perturb_rhs; auto; split; lra).
  assert (0 < (v i - rl (b i)) * Z nu i) by (apply Rmult_lt_0_compat; lra). lra.
Qed.
Lemma rhs_upper i : (i < n)%nat -> Z nu i < 0 -> v i = rh (b i).
Proof.
  intros Hi S. destruct (Hv i Hi) as [L U]. destruct (Rle_lt_or_eq_dec _ _ U) as [U'|]; [|auto]. exfalso.
  assert (0 <= (rh (b i) - v i) * Z nu i) by (apply perturb_rhs; auto; split; lra).
  assert (0 < (rh (b i) - v i) * - Z nu i) by (apply Rmult_lt_0_compat; lra). lra.
Qed.
End Optimum.

(** ** Signs *)
Definition known (a a' : Z) : Prop := a = 0%Z \/ a = a'.
Section Signs.
Variables (n : nat) (S T : svec).
Hypothesis HS : forall i, S i = 1%Z \/ S i = (-1)%Z.
Hypothesis HT : forall i, T i = 1%Z \/ T i = (-1)%Z.
Definition known_W (W : smat) : Prop := forall i j, (i < n)%nat -> (j < n)%nat -> known (W i j) (S i * T j)%Z.
Definition known_v (s S' : svec) : Prop := forall i, (i < n)%nat -> known (s i) (S' i).
Definition known_g (g : signs) : Prop := known_W (gW g) /\ known_v (gs g) S /\ known_v (gt g) T.
Lemma known_upd2 W i j a : known_W W -> ((i < n)%nat -> (j < n)%nat -> known a (S i * T j)%Z) -> known_W (upd2 W i j a).
Proof. intros K Ka i' j' Hi Hj. destruct (upd2_cases W i j a i' j') as [(-> & -> & E)|E]; rewrite E; auto. Qed.
Lemma known_upd1 s S' i a : known_v s S' -> ((i < n)%nat -> known a (S' i)) -> known_v (upd1 s i a) S'.
Proof. intros K Ka i' Hi. destruct (upd1_cases s i a i') as [(-> & E)|E]; rewrite E; auto. Qed.
Lemma known_setW i j a g : known_g g -> ((i < n)%nat -> (j < n)%nat -> known a (S i * T j)%Z) -> known_g (setW i j a g).
Proof. intros (K1 & K2 & K3) Ka. split; [|split; [exact K2 | exact K3]]. now apply known_upd2. Qed.
Lemma known_sets i a g : known_g g -> ((i < n)%nat -> known a (S i)) -> known_g (sets i a g).
Proof. intros (K1 & K2 & K3) Ka. split; [exact K1|]. split; [|exact K3]. now apply known_upd1. Qed.
Lemma known_sett i a g : known_g g -> ((i < n)%nat -> known a (T i)) -> known_g (sett i a g).
Proof. intros (K1 & K2 & K3) Ka. split; [exact K1|]. split; [exact K2|]. now apply known_upd1. Qed.
Lemma known_unflag g : known_g g -> known_g (unflag g).
Proof. exact (fun H => H). Qed.
Lemma known_mul a a' c c' : known a a' -> known c c' -> known (a * c)%Z (a' * c')%Z.
Proof. intros [-> | ->] [-> | ->]; unfold known; auto; left; lia. Qed.
Lemma known_quot_t W i j t : known W (S i * T j)%Z -> known t (T j) -> known (Z.quot W t) (S i).
Proof. unfold known. intros [-> | ->] [-> | ->]; destruct (HS i) as [E1 | E1]; destruct (HT j) as [E2 | E2]; rewrite ?E1, ?E2; vm_compute; auto. Qed.
Lemma known_quot_s W i j s : known W (S i * T j)%Z -> known s (S i) -> known (Z.quot W s) (T j).
Proof. unfold known. intros [-> | ->] [-> | ->]; destruct (HS i) as [E1 | E1]; destruct (HT j) as [E2 | E2]; rewrite ?E1, ?E2; vm_compute; auto. Qed.
Lemma known_fold {X} (f : signs -> X -> signs) l : (forall g p, In p l -> known_g g -> known_g (f g p)) -> forall g, known_g g -> known_g (fold_left f l g).
Proof. induction l as [|p l IH]; intros H g Hg; simpl; [exact Hg|]. apply IH; [intros; apply H; [now right | assumption]|]. apply H; [now left | exact Hg]. Qed.
Definition in_range (g : signs) : Prop := Forall (fun p => (fst p < n)%nat /\ (snd p < n)%nat) (gOm g) /\ Forall (fun k => (k < n)%nat) (gK g) /\ Forall (fun l => (l < n)%nat) (gLa g).
Definition fine (g : signs) : Prop := known_g g /\ in_range g.
Lemma fine_fold {X} (f : signs -> X -> signs) l : (forall g p, In p l -> fine g -> fine (f g p)) -> forall g, fine g -> fine (fold_left f l g).
Proof. induction l as [|p l IH]; intros H g Hg; simpl; [exact Hg|]. apply IH; [intros; apply H; [now right | assumption]|]. apply H; [now left | exact Hg]. Qed.
Lemma fine_setW i j a g : fine g -> (i < n)%nat -> (j < n)%nat -> known a (S i * T j)%Z -> fine (setW i j a g).
Proof.
  intros [K (R1 & R2 & R3)] Hi Hj Ka. split; [apply known_setW; auto|]. split; [|split; assumption]. unfold setW; cbn [gOm].
  destruct (negb _); [|exact R1]. apply Forall_app. split; [exact R1|]. constructor; [now split | constructor].
Qed.
Lemma fine_sets i a g : fine g -> (i < n)%nat -> known a (S i) -> fine (sets i a g).
Proof.
  intros [K (R1 & R2 & R3)] Hi Ka. split; [apply known_sets; auto|]. split; [assumption|split;[|assumption]]. unfold sets; cbn [gK].
  destruct (negb _); [|exact R2]. apply Forall_app. split; [exact R2|]. constructor; [exact Hi | constructor].
Qed.
Lemma fine_sett i a g : fine g -> (i < n)%nat -> known a (T i) -> fine (sett i a g).
Proof.
  intros [K (R1 & R2 & R3)] Hi Ka. split; [apply known_sett; auto|]. split; [assumption|split;[assumption|]]. unfold sett; cbn [gLa].
  destruct (negb _); [|exact R3]. apply Forall_app. split; [exact R3|]. constructor; [exact Hi | constructor].
Qed.
Lemma nonzero_lt v j : In j (nonzero n v) -> (j < n)%nat.
Proof. unfold nonzero. intro H. apply filter_In in H. destruct H as [H _]. apply in_seq in H. lia. Qed.
Lemma in_prod_lt l l' (p : nat * nat) : Forall (fun k => (k < n)%nat) l -> (forall j, In j l' -> (j < n)%nat) -> In p (list_prod l l') -> (fst p < n)%nat /\ (snd p < n)%nat.
Proof. destruct p as [a c]. intros F G H. apply in_prod_iff in H. destruct H as [H1 H2]. rewrite Forall_forall in F. split; [now apply F | now apply G]. Qed.
Lemma seq_lt j : In j (seq 0 n) -> (j < n)%nat.
Proof. intro H. apply in_seq in H. lia. Qed.
Lemma fine_w_by_s g : fine g -> fine (w_by_s n g).
Proof.
  intro F. unfold w_by_s. destruct F as [K (R1 & R2 & R3)] eqn:EF. apply fine_fold; [|exact F]. clear EF. intros g' p Ip F'.
  destruct (in_prod_lt _ _ _ R2 (nonzero_lt _) Ip) as [P1 P2]. apply fine_setW; auto. destruct F' as ((K1 & K2 & K3) & _). apply known_mul; auto.
Qed.
Lemma fine_w_by_t g : fine g -> fine (w_by_t n g).
Proof.
  intro F. unfold w_by_t. destruct F as [K (R1 & R2 & R3)] eqn:EF. apply fine_fold; [|exact F]. clear EF. intros g' p Ip F'.
  destruct (in_prod_lt _ _ _ R3 (nonzero_lt _) Ip) as [P1 P2]. apply fine_setW; auto. destruct F' as ((K1 & K2 & K3) & _). apply known_mul; auto.
Qed.
Lemma fine_s_by_W g : fine g -> fine (s_by_W g).
Proof.
  intro F. unfold s_by_W. destruct F as [K (R1 & R2 & R3)] eqn:EF. apply fine_fold; [|exact F]. clear EF. intros g' p Ip F'.
  rewrite Forall_forall in R1. destruct (R1 _ Ip) as [P1 P2]. destruct (gt g' (snd p) =? 0)%Z; [exact F'|]. apply fine_sets; auto.
  destruct F' as ((K1 & K2 & K3) & _). eapply known_quot_t; auto.
Qed.
Lemma fine_s_by_t g : fine g -> fine (s_by_t n g).
Proof.
  intro F. unfold s_by_t. destruct F as [K (R1 & R2 & R3)] eqn:EF. apply fine_fold; [|exact F]. clear EF. intros g' p Ip F'.
  destruct (in_prod_lt _ _ _ R3 seq_lt Ip) as [P1 P2]. destruct (_ && _)%bool; [|exact F']. apply fine_sets; auto.
  destruct F' as ((K1 & K2 & K3) & _). eapply known_quot_t; auto.
Qed.
Lemma fine_t_by_W g : fine g -> fine (t_by_W g).
Proof.
  intro F. unfold t_by_W. destruct F as [K (R1 & R2 & R3)] eqn:EF. apply fine_fold; [|exact F]. clear EF. intros g' p Ip F'.
  rewrite Forall_forall in R1. destruct (R1 _ Ip) as [P1 P2]. destruct (gs g' (fst p) =? 0)%Z; [exact F'|]. apply fine_sett; auto.
  destruct F' as ((K1 & K2 & K3) & _). eapply known_quot_s; auto.
Qed.
Lemma fine_t_by_s g : fine g -> fine (t_by_s n g).
Proof.
  intro F. unfold t_by_s. destruct F as [K (R1 & R2 & R3)] eqn:EF. apply fine_fold; [|exact F]. clear EF. intros g' p Ip F'.
  destruct (in_prod_lt _ _ _ R2 seq_lt Ip) as [P1 P2]. destruct (_ && _)%bool; [|exact F']. apply fine_sett; auto.
  destruct F' as ((K1 & K2 & K3) & _). eapply known_quot_s; auto.
Qed.
Lemma fine_propagate : forall fuel Wch sch tch g g', fine g -> propagate fuel n Wch sch tch g = Some g' -> fine g'.
Proof.
  induction fuel as [|f IH]; intros Wch sch tch g g' Hg; cbn [propagate]; destruct (Wch || sch || tch).
  - discriminate.
  - intro E; inversion E; subst; exact Hg.
  - cbv zeta. apply IH.
    assert (KI : forall (c : bool) (f : signs -> signs) g, (forall g, fine g -> fine (f g)) -> fine g -> fine (if c then f g else g)).
    { intros [|] h g0 Hf Hg0; auto. }
    assert (KU : forall g, fine g -> fine (unflag g)) by exact (fun g H => H).
    apply KI; [exact fine_t_by_s|]. apply KI; [exact fine_t_by_W|]. apply KU.
    apply KI; [exact fine_s_by_t|]. apply KI; [exact fine_s_by_W|]. apply KU.
    apply KI; [exact fine_w_by_t|]. apply KI; [exact fine_w_by_s|]. apply KU. exact Hg.
  - intro E; inversion E; subst; exact Hg.
Qed.
Lemma known_refine im jm W : known_W W -> known_W (refine n im jm W).
Proof.
  intros H i j Hi Hj. unfold refine. destruct (find _ _) as [[k l]|] eqn:EF; [|apply H; auto].
  apply find_some in EF. destruct EF as [EF _]. apply in_prod_iff in EF. destruct EF as [E1 E2]. apply seq_lt in E1. apply seq_lt in E2.
  destruct (upd2_cases W im jm (W k l * W k jm * W im l)%Z i j) as [(-> & -> & E)|E]; rewrite E; [|apply H; auto].
  destruct (H k l) as [-> | ->]; auto; [left; lia|]. destruct (H k jm) as [-> | ->]; auto; [left; lia|]. destruct (H im l) as [-> | ->]; auto; [left; lia|].
  right. destruct (HS k) as [-> | ->]; destruct (HT l) as [-> | ->]; ring.
Qed.
End Signs.

(** ** Sorted lists *)
Definition psorted (L : list pitem) : Prop := forall i j, (i <= j)%nat -> (j < length L)%nat -> nth i (map pg L) 0 <= nth j (map pg L) 0.
Lemma bisect_spec h rest x : psorted rest -> forall fuel lo hi, (hi - lo <= fuel)%nat -> (lo <= hi)%nat -> (hi <= S (length rest))%nat ->
  (forall i, (S i < lo)%nat -> nth i (map pg rest) 0 < x) -> (forall i, (hi <= S i)%nat -> (i < length rest)%nat -> x <= nth i (map pg rest) 0) ->
  let k := bisect fuel (map pg (h :: rest)) x lo hi in (k <= S (length rest))%nat /\
    (forall i, (S i < k)%nat -> nth i (map pg rest) 0 < x) /\ (forall i, (k <= S i)%nat -> (i < length rest)%nat -> x <= nth i (map pg rest) 0).
Proof.
  intros Srt. induction fuel as [|f IH]; intros lo hi F1 F2 F3 Lo Hi; cbn [bisect]; cbv zeta.
  - assert (lo = hi) by lia. subst. repeat split; auto.
  - destruct (Nat.ltb_spec lo hi) as [L|L]; [|assert (lo = hi) by lia; subst; repeat split; auto].
    assert (Md : (lo <= (lo + hi) / 2 < hi)%nat).
    { split; [apply Nat.div_le_lower_bound; lia | apply Nat.div_lt_upper_bound; lia]. }
    remember ((lo + hi) / 2)%nat as mid eqn:Emid. destruct (Rlt_dec (nth mid (map pg (h :: rest)) 0) x) as [X|X].
    + apply IH; try lia; auto. intros i Hi'. destruct mid as [|mid']; [lia|]. cbn [map nth] in X.
      destruct (Nat.eq_dec i mid') as [->|]; [exact X|]. assert (nth i (map pg rest) 0 <= nth mid' (map pg rest) 0) by (apply Srt; lia). lra.
    + apply IH; try lia; auto. intros i Hi' Hl. destruct mid as [|mid'].
      * apply Hi; [|exact Hl]. assert (hi < 2)%nat; [|lia]. destruct (Nat.lt_ge_cases hi 2) as [|G]; [assumption|].
        assert (1 <= (lo + hi) / 2)%nat by (apply Nat.div_le_lower_bound; lia). lia.
      * cbn [map nth] in X. assert (nth mid' (map pg rest) 0 <= nth i (map pg rest) 0) by (apply Srt; lia). lra.
Qed.
Lemma insert_at_length {A} (x : A) : forall k l, (k <= length l)%nat -> length (insert_at k x l) = S (length l).
Proof. induction k; intros [|y l]; simpl; intros; try lia. rewrite IHk; lia. Qed.
Lemma insert_at_In {A} (x y : A) : forall k l, In y (insert_at k x l) <-> y = x \/ In y l.
Proof.
  induction k; intros [|z l]; simpl; try (split; intros [?|?]; auto; fail); try tauto.
  rewrite IHk. tauto.
Qed.
Lemma insert_at_nth (x d : R) : forall k l i, (k <= length l)%nat ->
  nth i (insert_at k x l) d = if (i <? k)%nat then nth i l d else if (i =? k)%nat then x else nth (i - 1) l d.
Proof.
  induction k; intros l i Hk.
  - cbn [insert_at]. destruct l; destruct i; cbn; auto; rewrite ?Nat.sub_0_r; auto.
  - destruct l as [|y l]; simpl in Hk; [lia|]. cbn [insert_at]. destruct i as [|i]; [reflexivity|]. cbn [nth]. rewrite IHk by lia.
    change (S i <? S k)%nat with (i <? k)%nat. change (S i =? S k)%nat with (i =? k)%nat.
    destruct (Nat.ltb_spec i k); [reflexivity|]. destruct (Nat.eqb_spec i k); [reflexivity|].
    destruct i; [lia|]. cbn [Nat.sub nth]. rewrite Nat.sub_0_r. reflexivity.
Qed.
Lemma map_insert_at {A B} (f : A -> B) x : forall k l, map f (insert_at k x l) = insert_at k (f x) (map f l).
Proof. induction k; intros [|y l]; simpl; auto. now rewrite IHk. Qed.
Lemma insert_item_spec x h rest : psorted rest -> exists rest', insert_item x (h :: rest) = h :: rest' /\ psorted rest' /\ forall y, In y rest' <-> y = x \/ In y rest.
Proof.
  intro Srt. unfold insert_item. set (k := bisect _ _ _ _ _).
  destruct (bisect_spec h rest (pg x) Srt (length (h :: rest)) 0 (length (h :: rest))) as (K1 & K2 & K3); cbn [length]; try lia; try (intros; exfalso; lia).
  fold k in K1, K2, K3. set (k' := if (0 <? k)%nat then k else 1%nat).
  assert (exists j, k' = S j /\ (j <= length rest)%nat /\ (forall i, (i < j)%nat -> nth i (map pg rest) 0 < pg x) /\
                    (forall i, (j <= i)%nat -> (i < length rest)%nat -> pg x <= nth i (map pg rest) 0)) as (j & -> & J1 & J2 & J3).
  { unfold k'. destruct k as [|k0]; cbn [Nat.ltb Nat.leb].
    - exists 0%nat. split; [reflexivity|]. split; [lia|]. split; [intros; lia|]. intros; apply K3; lia.
    - exists k0. split; [reflexivity|]. split; [cbn [length] in K1; lia|]. split; intros; [apply K2; lia | apply K3; lia]. }
  cbn [insert_at]. exists (insert_at j x rest). split; [reflexivity|]. split; [|intro y; apply insert_at_In].
  intros a c Hac Hc. rewrite insert_at_length in Hc by lia. rewrite map_insert_at, !insert_at_nth by (rewrite map_length; lia).
  destruct (Nat.ltb_spec a j); destruct (Nat.ltb_spec c j); try lia.
  - apply Srt; lia.
  - destruct (Nat.eqb_spec c j); [apply Rlt_le, J2; lia|]. eapply Rle_trans; [apply Rlt_le, J2; lia | apply J3; lia].
  - destruct (Nat.eqb_spec a j); destruct (Nat.eqb_spec c j); try lia; [lra | apply J3; lia |].
    apply Srt; lia.
Qed.
Lemma psorted_tail h l : psorted (h :: l) -> psorted l.
Proof. intros H i j Hij Hj. apply (H (S i) (S j)); cbn [length]; lia. Qed.
Lemma psorted_head h l y : psorted (h :: l) -> In y l -> pg h <= pg y.
Proof.
  intros H I. destruct (In_nth _ _ h I) as (k & K1 & K2). specialize (H 0%nat (S k) ltac:(lia) ltac:(cbn [length]; lia)).
  cbn [map nth] in H. rewrite (nth_indep _ 0 (pg h)) in H by (rewrite map_length; lia). rewrite map_nth in H. now rewrite K2 in H.
Qed.
Lemma psorted_cons h l : psorted l -> (forall y, In y l -> pg h <= pg y) -> psorted (h :: l).
Proof.
  intros H G i j Hij Hj. destruct j as [|j]; [assert (i = 0)%nat by lia; subst; apply Rle_refl|]. cbn [length] in Hj. destruct i as [|i]; cbn [map nth].
  - rewrite (nth_indep _ 0 (pg h)) by (rewrite map_length; lia). rewrite map_nth. apply G, nth_In. lia.
  - apply H; lia.
Qed.
Lemma psorted_filter f l : psorted l -> psorted (filter f l).
Proof.
  induction l as [|h l IH]; intro H; simpl; [exact H|]. pose proof (IH (psorted_tail _ _ H)) as H1.
  destruct (f h); [|exact H1]. apply psorted_cons; [exact H1|]. intros y I. apply filter_In in I. eapply psorted_head; [exact H | apply I].
Qed.
