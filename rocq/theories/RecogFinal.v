(** Combined statements about penalties and constrained functionals. *)
From Coq Require Import Reals List Arith Lia Lra Psatz Bool.
From Verif Require Import Exact Recog SpecExact ExactProofs RecogProofs RecogMore.
Import ListNotations.
Open Scope R_scope.

Lemma penalty_spec r n C lb ub rows mu x : linear_constraint r n C lb ub = Some rows -> 0 < mu ->
  0 <= fst (linear_penalty n mu rows x) /\
  (fst (linear_penalty n mu rows x) = 0 <->
   forall k, (k < r)%nat -> (exists j, (j < n)%nat /\ C k j <> 0) ->
     (forall f v, lb = Some f -> f k = BFin v -> v <= times n C x k) /\
     (forall f v, ub = Some f -> f k = BFin v -> times n C x k <= v)).
Proof.
  intros H Hm. assert (rows = lc_rows r n C lb ub) as -> by (unfold linear_constraint in H; destruct lc_rows; congruence). clear H.
  unfold linear_penalty. cbv zeta. cbn [fst]. assert (N := penalty_nn n (lc_rows r n C lb ub) x). split; [nra|].
  assert (Z : mu * lsum (map fst (map (penalty_row n x) (lc_rows r n C lb ub))) = 0 <-> lsum (map fst (map (penalty_row n x) (lc_rows r n C lb ub))) = 0) by (split; intro; nra).
  rewrite Z, penalty_zero. unfold lc_rows. rewrite Forall_app. split.
  - intros [H1 H2] k Hk NZ. split; intros f v -> Ef.
    + rewrite lower_ok in H1. eauto.
    + rewrite upper_ok in H2. eauto.
  - intro H. split.
    + destruct lb as [f|]; [|constructor]. rewrite lower_ok. intros k v Hk E NZ. eapply H; eauto.
    + destruct ub as [f|]; [|constructor]. rewrite upper_ok. intros k v Hk E NZ. eapply H; eauto.
Qed.
Lemma dot_plus n g h y : dot n (fun j => g j + h j) y = dot n g y + dot n h y.
Proof. unfold dot. rewrite <- total_plus. apply total_ext. intros; ring. Qed.
Lemma with_penalty_val n mu rows fg x : fst (with_penalty n mu rows fg x) = fst (fg x) + fst (linear_penalty n mu rows x).
Proof. unfold with_penalty. destruct (linear_penalty n mu rows x), (fg x). reflexivity. Qed.
Lemma constrained_tol_subgradient k n A b w mu rows x : proper_mat (S k) n A -> non_negative (S k) w -> 0 <= mu ->
  subgradient n (fun y => - tol_value k n A b y w + fst (linear_penalty n mu rows y)) x (snd (with_penalty n mu rows (tol_fg k n A b w) x)).
Proof.
  intros P W M y. assert (H1 := tol_subgradient k n A b w x P W y). assert (H2 := penalty_sub n mu rows x M y).
  cbv beta in H1, H2 |- *. unfold with_penalty. destruct (linear_penalty n mu rows x) as [p dp], (tol_fg k n A b w x) as [f g]. cbn [fst snd] in *. cbv beta in *. rewrite dot_plus. cbn [fst] in *. lra.
Qed.
Lemma constrained_tol_value k n A b w mu rows x : proper_mat (S k) n A ->
  fst (with_penalty n mu rows (tol_fg k n A b w) x) = - tol_value k n A b x w + fst (linear_penalty n mu rows x).
Proof. intro P. rewrite with_penalty_val, tol_fg_value by assumption. reflexivity. Qed.
Lemma tol_concave k n A b w x y l : proper_mat (S k) n A -> non_negative (S k) w -> 0 <= l <= 1 ->
  l * tol_value k n A b x w + (1 - l) * tol_value k n A b y w <= tol_value k n A b (fun j => l * x j + (1 - l) * y j) w.
Proof.
  intros P W L. set (z := fun j => l * x j + (1 - l) * y j).
  assert (Hx := tol_subgradient k n A b w z P W x). assert (Hy := tol_subgradient k n A b w z P W y). cbv beta in Hx, Hy.
  set (g := snd (tol_fg k n A b w z)) in *.
  assert (E : l * dot n g (minus x z) + (1 - l) * dot n g (minus y z) = 0).
  { rewrite <- !dot_scal. unfold dot. rewrite <- total_plus. apply total_0. intros j _. unfold minus, z. ring. }
  nra.
Qed.
