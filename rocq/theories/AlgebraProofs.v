(** Algebraic laws of the interval operations that survive rounding. *)
From Coq Require Import ZArith Reals List Bool Lia Lra Psatz.
From Coq Require Import Floats.SpecFloat.
From Flocq Require Import Core IEEE754.BinarySingleNaN.
From Verif Require Import Base PyNum Kernel Spec SpecIso XReal XArith KernelProofs Expr ExprProofs KernelAlg KernelMore Witness.
Import ListNotations.
Open Scope R_scope.

Definition flt_ends (Z : itv) : Prop := exists i u, lo Z = PFlt i /\ hi Z = PFlt u.
(** Every element of [S] lies between two elements of [S2]. *)
Definition covered (S S2 : R -> Prop) : Prop := forall r, S r -> exists r1 r2, S2 r1 /\ S2 r2 /\ r1 <= r <= r2.

Lemma num_le_R_up x r s : num_le_R x r -> r <= s -> num_le_R x s.
Proof. rewrite !num_le_R_x. apply xle_R_trans. Qed.
Lemma R_le_num_down x r s : R_le_num s x -> r <= s -> R_le_num r x.
Proof. rewrite !R_le_num_x. apply R_xle_trans. Qed.

Lemma tight_covered (S S2 : R -> Prop) Z Z2 :
  covered S S2 -> tight S Z -> tight S2 Z2 -> (exists r, S r) -> flt_ends Z2 -> inside Z Z2.
Proof.
  intros HS TZ [[H3 _] [H4 _]] EX F. 
  assert (B : forall r, S r -> num_le_R (lo Z2) r /\ R_le_num r (hi Z2)).
  { intros r Hr. destruct (HS r Hr) as (r1 & r2 & P1 & P2 & L1 & L2). split.
    - now apply num_le_R_up with r1; [apply H3|].
    - now apply R_le_num_down with r2; [apply H4|]. }
  destruct TZ as [[_ G1] [_ G2]], F as (i & u & Ei & Eu), EX as (r & Hr).
  rewrite Ei, Eu in B. unfold inside. rewrite Ei, Eu. split.
  - apply G1; [|intros s Hs; now apply B]. apply not_true_is_false. rewrite is_nan_x. destruct (B r Hr) as [B1 _].
    rewrite num_le_R_x in B1. simpl in B1. intro E; rewrite E in B1; exact B1.
  - apply G2; [|intros s Hs; now apply B]. apply not_true_is_false. rewrite is_nan_x. destruct (B r Hr) as [_ B1].
    rewrite R_le_num_x in B1. simpl in B1. intro E; rewrite E in B1; exact B1.
Qed.

Lemma inside_eq Z Z2 : inside Z Z2 -> inside Z2 Z -> py_eq Z (OItv Z2) = true.
Proof.
  intros [A1 A2] [B1 B2]. rewrite num_le_x in *. apply py_eq_spec.
  assert (E1 := xleb_antisym _ _ A1 B1). assert (E2 := xleb_antisym _ _ A2 B2).
  split; [now symmetry|]. split; [assumption|]. split; intro E; [rewrite E in B1|rewrite E in A2]; simpl in *; try discriminate.
Qed.
Lemma tight_eq (S S2 : R -> Prop) Z Z2 : covered S S2 -> covered S2 S -> tight S Z -> tight S2 Z2 -> (exists r, S r) ->
  flt_ends Z -> flt_ends Z2 -> py_eq Z (OItv Z2) = true.
Proof.
  intros C1 C2 T1 T2 (r & Hr) F1 F2. apply inside_eq.
  - now apply (tight_covered S S2); try assumption; exists r.
  - apply (tight_covered S2 S); try assumption. destruct (C1 r Hr) as (r1 & _ & P & _). now exists r1.
Qed.
Lemma covered_sub (S S2 : R -> Prop) : (forall r, S r -> S2 r) -> covered S S2.
Proof. intros H r Hr. exists r, r. repeat split; auto; lra. Qed.
Lemma tight_same (S S2 : R -> Prop) Z Z2 : (forall r, S r <-> S2 r) -> tight S Z -> tight S2 Z2 -> (exists r, S r) ->
  flt_ends Z -> flt_ends Z2 -> py_eq Z (OItv Z2) = true.
Proof. intros H. apply tight_eq; apply covered_sub; intros; now apply H. Qed.

Lemma plain_tight o X Y m : plain X -> plain Y -> (o = OpDiv -> ~ member Y 0) ->
  exists Z, returns (py_op o (OItv X) (OItv Y)) m Z /\ tight (image2 (opR o) X Y) Z /\ flt_ends Z.
Proof.
  intros (kX & sX & PX) (kY & sY & PY) H. apply op_tight; try assumption. intro E. now apply contains0_false, H.
Qed.
Lemma plain_kind o X Y m Z : plain X -> plain Y -> (o = OpDiv -> ~ member Y 0) -> returns (py_op o (OItv X) (OItv Y)) m Z -> kd Z = Classical.
Proof.
  intros (kX & sX & PX) (kY & sY & PY) H HZ.
  assert (G : exists xi xu, gives (py_op o (OItv X) (OItv Y)) m Classical xi xu).
  { destruct o; cbv [py_op py_add py_sub py_mul py_div].
    - eexists _, _. assert (G := add_gives X Y m sX sY). rewrite kX, kY in G. exact G.
    - eexists _, _. assert (G := sub_gives X Y m sX sY). rewrite kX, kY in G. exact G.
    - eexists _, _. exact (mul_gives X Y m sX sY kX kY).
    - eexists _, _. apply (div_gives X Y m sX sY kX kY); [now apply contains0_false, H|].
      right. destruct (proper_fin_x Y PY) as (c & d & -> & -> & Hcd & _). now apply xleb_fin. }
  destruct G as (xi & xu & G). destruct (gives_returns _ _ _ _ _ G) as (Z2 & H2 & K & _).
  replace Z with Z2 by (unfold returns in *; congruence). exact K.
Qed.
Lemma plain_image o X Y : plain X -> plain Y -> exists r, image2 (opR o) X Y r.
Proof. intros (_ & _ & PX) (_ & _ & PY). now apply image2_ex. Qed.
Lemma flt_ends_small Z : flt_ends Z -> small_itv Z.
Proof. intros (i & u & E1 & E2). unfold small_itv. rewrite E1, E2. split; exact I. Qed.

(** ** Negation *)
Lemma mem_neg X y : member (neg X) y <-> member X (- y).
Proof.
  rewrite !member_x. unfold neg. cbn [lo hi]. rewrite !num_neg_x. destruct (xval (lo X)), (xval (hi X)); cbn; (split; intros [P Q]; split); try assumption; try contradiction; try exact I; lra.
Qed.
Lemma fin_neg x : finite_num x -> finite_num (num_neg x).
Proof. destruct x as [|f]; simpl; [trivial|]. intro. unfold fneg. now rewrite is_finite_Bopp. Qed.
Lemma plain_neg X : plain X -> plain (neg X).
Proof.
  intros (kX & sX & (F1 & F2) & O). split; [exact kX|]. split; [now apply small_itv_neg|].
  split; [split; cbn; now apply fin_neg|]. unfold neg. cbn [lo hi]. rewrite !num_val_neg. lra.
Qed.
Lemma flt_neg Z : flt_ends Z -> flt_ends (neg Z).
Proof. intros (i & u & E1 & E2). exists (fneg u), (fneg i). unfold neg. cbn [lo hi]. rewrite E1, E2. now split. Qed.
Lemma neg_le a b : num_le (num_neg a) (num_neg b) = num_le b a.
Proof. rewrite !num_le_x, !num_neg_x. apply xopp_xleb. Qed.
Lemma neg_le_R x r : num_le_R (num_neg x) r <-> R_le_num (- r) x.
Proof. rewrite num_le_R_x, R_le_num_x, num_neg_x. destruct (xval x); cbn; try tauto; split; intro; lra. Qed.
Lemma R_le_neg x r : R_le_num r (num_neg x) <-> num_le_R x (- r).
Proof. rewrite num_le_R_x, R_le_num_x, num_neg_x. destruct (xval x); cbn; try tauto; split; intro; lra. Qed.
Lemma nan_neg g : is_nan g = false -> is_nan (fneg g) = false.
Proof. intro. unfold fneg. now rewrite is_nan_Bopp. Qed.
Lemma tight_neg (S : R -> Prop) Z : tight S Z -> tight (fun r => S (- r)) (neg Z).
Proof.
  intros [[L1 L2] [U1 U2]]. unfold neg. split; split; cbn [lo hi].
  - intros r Hr. apply neg_le_R. now apply U1.
  - intros g Ng Hg. rewrite <- (num_neg_neg (PFlt g)). rewrite neg_le. cbn [num_neg]. apply U2; [now apply nan_neg|].
    intros r Hr. apply (R_le_neg (PFlt g)). apply (Hg (- r)). now rewrite Ropp_involutive.
  - intros r Hr. apply R_le_neg. now apply L1.
  - intros g Ng Hg. rewrite <- (num_neg_neg (PFlt g)). rewrite neg_le. cbn [num_neg]. apply L2; [now apply nan_neg|].
    intros r Hr. apply (neg_le_R (PFlt g)). apply (Hg (- r)). now rewrite Ropp_involutive.
Qed.

Ltac law o X Y m HX HY H0 Z := destruct (plain_tight o X Y m HX HY H0) as (Z & ?R & ?T & ?F).

Lemma commutes o X Y m : (o = OpAdd \/ o = OpMul) -> plain X -> plain Y ->
  exists Z Z2, returns (py_op o (OItv X) (OItv Y)) m Z /\ returns (py_op o (OItv Y) (OItv X)) m Z2 /\ py_eq Z (OItv Z2) = true.
Proof.
  intros Ho HX HY. assert (ND : o <> OpDiv) by (now destruct Ho; subst o).
  destruct (plain_tight o X Y m HX HY) as (Z & R1 & T1 & F1); [easy|].
  destruct (plain_tight o Y X m HY HX) as (Z2 & R2 & T2 & F2); [easy|].
  exists Z, Z2. split; [assumption|]. split; [assumption|].
  apply (tight_same _ _ _ _ ) with (2 := T1) (3 := T2); try assumption; [|now apply plain_image].
  intro r. split; intros (x & y & Hx & Hy & ->); exists y, x; (split; [assumption|]); (split; [assumption|]); destruct Ho; subst o; cbn; ring.
Qed.
Lemma minus_swapped X Y m : plain X -> plain Y ->
  exists Z Z2, returns (py_sub (OItv X) (OItv Y)) m Z /\ returns (py_sub (OItv Y) (OItv X)) m Z2 /\ py_eq Z (OItv (neg Z2)) = true.
Proof.
  intros HX HY. destruct (plain_tight OpSub X Y m HX HY) as (Z & R1 & T1 & F1); [easy|].
  destruct (plain_tight OpSub Y X m HY HX) as (Z2 & R2 & T2 & F2); [easy|].
  exists Z, Z2. split; [assumption|]. split; [assumption|].
  apply (tight_same _ _ _ _ ) with (2 := T1) (3 := tight_neg _ _ T2); try assumption; [|now apply (plain_image OpSub)|now apply flt_neg].
  intro r. split; intros (x & y & Hx & Hy & E); exists y, x; (split; [assumption|]); (split; [assumption|]); cbn in *; lra.
Qed.
Lemma minus_plus X Y m : plain X -> plain Y ->
  exists Z Z2, returns (py_sub (OItv X) (OItv Y)) m Z /\ returns (py_add (OItv X) (OItv (neg Y))) m Z2 /\ py_eq Z (OItv Z2) = true.
Proof.
  intros HX HY. destruct (plain_tight OpSub X Y m HX HY) as (Z & R1 & T1 & F1); [easy|].
  destruct (plain_tight OpAdd X (neg Y) m HX (plain_neg Y HY)) as (Z2 & R2 & T2 & F2); [easy|].
  exists Z, Z2. split; [assumption|]. split; [assumption|].
  apply (tight_same _ _ _ _ ) with (2 := T1) (3 := T2); try assumption; [|now apply (plain_image OpSub)].
  intro r. split; intros (x & y & Hx & Hy & ->); exists x, (- y); (split; [assumption|]).
  - split; [apply mem_neg; now rewrite Ropp_involutive|]. cbn. ring.
  - split; [now apply mem_neg|]. cbn. ring.
Qed.
Lemma not0_neg Y : ~ member Y 0 -> ~ member (neg Y) 0.
Proof. intros H K. apply mem_neg in K. rewrite Ropp_0 in K. now apply H. Qed.
Lemma sign_left o X Y m : (o = OpMul \/ o = OpDiv) -> plain X -> plain Y -> (o = OpDiv -> ~ member Y 0) ->
  exists Z Z2, returns (py_op o (OItv X) (OItv Y)) m Z /\ returns (py_op o (OItv (neg X)) (OItv Y)) m Z2 /\ py_eq Z2 (OItv (neg Z)) = true.
Proof.
  intros Ho HX HY H0. destruct (plain_tight o X Y m HX HY H0) as (Z & R1 & T1 & F1).
  destruct (plain_tight o (neg X) Y m (plain_neg X HX) HY H0) as (Z2 & R2 & T2 & F2).
  exists Z, Z2. split; [assumption|]. split; [assumption|].
  apply (tight_same _ _ _ _ ) with (2 := T2) (3 := tight_neg _ _ T1); try assumption; [|apply plain_image; [now apply plain_neg|assumption]|now apply flt_neg].
  intro r. split; intros (x & y & Hx & Hy & E); exists (- x), y.
  - split; [now apply mem_neg|]. split; [assumption|]. rewrite E. destruct Ho; subst o; cbn; unfold Rdiv; ring.
  - split; [apply mem_neg; now rewrite Ropp_involutive|]. split; [assumption|]. rewrite <- (Ropp_involutive r), E. destruct Ho; subst o; cbn; unfold Rdiv; ring.
Qed.
Lemma sign_right o X Y m : (o = OpMul \/ o = OpDiv) -> plain X -> plain Y -> (o = OpDiv -> ~ member Y 0) ->
  exists Z Z2, returns (py_op o (OItv X) (OItv Y)) m Z /\ returns (py_op o (OItv X) (OItv (neg Y))) m Z2 /\ py_eq Z2 (OItv (neg Z)) = true.
Proof.
  intros Ho HX HY H0. destruct (plain_tight o X Y m HX HY H0) as (Z & R1 & T1 & F1).
  destruct (plain_tight o X (neg Y) m HX (plain_neg Y HY)) as (Z2 & R2 & T2 & F2).
  { intro E. now apply not0_neg, H0. }
  exists Z, Z2. split; [assumption|]. split; [assumption|].
  apply (tight_same _ _ _ _ ) with (2 := T2) (3 := tight_neg _ _ T1); try assumption; [|apply plain_image; [assumption|now apply plain_neg]|now apply flt_neg].
  assert (A : forall x y, opR o x (- y) = - opR o x y).
  { intros x y. destruct Ho; subst o; cbn; [ring|]. unfold Rdiv. rewrite Rinv_opp. ring. }
  intro r. split; intros (x & y & Hx & Hy & E); exists x, (- y); (split; [assumption|]).
  - split; [now apply mem_neg|]. rewrite E, A. reflexivity.
  - split; [apply mem_neg; now rewrite Ropp_involutive|]. rewrite A, <- E. ring.
Qed.

(** ** Operands that are numbers *)
Definition pt (c : pynum) : itv := mkitv Classical c c.
Lemma pt_plain c : small_num c -> finite_num c -> plain (pt c).
Proof. intros s f. split; [reflexivity|]. split; [now split|]. split; [now split|]. cbn. lra. Qed.
Lemma pt_member c y : finite_num c -> member (pt c) y <-> y = num_val c.
Proof. intro f. rewrite member_x. apply finite_num_x in f. cbn [pt lo hi]. rewrite f. cbn. lra. Qed.
Lemma radd_pt X c m : plain X -> small_num c -> finite_num c ->
  exists Z, returns (radd X c) m Z /\ flt_ends Z /\ tight (image2 Rplus X (pt c)) Z.
Proof.
  intros HX sc fc. destruct (plain_tight OpAdd X (pt c) m HX (pt_plain c sc fc)) as (Z & R1 & T1 & F1); [easy|].
  destruct HX as (kX & sX & PX). exists Z. split; [|now split].
  revert R1. cbv [py_op py_add]. unfold itv_add, pt, radd. cbn [lo hi kd]. rewrite kX. trivial.
Qed.
Lemma xmin2_glb g a b : a <> XNan -> b <> XNan -> xleb g a = true -> xleb g b = true -> xleb g (xmin2 a b) = true.
Proof. intros _ _ H1 H2. unfold xmin2. now destruct xltb. Qed.
Lemma rmul_pt X c m : plain X -> small_num c -> finite_num c ->
  exists Z, returns (rmul X c) m Z /\ flt_ends Z /\ tight (image2 Rmult X (pt c)) Z.
Proof.
  intros (kX & sX & PX) sc fc. destruct (rmul_encl X c m sX sc fc kX) as (Z & HZ & E).
  assert (G := rmul_gives X c m sX sc kX). assert (F := gives_flt _ _ _ _ _ _ G HZ).
  destruct (gives_returns _ _ _ _ _ G) as (Z2 & H2 & _ & Hl & Hh & _).
  assert (Z2 = Z) by (unfold returns in *; congruence). subst Z2. clear H2 G.
  destruct (proper_fin_x X PX) as (a & b & Ha & Hb & Hab & _). assert (Hc := proj1 (finite_num_x c) fc).
  destruct (proper_members X a b Ha Hb Hab) as [Ma Mb].
  rewrite Ha, Hb, Hc in Hl, Hh.
  assert (NN : xval (lo Z) <> XNan) by (rewrite Hl; apply xmin2_nnan; apply xround_not_nan).
  assert (E' : forall x, member X x -> member Z (num_val c * x)).
  { intros x Hx. destruct (E x Hx) as [N|]; [|assumption]. apply nan_itv_x in N. now destruct N. }
  exists Z. split; [assumption|]. split; [assumption|].
  assert (B : forall r, image2 Rmult X (pt c) r -> member Z r).
  { intros r (x & y & Hx & Hy & ->). apply (pt_member c y fc) in Hy. subst y. rewrite Rmult_comm. now apply E'. }
  assert (I1 : image2 Rmult X (pt c) (num_val c * a)) by (exists a, (num_val c); split; [assumption|]; split; [now apply pt_member|ring]).
  assert (I2 : image2 Rmult X (pt c) (num_val c * b)) by (exists b, (num_val c); split; [assumption|]; split; [now apply pt_member|ring]).
  split; split.
  - intros r Hr. now apply B.
  - intros g Ng Hg. rewrite num_le_x, Hl. unfold xmin2. assert (D : is_dbl (xval (PFlt g))) by now exists g.
    assert (A : forall r, image2 Rmult X (pt c) r -> xle_R (xval (PFlt g)) r) by (intros r Hr; apply (num_le_R_x (PFlt g)); now apply Hg).
    destruct xltb; apply xround_DN_greatest; auto.
  - intros r Hr. now apply B.
  - intros g Ng Hg. rewrite num_le_x, Hh. unfold xmax2. assert (D : is_dbl (xval (PFlt g))) by now exists g.
    assert (A : forall r, image2 Rmult X (pt c) r -> R_xle r (xval (PFlt g))) by (intros r Hr; apply (R_le_num_x (PFlt g)); now apply Hg).
    destruct xltb; apply xround_UP_least; auto.
Qed.
Lemma rsub_pt X c m : plain X -> small_num c -> finite_num c ->
  exists Z, returns (rsub X c) m Z /\ flt_ends Z /\ tight (image2 Rminus (pt c) X) Z.
Proof.
  intros HX sc fc. destruct (plain_tight OpSub (pt c) X m (pt_plain c sc fc) HX) as (Z & R1 & T1 & F1); [easy|].
  destruct HX as (kX & sX & PX). exists Z. split; [|now split].
  revert R1. cbv [py_op py_sub]. unfold itv_sub, pt, rsub. cbn [lo hi kd]. rewrite kX. trivial.
Qed.

Lemma image2_swap op op2 X Y r : (forall x y, op x y = op2 y x) -> image2 op X Y r <-> image2 op2 Y X r.
Proof. intro H. split; intros (x & y & Hx & Hy & ->); exists y, x; (split; [assumption|]); (split; [assumption|]); now rewrite H. Qed.
(** [X op c] is [X op [c, c]], and [c op X] is [[c, c] op X]. *)
Lemma number_right o X c m : o <> OpDiv -> plain X -> small_num c -> finite_num c ->
  exists Z Z2, returns (py_op o (OItv X) (ONum c)) m Z /\ returns (py_op o (OItv X) (OItv (pt c))) m Z2 /\ py_eq Z (OItv Z2) = true.
Proof.
  intros No HX sc fc. destruct (plain_tight o X (pt c) m HX (pt_plain c sc fc)) as (Z2 & R2 & T2 & F2); [easy|].
  assert (EX := plain_image o X (pt c) HX (pt_plain c sc fc)).
  destruct o; [| | |easy]; cbv [py_op py_add py_sub py_mul itv_add itv_sub itv_mul].
  - destruct (radd_pt X c m HX sc fc) as (Z & R & F & T). exists Z, Z2. split; [exact R|]. split; [exact R2|].
    now apply (tight_same _ _ _ _) with (2 := T) (3 := T2).
  - destruct (radd_pt X (num_neg c) m HX (small_neg c sc) (fin_neg c fc)) as (Z & R & F & T). exists Z, Z2. split; [exact R|]. split; [exact R2|].
    apply (tight_same _ _ _ _) with (2 := T) (3 := T2); try assumption.
    + intro r. split; intros (x & y & Hx & Hy & ->); exists x, (- y); (split; [assumption|]);
        rewrite pt_member in * by (try assumption; now apply fin_neg); subst y; rewrite ?num_val_neg; (split; [ring|]); cbn; ring.
    + destruct EX as (r & x & y & Hx & Hy & E). exists (x + num_val (num_neg c)), x, (num_val (num_neg c)). split; [assumption|].
      split; [|reflexivity]. apply pt_member; [now apply fin_neg|reflexivity].
  - destruct (rmul_pt X c m HX sc fc) as (Z & R & F & T). exists Z, Z2. split; [exact R|]. split; [exact R2|].
    now apply (tight_same _ _ _ _) with (2 := T) (3 := T2).
Qed.
Lemma number_left o X c m : o <> OpDiv -> plain X -> small_num c -> finite_num c ->
  exists Z Z2, returns (py_op o (ONum c) (OItv X)) m Z /\ returns (py_op o (OItv (pt c)) (OItv X)) m Z2 /\ py_eq Z (OItv Z2) = true.
Proof.
  intros No HX sc fc. destruct (plain_tight o (pt c) X m (pt_plain c sc fc) HX) as (Z2 & R2 & T2 & F2); [easy|].
  assert (EX := plain_image o (pt c) X (pt_plain c sc fc) HX).
  assert (EX2 := fun o => plain_image o X (pt c) HX (pt_plain c sc fc)).
  destruct o; [| | |easy]; cbv [py_op py_add py_sub py_mul].
  - destruct (radd_pt X c m HX sc fc) as (Z & R & F & T). exists Z, Z2. split; [exact R|]. split; [exact R2|].
    apply (tight_same _ _ _ _) with (2 := T) (3 := T2); try assumption; [|exact (EX2 OpAdd)].
    intro r. apply image2_swap. intros. cbn. ring.
  - destruct (rsub_pt X c m HX sc fc) as (Z & R & F & T). exists Z, Z2. split; [exact R|]. split; [exact R2|].
    now apply (tight_same _ _ _ _) with (2 := T) (3 := T2).
  - destruct (rmul_pt X c m HX sc fc) as (Z & R & F & T). exists Z, Z2. split; [exact R|]. split; [exact R2|].
    apply (tight_same _ _ _ _) with (2 := T) (3 := T2); try assumption; [|exact (EX2 OpMul)].
    intro r. apply image2_swap. intros. cbn. ring.
Qed.

(** ** Neutral elements *)
Lemma small_dbl x : small_num x -> is_dbl (xval x).
Proof.
  intro H. destruct (to_double_exact x) as (f & _ & E); [|exists f; exact E].
  destruct x as [z|f]; simpl in *; [|trivial]. apply Z.le_trans with (1 := H). discriminate.
Qed.
Lemma tight_self X Z (S : R -> Prop) : plain X -> (forall r, member X r <-> S r) -> tight S Z -> flt_ends Z -> py_eq Z (OItv X) = true.
Proof.
  intros (kX & (s1 & s2) & PX) HS [[L1 L2] [U1 U2]] (i & u & Ei & Eu).
  destruct (proper_fin_x X PX) as (a & b & Ha & Hb & Hab & _). destruct (proper_members X a b Ha Hb Hab) as [Ma Mb].
  apply HS in Ma, Mb. destruct (small_dbl _ s1) as (f & Ef), (small_dbl _ s2) as (g & Eg).
  assert (Nf : is_nan f = false) by (apply not_true_is_false; rewrite is_nan_x; congruence).
  assert (Ng : is_nan g = false) by (apply not_true_is_false; rewrite is_nan_x; congruence).
  assert (A1 : num_le (PFlt f) (lo Z) = true).
  { apply L2; [assumption|]. intros r Hr. apply HS in Hr. rewrite member_x in Hr. apply (num_le_R_x (PFlt f)). cbn [xval]. rewrite Ef. tauto. }
  assert (A2 : num_le (hi Z) (PFlt g) = true).
  { apply U2; [assumption|]. intros r Hr. apply HS in Hr. rewrite member_x in Hr. apply (R_le_num_x (PFlt g)). cbn [xval]. rewrite Eg. tauto. }
  specialize (L1 a Ma). specialize (U1 b Mb). rewrite num_le_R_x in L1. rewrite R_le_num_x in U1.
  rewrite num_le_x in A1, A2. cbn [xval] in A1, A2. rewrite Ef in A1. rewrite Eg in A2. apply py_eq_spec. rewrite Ha, Hb in *.
  assert (B1 : xval (lo Z) = XFin a) by (apply xleb_antisym; [|assumption]; destruct (xval (lo Z)); cbn in *; try contradiction; try reflexivity; try discriminate; now apply xleb_fin).
  assert (B2 : xval (hi Z) = XFin b) by (apply xleb_antisym; [assumption|]; destruct (xval (hi Z)); cbn in *; try contradiction; try reflexivity; try discriminate; now apply xleb_fin).
  rewrite B1, B2. repeat split; discriminate.
Qed.
Lemma neutral_zero X c m : plain X -> small_num c -> finite_num c -> num_val c = 0 ->
  (exists Z, returns (py_add (OItv X) (ONum c)) m Z /\ py_eq Z (OItv X) = true) /\
  (exists Z, returns (py_add (ONum c) (OItv X)) m Z /\ py_eq Z (OItv X) = true) /\
  (exists Z, returns (py_sub (OItv X) (ONum c)) m Z /\ py_eq Z (OItv X) = true) /\
  (exists Z, returns (py_sub (ONum c) (OItv X)) m Z /\ py_eq Z (OItv (neg X)) = true) /\
  (exists Z, returns (py_mul (OItv X) (ONum c)) m Z /\ py_eq Z (ONum c) = true) /\
  (exists Z, returns (py_mul (ONum c) (OItv X)) m Z /\ py_eq Z (ONum c) = true).
Proof.
  intros HX sc fc E0. cbv [py_add py_sub py_mul itv_add itv_sub itv_mul].
  assert (Mpt : forall r, member (pt c) r <-> r = 0) by (intro r; rewrite pt_member, E0; tauto).
  assert (ADD : exists Z, returns (radd X c) m Z /\ py_eq Z (OItv X) = true).
  { destruct (radd_pt X c m HX sc fc) as (Z & R & F & T). exists Z. split; [exact R|].
    apply (tight_self X Z) with (3 := T); try assumption. intro r. split.
    - intro Hr. exists r, 0. split; [assumption|]. split; [now apply Mpt|ring].
    - intros (x & y & Hx & Hy & ->). apply Mpt in Hy. subst y. now rewrite Rplus_0_r. }
  assert (MUL : exists Z, returns (rmul X c) m Z /\ py_eq Z (ONum c) = true).
  { destruct (rmul_pt X c m HX sc fc) as (Z & R & F & T). exists Z. split; [exact R|].
    apply (tight_self (pt c) Z) with (3 := T); [now apply pt_plain| |assumption]. intro r. rewrite Mpt. split.
    - intros ->. destruct HX as (_ & _ & PX). destruct (proper_fin_x X PX) as (a & b & Ha & Hb & Hab & _). destruct (proper_members X a b Ha Hb Hab) as [Ma Mb].
      exists a, 0. split; [assumption|]. split; [now apply Mpt|ring].
    - intros (x & y & Hx & Hy & ->). apply Mpt in Hy. subst y. ring. }
  split; [exact ADD|]. split; [exact ADD|]. split.
  { assert (fn := fin_neg c fc). destruct (radd_pt X (num_neg c) m HX (small_neg c sc) fn) as (Z & R & F & T). exists Z. split; [exact R|].
    apply (tight_self X Z) with (3 := T); try assumption. intro r. split.
    - intro Hr. exists r, 0. split; [assumption|]. split; [apply pt_member; [assumption|rewrite num_val_neg, E0; ring]|ring].
    - intros (x & y & Hx & Hy & ->). apply (pt_member _ _ fn) in Hy. rewrite num_val_neg, E0 in Hy. subst y. now replace (x + - 0) with x by ring. }
  split.
  { destruct (rsub_pt X c m HX sc fc) as (Z & R & F & T). exists Z. split; [exact R|].
    apply (tight_self (neg X) Z) with (3 := T); [now apply plain_neg| |assumption]. intro r. rewrite mem_neg. split.
    - intro Hr. exists 0, (- r). split; [now apply Mpt|]. split; [assumption|ring].
    - intros (x & y & Hx & Hy & ->). apply Mpt in Hx. subst x. now replace (- (0 - y)) with y by ring. }
  split; exact MUL.
Qed.
Lemma neutral_one X c m : plain X -> small_num c -> finite_num c -> num_val c = 1 ->
  (exists Z, returns (py_mul (OItv X) (ONum c)) m Z /\ py_eq Z (OItv X) = true) /\
  (exists Z, returns (py_mul (ONum c) (OItv X)) m Z /\ py_eq Z (OItv X) = true) /\
  (exists Z, returns (py_div (OItv X) (OItv (pt c))) m Z /\ py_eq Z (OItv X) = true).
Proof.
  intros HX sc fc E1. cbv [py_mul itv_mul].
  assert (MUL : exists Z, returns (rmul X c) m Z /\ py_eq Z (OItv X) = true).
  { destruct (rmul_pt X c m HX sc fc) as (Z & R & F & T). exists Z. split; [exact R|].
    apply (tight_self X Z) with (3 := T); try assumption. intro r. split.
    - intro Hr. exists r, 1. split; [assumption|]. split; [now apply pt_member|ring].
    - intros (x & y & Hx & Hy & ->). apply (pt_member _ _ fc) in Hy. rewrite Hy, E1, Rmult_1_r. assumption. }
  split; [exact MUL|]. split; [exact MUL|].
  destruct (plain_tight OpDiv X (pt c) m HX (pt_plain c sc fc)) as (Z & R & T & F).
  { intros _ K. apply (pt_member _ _ fc) in K. lra. }
  exists Z. split; [exact R|]. apply (tight_self X Z) with (3 := T); try assumption. intro r. split.
  - intro Hr. exists r, 1. split; [assumption|]. split; [now apply pt_member|cbn; field].
  - intros (x & y & Hx & Hy & ->). apply (pt_member _ _ fc) in Hy. rewrite Hy, E1. cbn. now replace (x / 1) with x by field.
Qed.

(** ** X - X and X / X *)
Lemma py_eq_num Z c : py_eq Z (ONum c) = py_eq Z (OItv (pt c)).
Proof. reflexivity. Qed.
Lemma eq_only Z c r : finite_num c -> py_eq Z (ONum c) = true -> member Z r -> r = num_val c.
Proof.
  intros fc E M. rewrite py_eq_num in E. apply py_eq_spec in E. destruct E as (E1 & E2 & _). cbn [pt lo hi] in E1, E2. apply (pt_member c r fc).
  rewrite member_x in *. cbn [pt lo hi]. rewrite <- E1 at 1. rewrite <- E2. exact M.
Qed.
Lemma minus_self X m : plain X -> exists Z, returns (py_sub (OItv X) (OItv X)) m Z /\ member Z 0 /\ py_eq Z (OItv (neg Z)) = true /\
  (py_eq Z (ONum (PInt 0)) = true <-> num_val (lo X) = num_val (hi X)).
Proof.
  intros HX. destruct (plain_tight OpSub X X m HX HX) as (Z & R & T & F); [easy|].
  destruct (minus_swapped X X m HX HX) as (Z1 & Z2 & R1 & R2 & E). exists Z. split; [exact R|].
  assert (Z1 = Z) by (cbn [py_op] in R; unfold returns in *; congruence). assert (Z2 = Z) by (cbn [py_op] in R; unfold returns in *; congruence). subst Z1 Z2.
  assert (PX := HX). destruct PX as (_ & _ & PX). destruct (proper_fin_x X PX) as (a & b & Ha & Hb & Hab & Ea & Eb). destruct (proper_members X a b Ha Hb Hab) as [Ma Mb].
  assert (B : forall r, image2 (opR OpSub) X X r -> member Z r) by (intros r Hr; destruct T as [[L _] [U _]]; split; auto).
  split; [apply B; exists a, a; split; [assumption|]; split; [assumption|]; cbn; ring|]. split; [exact E|]. rewrite <- Ea, <- Eb. split.
  - intro E0. assert (K : b - a = num_val (PInt 0)) by (apply (eq_only Z); [exact I|exact E0|]; apply B; exists b, a; split; [assumption|]; split; [assumption|]; reflexivity). cbn in K. lra.
  - intro Eab. rewrite py_eq_num. apply (tight_self (pt (PInt 0)) Z) with (3 := T); [apply pt_plain; cbn; [lia|exact I]| |assumption].
    intro r. rewrite pt_member by exact I. cbn [num_val]. split.
    + intros ->. exists a, a. split; [assumption|]. split; [assumption|]. cbn. ring.
    + intros (x & y & Hx & Hy & ->). rewrite member_x, Ha, Hb in Hx, Hy. cbn in *. lra.
Qed.
Lemma over_self X m : plain X -> ~ member X 0 -> exists Z, returns (py_div (OItv X) (OItv X)) m Z /\ member Z 1 /\
  (py_eq Z (ONum (PInt 1)) = true <-> num_val (lo X) = num_val (hi X)).
Proof.
  intros HX N0. destruct (plain_tight OpDiv X X m HX HX) as (Z & R & T & F); [easy|]. exists Z. split; [exact R|].
  assert (PX := HX). destruct PX as (_ & _ & PX). destruct (proper_fin_x X PX) as (a & b & Ha & Hb & Hab & Ea & Eb). destruct (proper_members X a b Ha Hb Hab) as [Ma Mb].
  assert (a <> 0) by (intros ->; now apply N0). assert (b <> 0) by (intros ->; now apply N0).
  assert (B : forall r, image2 (opR OpDiv) X X r -> member Z r) by (intros r Hr; destruct T as [[L _] [U _]]; split; auto).
  split; [apply B; exists a, a; split; [assumption|]; split; [assumption|]; cbn; now field|]. rewrite <- Ea, <- Eb. split.
  - intro E0. assert (K : b / a = num_val (PInt 1)) by (apply (eq_only Z); [exact I|exact E0|]; apply B; exists b, a; split; [assumption|]; split; [assumption|]; reflexivity). cbn in K.
    apply (Rmult_eq_compat_r a) in K. unfold Rdiv in K. rewrite Rmult_assoc, Rinv_l in K by assumption. lra.
  - intro Eab. rewrite py_eq_num. apply (tight_self (pt (PInt 1)) Z) with (3 := T); [apply pt_plain; cbn; [lia|exact I]| |assumption].
    intro r. rewrite pt_member by exact I. cbn [num_val]. split.
    + intros ->. exists a, a. split; [assumption|]. split; [assumption|]. cbn. now field.
    + intros (x & y & Hx & Hy & ->). rewrite member_x, Ha, Hb in Hx, Hy. cbn in *. replace x with a by lra. replace y with a by lra. now field.
Qed.
Lemma twice X c m : plain X -> small_num c -> finite_num c -> num_val c = 2 ->
  exists Z Z2, returns (py_add (OItv X) (OItv X)) m Z /\ returns (py_mul (ONum c) (OItv X)) m Z2 /\ py_eq Z (OItv Z2) = true.
Proof.
  intros HX sc fc E2. destruct (plain_tight OpAdd X X m HX HX) as (Z & R & T & F); [easy|].
  destruct (rmul_pt X c m HX sc fc) as (Z2 & R2 & F2 & T2). exists Z, Z2. split; [exact R|]. split; [exact R2|].
  apply (tight_eq _ _ _ _) with (3 := T) (4 := T2); try assumption; [| |exact (plain_image OpAdd X X HX HX)].
  - intros r (x & y & Hx & Hy & ->). cbn.
    assert (D : forall z, member X z -> image2 Rmult X (pt c) (2 * z)) by (intros z Hz; exists z, 2; split; [assumption|]; split; [now apply pt_member|ring]).
    destruct (Rle_or_lt x y).
    + exists (2 * x), (2 * y). split; [auto|]. split; [auto|]. lra.
    + exists (2 * y), (2 * x). split; [auto|]. split; [auto|]. lra.
  - apply covered_sub. intros r (x & y & Hx & Hy & ->). apply (pt_member _ _ fc) in Hy. exists x, x. split; [assumption|]. split; [assumption|]. rewrite Hy, E2. cbn. ring.
Qed.

(** ** Cancelling *)
Lemma inside_of_members X W : plain X -> (forall x, member X x -> member W x) -> inside X W.
Proof.
  intros (_ & _ & PX) H. destruct (proper_fin_x X PX) as (a & b & Ha & Hb & Hab & _). destruct (proper_members X a b Ha Hb Hab) as [Ma Mb].
  apply H in Ma, Mb. rewrite member_x in Ma, Mb. unfold inside. rewrite !num_le_x, Ha, Hb. destruct Ma as [Ma _], Mb as [_ Mb]. split.
  - destruct (xval (lo W)); cbn in *; try contradiction; try reflexivity; now apply xleb_fin.
  - destruct (xval (hi W)); cbn in *; try contradiction; try reflexivity; now apply xleb_fin.
Qed.
Lemma some_member X : plain X -> exists x, member X x.
Proof. intros (_ & _ & PX). destruct (proper_fin_x X PX) as (a & b & Ha & Hb & Hab & _). destruct (proper_members X a b Ha Hb Hab). now exists a. Qed.
Lemma tight_member (S : R -> Prop) Z r : tight S Z -> S r -> member Z r.
Proof. intros [[L _] [U _]] Hr. split; auto. Qed.
Lemma add_sub X Y m : plain X -> plain Y ->
  exists Z W, returns (py_add (OItv X) (OItv Y)) m Z /\ returns (py_sub (OItv Z) (OItv Y)) m W /\ inside X W.
Proof.
  intros HX HY. destruct (plain_tight OpAdd X Y m HX HY) as (Z & R & T & F); [easy|].
  destruct (sub_encl Z Y m (flt_ends_small Z F) (proj1 (proj2 HY))) as (W & RW & E). exists Z, W. split; [exact R|]. split; [exact RW|].
  apply inside_of_members; [assumption|]. intros x Hx. destruct (some_member Y HY) as (y & My).
  replace x with ((x + y) - y) by ring. apply E; [|assumption]. apply (tight_member _ _ _ T). now exists x, y.
Qed.
Lemma sub_add X Y m : plain X -> plain Y ->
  exists Z W, returns (py_sub (OItv X) (OItv Y)) m Z /\ returns (py_add (OItv Z) (OItv Y)) m W /\ inside X W.
Proof.
  intros HX HY. destruct (plain_tight OpSub X Y m HX HY) as (Z & R & T & F); [easy|].
  destruct (add_encl Z Y m (flt_ends_small Z F) (proj1 (proj2 HY))) as (W & RW & E). exists Z, W. split; [exact R|]. split; [exact RW|].
  apply inside_of_members; [assumption|]. intros x Hx. destruct (some_member Y HY) as (y & My).
  replace x with ((x - y) + y) by ring. apply E; [|assumption]. apply (tight_member _ _ _ T). now exists x, y.
Qed.
(** A finite result of an operation on plain operands is plain. *)
Lemma result_plain o X Y m Z : plain X -> plain Y -> (o = OpDiv -> ~ member Y 0) -> returns (py_op o (OItv X) (OItv Y)) m Z -> finite_itv Z -> plain Z.
Proof.
  intros HX HY N0 R FZ. assert (K := plain_kind o X Y m Z HX HY N0 R).
  destruct (plain_tight o X Y m HX HY N0) as (Z2 & R2 & T & F). assert (Z2 = Z) by (unfold returns in *; congruence). subst Z2.
  split; [exact K|]. split; [now apply flt_ends_small|]. split; [exact FZ|].
  destruct (plain_image o X Y HX HY) as (r & Hr). assert (M := tight_member _ _ _ T Hr). rewrite member_x in M.
  destruct FZ as [F1 F2]. apply finite_num_x in F1, F2. rewrite F1, F2 in M. cbn in M. lra.
Qed.
Lemma mul_div X Y m Z : plain X -> plain Y -> ~ member Y 0 -> returns (py_mul (OItv X) (OItv Y)) m Z -> finite_itv Z ->
  exists W, returns (py_div (OItv Z) (OItv Y)) m W /\ inside X W.
Proof.
  intros HX HY N0 R FZ. assert (PZ := result_plain OpMul X Y m Z HX HY ltac:(easy) R FZ).
  destruct (plain_tight OpMul X Y m HX HY) as (Z2 & R2 & T & F); [easy|]. assert (Z2 = Z) by (cbn [py_op] in R2; unfold returns in *; congruence). subst Z2.
  destruct (plain_tight OpDiv Z Y m PZ HY) as (W & RW & TW & FW); [easy|]. exists W. split; [exact RW|].
  apply inside_of_members; [assumption|]. intros x Hx. destruct (some_member Y HY) as (y & My). assert (y <> 0) by (intros ->; now apply N0).
  apply (tight_member _ _ _ TW). exists (x * y), y. split; [apply (tight_member _ _ _ T); now exists x, y|]. split; [assumption|]. cbn. now field.
Qed.
Lemma div_mul X Y m Z : plain X -> plain Y -> ~ member Y 0 -> returns (py_div (OItv X) (OItv Y)) m Z -> finite_itv Z ->
  exists W, returns (py_mul (OItv Z) (OItv Y)) m W /\ inside X W.
Proof.
  intros HX HY N0 R FZ. assert (PZ := result_plain OpDiv X Y m Z HX HY ltac:(easy) R FZ).
  destruct (plain_tight OpDiv X Y m HX HY) as (Z2 & R2 & T & F); [easy|]. assert (Z2 = Z) by (cbn [py_op] in R2; unfold returns in *; congruence). subst Z2.
  destruct (plain_tight OpMul Z Y m PZ HY) as (W & RW & TW & FW); [easy|]. exists W. split; [exact RW|].
  apply inside_of_members; [assumption|]. intros x Hx. destruct (some_member Y HY) as (y & My). assert (y <> 0) by (intros ->; now apply N0).
  apply (tight_member _ _ _ TW). exists (x / y), y. split; [apply (tight_member _ _ _ T); now exists x, y|]. split; [assumption|]. cbn. now field.
Qed.

(** ** Subdistributivity *)
Lemma subdistributive X Y Z m W : plain X -> plain Y -> plain Z ->
  returns (py_add (OItv Y) (OItv Z)) m W -> finite_itv W ->
  num_val (lo W) = num_val (lo Y) + num_val (lo Z) -> num_val (hi W) = num_val (hi Y) + num_val (hi Z) ->
  exists P Q1 Q2 T, returns (py_mul (OItv X) (OItv W)) m P /\ returns (py_mul (OItv X) (OItv Y)) m Q1 /\
    returns (py_mul (OItv X) (OItv Z)) m Q2 /\ returns (py_add (OItv Q1) (OItv Q2)) m T /\ inside P T.
Proof.
  intros HX HY HZ RW FW EL EH. assert (PW := result_plain OpAdd Y Z m W HY HZ ltac:(easy) RW FW).
  destruct (plain_tight OpMul X W m HX PW) as (P & RP & TP & _); [easy|].
  destruct (plain_tight OpMul X Y m HX HY) as (Q1 & R1 & T1 & F1); [easy|].
  destruct (plain_tight OpMul X Z m HX HZ) as (Q2 & R2 & T2 & F2); [easy|].
  assert (s1 := flt_ends_small _ F1). assert (s2 := flt_ends_small _ F2).
  destruct (add_encl Q1 Q2 m s1 s2) as (T & RT & ET). exists P, Q1, Q2, T. split; [exact RP|]. split; [exact R1|]. split; [exact R2|]. split; [exact RT|].
  assert (FT := gives_flt _ _ _ _ _ _ (add_gives Q1 Q2 m s1 s2) RT).
  assert (B : forall r, image2 (opR OpMul) X W r -> member T r).
  { intros r (x & w & Hx & Hw & ->). destruct HY as (_ & _ & PY), HZ as (_ & _ & PZ), PW as (_ & _ & PW).
    destruct (proper_fin_x Y PY) as (a & b & Ha & Hb & Hab & Ea & Eb). destruct (proper_fin_x Z PZ) as (c & d & Hc & Hd & Hcd & Ec & Ed).
    destruct (proper_fin_x W PW) as (p & q & Hp & Hq & Hpq & Ep & Eq).
    rewrite member_x, Hp, Hq in Hw. cbn in Hw. rewrite <- Ea, <- Ec, <- Ep in EL. rewrite <- Eb, <- Ed, <- Eq in EH.
    assert (S : exists y z, member Y y /\ member Z z /\ w = y + z).
    { destruct (Rle_or_lt w (a + d)).
      - exists a, (w - a). rewrite !member_x, Ha, Hb, Hc, Hd. cbn. lra.
      - exists (w - d), d. rewrite !member_x, Ha, Hb, Hc, Hd. cbn. lra. }
    destruct S as (y & z & My & Mz & ->). cbn. rewrite Rmult_plus_distr_l. apply ET.
    - apply (tight_member _ _ _ T1). now exists x, y.
    - apply (tight_member _ _ _ T2). now exists x, z. }
  destruct FT as (i & u & Ei & Eu), TP as [[_ G1] [_ G2]], (plain_image OpMul X W HX PW) as (r & Hr).
  assert (Br := B r Hr). unfold inside. rewrite Ei, Eu. unfold member in Br. rewrite Ei, Eu in Br. destruct Br as [B1 B2]. split.
  - apply G1; [|intros s Hs; destruct (B s Hs) as [K _]; now rewrite Ei in K].
    apply not_true_is_false. rewrite is_nan_x. rewrite num_le_R_x in B1. simpl in B1. intro E; rewrite E in B1; exact B1.
  - apply G2; [|intros s Hs; destruct (B s Hs) as [_ K]; now rewrite Eu in K].
    apply not_true_is_false. rewrite is_nan_x. rewrite R_le_num_x in B2. simpl in B2. intro E; rewrite E in B2; exact B2.
Qed.

(** ** Laws that fail *)
Lemma obtained (c : M itv) m (test : itv -> bool) : match fst (c m) with Ok Z => test Z | Err _ => false end = true ->
  exists Z, returns c m Z /\ test Z = true.
Proof. unfold returns, outcome. destruct (fst (c m)) as [Z|e]; [|discriminate]. intro H. now exists Z. Qed.
Definition after (c : M itv) (m : rmode) (f : itv -> bool) : bool := match fst (c m) with Ok Z => f Z | Err _ => false end.
Definition tiny : pynum := PFlt (fl 1 (-53)).
Definition assoc_x := pt (PInt 1).
Definition assoc_y := pt tiny.
Lemma tiny_ok : small_num tiny /\ finite_num tiny.
Proof. split; [exact I|]. vm_compute. reflexivity. Qed.
Lemma assoc_refuted m : exists X Y Z U V P Q, plain X /\ plain Y /\ plain Z /\
  returns (py_add (OItv X) (OItv Y)) m U /\ returns (py_add (OItv U) (OItv Z)) m P /\
  returns (py_add (OItv Y) (OItv Z)) m V /\ returns (py_add (OItv X) (OItv V)) m Q /\ py_eq P (OItv Q) = false.
Proof.
  assert (A : after (py_add (OItv assoc_x) (OItv assoc_y)) m (fun U => after (py_add (OItv U) (OItv assoc_y)) m (fun P =>
    after (py_add (OItv assoc_y) (OItv assoc_y)) m (fun V => after (py_add (OItv assoc_x) (OItv V)) m (fun Q => negb (py_eq P (OItv Q)))))) = true)
    by (destruct m; vm_compute; reflexivity).
  apply obtained in A. destruct A as (U & RU & A). apply obtained in A. destruct A as (P & RP & A). apply obtained in A. destruct A as (V & RV & A).
  apply obtained in A. destruct A as (Q & RQ & A). apply negb_true_iff in A. destruct tiny_ok as [t1 t2].
  exists assoc_x, assoc_y, assoc_y, U, V, P, Q. split; [apply pt_plain; cbn; [lia|exact I]|]. split; [now apply pt_plain|]. split; [now apply pt_plain|].
  repeat (split; [assumption|]). assumption.
Qed.
Lemma distrib_refuted m : exists X Y Z W P Q1 Q2 T, plain X /\ plain Y /\ plain Z /\
  returns (py_add (OItv Y) (OItv Z)) m W /\ num_val (lo W) = num_val (lo Y) + num_val (lo Z) /\ num_val (hi W) = num_val (hi Y) + num_val (hi Z) /\
  returns (py_mul (OItv X) (OItv W)) m P /\
  returns (py_mul (OItv X) (OItv Y)) m Q1 /\ returns (py_mul (OItv X) (OItv Z)) m Q2 /\ returns (py_add (OItv Q1) (OItv Q2)) m T /\ py_eq P (OItv T) = false.
Proof.
  set (X := mkitv Classical (PInt (-1)) (PInt 1)). set (Y := pt (PInt 1)). set (Z := pt (PInt (-1))).
  assert (A : after (py_add (OItv Y) (OItv Z)) m (fun W => py_eq W (ONum (PInt 0)) && after (py_mul (OItv X) (OItv W)) m (fun P =>
    after (py_mul (OItv X) (OItv Y)) m (fun Q1 => after (py_mul (OItv X) (OItv Z)) m (fun Q2 => after (py_add (OItv Q1) (OItv Q2)) m (fun T => negb (py_eq P (OItv T))))))) = true)
    by (destruct m; vm_compute; reflexivity).
  apply obtained in A. destruct A as (W & RW & A). apply andb_true_iff in A. destruct A as [EW A]. apply obtained in A. destruct A as (P & RP & A). apply obtained in A. destruct A as (Q1 & R1 & A).
  apply obtained in A. destruct A as (Q2 & R2 & A). apply obtained in A. destruct A as (T & RT & A). apply negb_true_iff in A.
  exists X, Y, Z, W, P, Q1, Q2, T. split; [split; [reflexivity|]; split; [split; cbn; lia|]; split; [split; exact I|]; cbn; lra|].
  split; [apply pt_plain; cbn; [lia|exact I]|]. split; [apply pt_plain; cbn; [lia|exact I]|]. split; [exact RW|].
  rewrite py_eq_num in EW. apply py_eq_spec in EW. destruct EW as (E1 & E2 & _). cbn in E1, E2.
  assert (V1 := proj2 (xval_num_val _ _ E1)). assert (V2 := proj2 (xval_num_val _ _ E2)).
  split; [rewrite V1; cbn; lra|]. split; [rewrite V2; cbn; lra|]. repeat (split; [assumption|]). assumption.
Qed.
Lemma subdistrib_refuted m : exists X Y Z W P Q1 Q2 T, plain X /\ plain Y /\ plain Z /\
  returns (py_add (OItv Y) (OItv Z)) m W /\ finite_itv W /\ returns (py_mul (OItv X) (OItv W)) m P /\
  returns (py_mul (OItv X) (OItv Y)) m Q1 /\ returns (py_mul (OItv X) (OItv Z)) m Q2 /\ returns (py_add (OItv Q1) (OItv Q2)) m T /\ ~ inside P T.
Proof.
  set (X := pt (PFlt (fl 3 (-1)))). set (Y := pt (PInt 1)). set (Z := pt tiny).
  assert (A : after (py_add (OItv Y) (OItv Z)) m (fun W => num_lt (hi W) (PInt 2) && num_lt (PInt 0) (lo W) && after (py_mul (OItv X) (OItv W)) m (fun P =>
    after (py_mul (OItv X) (OItv Y)) m (fun Q1 => after (py_mul (OItv X) (OItv Z)) m (fun Q2 => after (py_add (OItv Q1) (OItv Q2)) m (fun T => negb (num_le (hi P) (hi T))))))) = true)
    by (destruct m; vm_compute; reflexivity).
  destruct tiny_ok as [t1 t2].
  assert (HY : plain Y) by (apply pt_plain; cbn; [lia|exact I]). assert (HZ : plain Z) by now apply pt_plain.
  apply obtained in A. destruct A as (W & RW & A). apply andb_true_iff in A. destruct A as [EW A]. apply obtained in A. destruct A as (P & RP & A). apply obtained in A. destruct A as (Q1 & R1 & A).
  apply obtained in A. destruct A as (Q2 & R2 & A). apply obtained in A. destruct A as (T & RT & A). apply negb_true_iff in A.
  exists X, Y, Z, W, P, Q1, Q2, T. split; [apply pt_plain; [exact I|vm_compute; reflexivity]|].
  split; [exact HY|]. split; [exact HZ|]. split; [exact RW|]. split.
  { destruct (plain_tight OpAdd Y Z m HY HZ) as (W2 & RW2 & TW & _); [easy|]. assert (W2 = W) by (cbn [py_op] in RW2; unfold returns in *; congruence). subst W2.
    destruct (plain_image OpAdd Y Z HY HZ) as (r & Hr). assert (M := tight_member _ _ _ TW Hr). rewrite member_x in M.
    apply andb_true_iff in EW. destruct EW as [E1 E2]. rewrite num_lt_x in E1, E2. split.
    - destruct (xval (lo W)) eqn:E; try (cbn in M; tauto); try discriminate E2. exact (proj1 (xval_num_val _ _ E)).
    - destruct (xval (hi W)) eqn:E; try (cbn in M; tauto); try discriminate E1. exact (proj1 (xval_num_val _ _ E)). }
  repeat (split; [assumption|]). intros [_ K]. congruence.
Qed.
Lemma algebra_case : exists W, let X := mkitv Classical (PFlt (fl (-3) (-1))) (PInt 2) in let Y := mkitv Classical (PInt 1) (PInt 3) in
  let Z := mkitv Classical (PFlt (fl 1 (-2))) (PFlt (fl 1 (-1))) in
  plain X /\ plain Y /\ plain Z /\ ~ member Y 0 /\ returns (py_add (OItv Y) (OItv Z)) mode_NE W /\ finite_itv W /\
  num_val (lo W) = num_val (lo Y) + num_val (lo Z) /\ num_val (hi W) = num_val (hi Y) + num_val (hi Z).
Proof.
  cbv zeta. set (Y := mkitv Classical (PInt 1) (PInt 3)). set (Z := mkitv Classical (PFlt (fl 1 (-2))) (PFlt (fl 1 (-1)))).
  assert (V1 : B2R (fl (-3) (-1)) = -3 / 2).
  { rewrite (B2R_sf _ true 6755399441055744 (-52)) by (vm_compute; reflexivity). feval. lra. }
  assert (V2 : B2R (fl 1 (-2)) = 1 / 4).
  { rewrite (B2R_sf _ false 4503599627370496 (-54)) by (vm_compute; reflexivity). feval. lra. }
  assert (V3 : B2R (fl 1 (-1)) = 1 / 2).
  { rewrite (B2R_sf _ false 4503599627370496 (-53)) by (vm_compute; reflexivity). feval. lra. }
  destruct (view_returns (py_add (OItv Y) (OItv Z)) mode_NE Classical (inr (S754_finite false 5629499534213120 (-52))) (inr (S754_finite false 7881299347898368 (-51)))) as (W & RW & _ & E1 & E2).
  { vm_compute. reflexivity. }
  cbn [xview xsf] in E1, E2. destruct (xval_num_val _ _ E1) as [F1 N1], (xval_num_val _ _ E2) as [F2 N2].
  exists W. split; [|split; [|split; [|split; [|split; [exact RW|split; [now split|]]]]]].
  - split; [reflexivity|]. split; [split; [exact I|cbn; lia]|]. split; [split; [vm_compute; reflexivity|exact I]|]. cbn [num_val lo hi]. rewrite V1. lra.
  - split; [reflexivity|]. split; [split; cbn; lia|]. split; [split; exact I|]. cbn. lra.
  - split; [reflexivity|]. split; [split; exact I|]. split; [split; vm_compute; reflexivity|]. cbn [Z num_val lo hi]. rewrite V2, V3. lra.
  - intros [K _]. cbn in K. lra.
  - unfold Y, Z. cbn [num_val lo hi]. rewrite V2, V3, N1, N2. split; feval; lra.
Qed.
