(** Runs of WILS.fit in binary64. *)
From Coq Require Import ZArith Reals Lra Lia List Bool Floats.SpecFloat.
From Flocq Require Import Core IEEE754.BinarySingleNaN.
From Verif Require Models.
From Verif Require Import Base PyNum Kernel Spec Expr Arrays Construct SpecArray XReal XArith KernelProofs KernelAlg KernelRefute Witness ArrayProofs ArrayMore ArrayMat
  RecogFl SpecRecogFl RecogFlProofs RecogFlCor RecogFlRefute HbrFl RohnFl UssFl SpecUssFl UssFlProofs UssFlRefute Ralgb5 RecogOpt SpecRecogOpt RecogOptRefute RecogOptCon SpecRecogOptCon RecogOptConRefute WilsFl SpecWilsFl WilsFlMain.
Import ListNotations.
Open Scope R_scope.

Definition zz (a b : Z) : itv := mkitv Classical (PInt a) (PInt b).
(** The same point observed as [0, 20] and as 15. *)
Definition twice : aitv := array_interval (mkarr [2%nat; 1%nat] [zz 1 1; zz 1 1]).
Definition seen : aitv := array_interval (mkarr [2%nat] [zz 0 20; zz 15 15]).
Definition f_twelve : flt := fl 3 2.
Lemma ran_fit (c : res (list flt * flt * list flt)) (t : list flt -> flt -> bool) :
  match c with Ok (x, v, _) => t x v | Err _ => false end = true -> exists x v w, c = Ok (x, v, w) /\ t x v = true.
Proof. destruct c as [[[x v] w]|]; [|discriminate]. intro H. exists x, v, w. split; [reflexivity | exact H]. Qed.
Definition at_twelve (x : list flt) (v : flt) : bool := match x with [y] => inside f_twelve y f_twelve && flt_leb f0 v | _ => false end.
Lemma twelve_val : B2R f_twelve = 12.
Proof. unfold f_twelve. rewrite (B2R_sf _ false 6755399441055744 (-49)) by (vm_compute; reflexivity). feval. lra. Qed.
Lemma l1_run o : exists X y x0 x v w,
  wils_fit_fl seq_dot l_dot in_turn f0 f1 o Models.NL1 None flt_vops (default_params flt_vops) X y (default_weight 2) x0 = Ok (x, v, w) /\
  flt_leb f0 v = true /\ ~ explains o 1 X y (fun _ => 1) x.
Proof.
  destruct (ran_fit (wils_fit_fl seq_dot l_dot in_turn f0 f1 o Models.NL1 None flt_vops (default_params flt_vops) twice seen (default_weight 2) [f_twelve]) at_twelve) as (x & v & w & E & T);
    [destruct o; vm_compute; reflexivity|].
  exists twice, seen, [f_twelve], x, v, w. split; [exact E|]. destruct x as [|y [|]]; [discriminate T| |discriminate T]. unfold at_twelve in T. apply andb_prop in T. destruct T as [T1 T2].
  apply inside_R in T1; [|vm_compute; reflexivity|vm_compute; reflexivity]. rewrite twelve_val in T1. split; [exact T2|].
  assert (K : forall Q, in_matrix twice Q -> ~ in_rhs_by seen (fun _ => 1) (row_value 1 Q (point [y]))).
  { intros Q HQ IN. specialize (HQ 1%nat 0%nat (zz 1 1) eq_refl). destruct HQ as [H1 H2]. cbn in H1, H2. specialize (IN 1%nat (zz 15 15) eq_refl). unfold row_value in IN. cbn in IN. nra. }
  assert (IM : in_matrix twice (fun _ _ => 1)).
  { intros i k e H. assert (He : In e [zz 1 1; zz 1 1]) by exact (aget_in _ _ _ H). destruct He as [<-|[<-|[]]]; split; cbn; lra. }
  destruct o; cbn [explains]; [intro H; exact (K _ IM (H _ IM)) | intros (Q & HQ & IN); exact (K Q HQ IN) | intros (Q & HQ & IN); exact (K Q HQ IN)].
Qed.
(** A second call with the same array smooths the weights again. *)
Lemma again_run : exists alpha beta weight X y x0 x v w x2 v2 w2, is_finite alpha = true /\ 0 <= B2R alpha < 1 /\ B2R beta = 1 /\
  wils_fit_fl seq_dot l_dot in_turn alpha beta Models.OTol Models.NInf None flt_vops (default_params flt_vops) X y weight x0 = Ok (x, v, w) /\
  wils_fit_fl seq_dot l_dot in_turn alpha beta Models.OTol Models.NInf None flt_vops (default_params flt_vops) X y w x0 = Ok (x2, v2, w2) /\
  exists a a2, nth_error w 0 = Some a /\ nth_error w2 0 = Some a2 /\ flt_ltb a2 a = true /\ flt_ltb v2 v = true.
Proof.
  set (f := wils_fit_fl seq_dot l_dot in_turn f_half f1 Models.OTol Models.NInf None flt_vops (default_params flt_vops) (one_eq (PInt 1)) (one_rhs (PInt 0) (PInt 4))).
  assert (T : match f (default_weight 1) [f_twelve] with Ok (x, v, w) => match f w [f_twelve] with Ok (x2, v2, w2) =>
     match nth_error w 0, nth_error w2 0 with Some a, Some a2 => flt_ltb a2 a && flt_ltb v2 v | _, _ => false end | Err _ => false end | Err _ => false end = true) by (vm_compute; reflexivity).
  destruct (f (default_weight 1) [f_twelve]) as [[[x v] w]|] eqn:E1; [|discriminate T]. destruct (f w [f_twelve]) as [[[x2 v2] w2]|] eqn:E2; [|discriminate T].
  destruct (nth_error w 0) as [a|] eqn:Ea; [|discriminate T]. destruct (nth_error w2 0) as [a2|] eqn:Ea2; [|discriminate T]. apply andb_prop in T. destruct T as [T1 T2].
  exists f_half, f1, (default_weight 1), (one_eq (PInt 1)), (one_rhs (PInt 0) (PInt 4)), [f_twelve], x, v, w, x2, v2, w2.
  assert (HF : B2R f_half = 1 / 2) by (unfold f_half; rewrite (B2R_sf _ false 4503599627370496 (-53)) by (vm_compute; reflexivity); feval; lra).
  split; [vm_compute; reflexivity|]. split; [lra|]. split; [apply one_val|]. split; [exact E1|]. split; [exact E2|]. exists a, a2. auto.
Qed.
