(** Neumaier on doubles (C53): what the answer is, and how far it can be from inner when
    there is one equation. *)
From Coq Require Import ZArith Reals List Bool Arith Lia Lra.
From Flocq Require Import Core IEEE754.BinarySingleNaN.
From Verif Require Import Base PyNum Kernel Spec Expr Arrays Construct SpecArray RecogFl SpecRecogFl RohnFl SpecUssFl UssFlProofs SpecNeumFl NeumFlProofs NeumFlMargin NeumFlCase RecogFlRefute Props_RecogFl.
Import ListNotations.
Open Scope R_scope.

(** Component [j] is the smallest interval of doubles around [y_j] with radius
    [Tol_i / sum of the magnitudes of row i], where [i = j] for a square system and
    [i = 0] for one equation, Tol_i is what [Tol.constituent] reports for row [i] and the
    quotient is the rounded one. *)
Theorem C53_doubles_box : forall fsum r n A b y m d, consistent A -> consistent b -> shp A = [r; n] -> shp b = [r] -> awf y -> ashape y = [n] -> r = n \/ r = 1%nat ->
  returns (neumaier_fl fsum A b y) m d ->
  exists T, returns (tol_constituent_fl A b (amap PFlt y) (np_ones r)) m T /\ ashape d = [n] /\
    forall j, (j < n)%nat -> let i := if (r =? 1)%nat then 0%nat else j in
      exists t c l e, aget T [i] = Some (PFlt t) /\ magnitudes m A i n l /\ aget y [j] = Some c /\ aget d [j] = Some e /\
        (is_finite c = true -> is_finite (fdiv m t (fsum l)) = true -> double_hull (B2R c) (Rabs (B2R (fdiv m t (fsum l)))) e).
Proof. exact neumaier_box. Qed.
Print Assumptions C53_doubles_box.

(** One equation, [Tol] of the centre not negative: every point of the answer satisfies
    the equation for all coefficients, up to the margin. *)
Theorem C53_doubles_single_equation : forall fsum g n A b y d T t, system 1 n A b (amap PFlt y) -> Forall (fun e => small_itv e /\ proper_fin e) (adata (adat A)) -> Forall bounded_entry (adata (adat b)) ->
  sum_within fsum n g -> 0 <= g <= /4 -> 0 < Rsum n (fun k => mag_at A [0%nat; k]) <= bpow radix2 1000 ->
  returns (neumaier_fl fsum A b y) mode_NE d -> Forall finite_itv (adata d) ->
  returns (tol_constituent_fl A b (amap PFlt y) (np_ones 1)) mode_NE T -> aget T [0%nat] = Some t -> num_le (PInt 0) t = true ->
  forall x P, (forall k e, aget d [k] = Some e -> member e (x k)) -> in_matrix A P ->
    in_rhs_by b (fun _ => single_margin g n A b y) (fun _ => Rsum n (fun k => P 0%nat k * x k)).
Proof. exact neumaier_margin. Qed.
Print Assumptions C53_doubles_single_equation.

(** Sums from the left are as accurate as the theorem asks. *)
Theorem C53_sums : forall n, (1 + bpow radix2 (-53)) ^ n <= 2 -> sum_within sum_rounded n ((1 + bpow radix2 (-53)) ^ n - 1).
Proof. exact sum_rounded_within. Qed.
Print Assumptions C53_sums.

(** [1,2] x + [-1,3] y = [-4,5] around (1/2, 0). *)
Definition nA : aitv := array_interval (mkarr [1%nat; 2%nat] [ii 1 2; ii (-1) 3]).
Definition nb : aitv := array_interval (mkarr [1%nat] [ii (-4) 5]).
Definition ny : arr flt := mkarr [2%nat] [fhalf; f0].
Definition finite_ends (d : arr itv) : bool :=
  forallb (fun e => match lo e, hi e with PFlt a, PFlt b => is_finite a && is_finite b | _, _ => false end) (adata d).
Example C53_doubles_case : system 1 2 nA nb (amap PFlt ny) /\ Forall (fun e => small_itv e /\ proper_fin e) (adata (adat nA)) /\ Forall bounded_entry (adata (adat nb)) /\
  0 <= (1 + bpow radix2 (-53)) ^ 2 - 1 <= /4 /\ sum_within sum_rounded 2 ((1 + bpow radix2 (-53)) ^ 2 - 1) /\
  0 < Rsum 2 (fun k => mag_at nA [0%nat; k]) <= bpow radix2 1000 /\
  (exists d, returns (neumaier_fl sum_rounded nA nb ny) mode_NE d /\ finite_ends d = true) /\
  exists T, returns (tol_constituent_fl nA nb (amap PFlt ny) (np_ones 1)) mode_NE T /\ match adata T with [t] => num_le (PInt 2) t | _ => false end = true.
Proof.
  assert (U : 0 < bpow radix2 (-53) <= /100) by (split; [apply bpow_gt_0|]; apply Rle_trans with (bpow radix2 (-7)); [apply bpow_le; lia | cbn; lra]).
  assert (P2 : 0 <= (1 + bpow radix2 (-53)) ^ 2 - 1 <= /4) by (cbn [pow]; nra).
  split.
  { split; [lia|]. split; [split; reflexivity|]. split; [reflexivity|]. split; [do 2 (constructor; [apply ii_good; lia|]); constructor|].
    split; [split; reflexivity|]. split; [reflexivity|]. split; [constructor; [apply ii_good; lia | constructor]|].
    split; [reflexivity|]. split; [reflexivity|]. do 2 (constructor; [split; [exact I | reflexivity]|]). constructor. }
  split; [do 2 (constructor; [apply ii_good; lia|]); constructor|].
  split. { assert (B : bpow radix2 4 <= bpow radix2 1022) by (apply bpow_le; lia). change (bpow radix2 4) with 16 in B.
    constructor; [|constructor]. unfold bounded_entry, magnitude. simpl. apply Rmax_lub; apply Rabs_le; lra. }
  split; [exact P2|]. split; [apply C53_sums; lra|].
  split.
  { assert (B : bpow radix2 3 <= bpow radix2 1000) by (apply bpow_le; lia). change (bpow radix2 3) with 8 in B.
    assert (E1 : mag_at nA [0%nat; 0%nat] = 2) by (unfold mag_at, magnitude; simpl; rewrite !Rabs_pos_eq, Rmax_right by lra; reflexivity).
    assert (E2 : mag_at nA [0%nat; 1%nat] = 3) by (unfold mag_at, magnitude; simpl; rewrite (Rabs_left (-1)), (Rabs_pos_eq 3), Rmax_right by lra; reflexivity).
    cbn [Rsum]. rewrite E1, E2. lra. }
  split; [apply (got _ _ finite_ends); vm_compute; reflexivity|].
  apply (got _ _ (fun T => match adata T with [t] => num_le (PInt 2) t | _ => false end)). vm_compute. reflexivity.
Qed.
