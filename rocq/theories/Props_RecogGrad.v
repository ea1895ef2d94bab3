(** C93: the search directions of Tol, Uni and Uss in double precision. *)
From Coq Require Import ZArith Reals List Bool.
From Flocq Require Import Core IEEE754.BinarySingleNaN.
From Verif Require Models.
From Verif Require Import Base PyNum Kernel Spec Expr Arrays Construct SpecArray HbrFl Exact SpecExact UssFl RecogFl Ralgb5 RecogOpt SpecRecogOpt IspaeFlCase WilsFl SpecRecogGrad RecogGradProofs RecogGradCase RecogOptCon SpecRecogOptCon SpecPenaltyGrad PenaltyGradProofs PenaltyGradCase SpecWilsGrad WilsGradProofs.
Import ListNotations.
Open Scope R_scope.

(** The direction of Tol ([tol = true], and [false] for Uni) at [x] for the row
    [mc] with the elements [l k, u k] and the weight [w]: let [i] and [s] be the
    computed ends of the residual.  For Tol, if the upper one is the larger in
    magnitude, the direction is [w] times a supergradient of the least product of
    the row and [x], otherwise [-w] times a subgradient of the greatest product;
    for Uni the two are exchanged.  Each component has one rounding only. *)
Theorem C93_direction_tol_uni : forall fdot tol A b weight mc x w l u m i s q,
  returns (calc_parts fdot A b (point x)) m (i, s, q) -> aget weight [mc] = Some (PFlt w) -> is_finite w = true -> Forall (fun f => is_finite f = true) x ->
  (forall k, (k < length x)%nat -> aget (adat A) [mc; k] = Some (mkitv Classical (PFlt (l k)) (PFlt (u k))) /\ is_finite (l k) = true /\ is_finite (u k) = true /\ B2R (l k) <= B2R (u k) /\
     Rabs (B2R w * B2R (l k)) <= bpow radix2 1000 /\ Rabs (B2R w * B2R (u k)) <= bpow radix2 1000) ->
  let upper := flt_leb (fneg (f_get i [mc])) (f_get s [mc]) in
  exists g h, returns (ends_grad fdot tol A b weight mc x) m g /\ length g = length x /\
    (forall k, (k < length x)%nat -> rounded_once (nth k g f0) (if upper then B2R w * h k else - (B2R w * h k))) /\
    (if Bool.eqb upper tol then supergradient (length x) (least_product (length x) (fun k => B2R (l k)) (fun k => B2R (u k))) (coords x) h
     else subgradient (length x) (greatest_product (length x) (fun k => B2R (l k)) (fun k => B2R (u k))) (coords x) h).
Proof. exact ends_direction. Qed.
Print Assumptions C93_direction_tol_uni.

(** The direction of Uss: [w (s_k rad A_k + e mid A_k)] with the signs [s_k] of the
    components of [x] and [e] of the computed residual of the midpoints. *)
Theorem C93_direction_uss : forall fdot A b weight mc r x w m C0 G0 c0 C G c,
  shp A = [r; length x] -> returns (arr_mid A) m C0 /\ returns (f_of C0) m C -> returns (arr_rad A) m G0 /\ returns (f_of G0) m G -> returns (arr_mid b) m c0 /\ returns (f_of c0) m c ->
  aget weight [mc] = Some (PFlt w) -> is_finite w = true -> Forall (fun f => is_finite f = true) x ->
  let t := fsub mode_NE (f_get c [mc]) (f_row fdot (length x) (fun l => f_get C [mc; l]) (fun l => nth l x f0)) in
  is_finite t = true ->
  let size k := Rabs (B2R (f_get G [mc; k])) + Rabs (B2R (f_get C [mc; k])) in
  (forall k, (k < length x)%nat -> is_finite (f_get C [mc; k]) = true /\ is_finite (f_get G [mc; k]) = true /\ size k <= bpow radix2 1000 /\ Rabs (B2R w) * size k <= bpow radix2 1000) ->
  exists g e, returns (uss_grad fdot A b weight mc x) m g /\ length g = length x /\ sign_of e (B2R t) /\
    forall k, (k < length x)%nat -> is_finite (nth k g f0) = true /\ exists s, sign_of s (coords x k) /\
      Rabs (B2R (nth k g f0) - B2R w * (s * B2R (f_get G [mc; k]) + e * B2R (f_get C [mc; k]))) <= bpow radix2 (-50) * (Rabs (B2R w) * size k) + bpow radix2 (-1072) * (Rabs (B2R w) + 1).
Proof. exact uss_direction. Qed.
Print Assumptions C93_direction_uss.

(** The same for the residuals of WILS. *)
Theorem C93_direction_wils : forall fdot o A b weight mc x w l u m i s q, o <> Models.OUss ->
  returns (calc_parts fdot A b (point x)) m (i, s, q) -> aget weight [mc] = Some (PFlt w) -> is_finite w = true -> Forall (fun f => is_finite f = true) x ->
  (forall k, (k < length x)%nat -> aget (adat A) [mc; k] = Some (mkitv Classical (PFlt (l k)) (PFlt (u k))) /\ is_finite (l k) = true /\ is_finite (u k) = true /\ B2R (l k) <= B2R (u k) /\
     Rabs (B2R w * B2R (l k)) <= bpow radix2 1000 /\ Rabs (B2R w * B2R (u k)) <= bpow radix2 1000) ->
  let upper := flt_leb (fneg (f_get i [mc])) (f_get s [mc]) in
  exists g h, returns (diff_fl fdot o A b weight mc x) m g /\ length g = length x /\
    (forall k, (k < length x)%nat -> rounded_once (nth k g f0) (if upper then B2R w * h k else - (B2R w * h k))) /\
    (if Bool.eqb upper (match o with Models.OTol => true | _ => false end) then supergradient (length x) (least_product (length x) (fun k => B2R (l k)) (fun k => B2R (u k))) (coords x) h
     else subgradient (length x) (greatest_product (length x) (fun k => B2R (l k)) (fun k => B2R (u k))) (coords x) h).
Proof. exact wils_direction. Qed.
Print Assumptions C93_direction_wils.

(** The optimizer is given the least constituent and the direction of one that
    attains it, both negated, wherever that is not NaN. *)
Theorem C93_direction_given : forall fdot W P A b w x0,
  (exists fg, tol_maximize_fl fdot W P A b w x0 = ran_on W P fg x0 /\ given (fun x => tol_calc fdot A b x w) (ends_grad fdot true A b w) fg) /\
  (exists fg, uni_maximize_fl fdot W P A b w x0 = ran_on W P fg x0 /\ given (fun x => uni_calc fdot A b x w) (ends_grad fdot false A b w) fg) /\
  (exists fg, uss_maximize_fl fdot W P A b w x0 = ran_on W P fg x0 /\ given (fun x => uss_calc fdot A b x w) (uss_grad fdot A b w) fg).
Proof. exact directions_given. Qed.
Print Assumptions C93_direction_given.

Example C93_direction_case : Forall (fun f => is_finite f = true) r_x /\ aget (np_ones 1) [0%nat] = Some (PFlt f1) /\ is_finite f1 = true /\ shp r_A = [1%nat; length r_x] /\
  (exists i s q, returns (calc_parts seq_dot r_A r_b (point r_x)) mode_NE (i, s, q)) /\
  (forall k, (k < length r_x)%nat -> aget (adat r_A) [0%nat; k] = Some (mkitv Classical (PFlt (r_l k)) (PFlt (r_u k))) /\ is_finite (r_l k) = true /\ is_finite (r_u k) = true /\ B2R (r_l k) <= B2R (r_u k) /\
     Rabs (B2R f1 * B2R (r_l k)) <= bpow radix2 1000 /\ Rabs (B2R f1 * B2R (r_u k)) <= bpow radix2 1000) /\
  exists C0 G0 c0 C G c, (returns (arr_mid r_A) mode_NE C0 /\ returns (f_of C0) mode_NE C) /\ (returns (arr_rad r_A) mode_NE G0 /\ returns (f_of G0) mode_NE G) /\ (returns (arr_mid r_b) mode_NE c0 /\ returns (f_of c0) mode_NE c) /\
    is_finite (t_of C c) = true /\ forall k, (k < length r_x)%nat -> is_finite (f_get C [0%nat; k]) = true /\ is_finite (f_get G [0%nat; k]) = true /\
      Rabs (B2R (f_get G [0%nat; k])) + Rabs (B2R (f_get C [0%nat; k])) <= bpow radix2 1000 /\ Rabs (B2R f1) * (Rabs (B2R (f_get G [0%nat; k])) + Rabs (B2R (f_get C [0%nat; k]))) <= bpow radix2 1000.
Proof.
  split; [exact r_point|]. split; [reflexivity|]. split; [vm_compute; reflexivity|]. split; [reflexivity|]. split; [exact r_parts|]. split; [exact r_row | exact r_uss].
Qed.

(** With a linear constraint: if the computed left-hand sides decide the rows
    correctly and the columns are summed with errors of at most [E], the direction
    added for the penalty is [mu] times a subgradient of the total violation, up to
    [E] and one rounding in each component. *)
Theorem C94_direction : forall cdot csum mu rows x E, is_finite mu = true -> decided cdot x rows ->
  (forall k, (k < length x)%nat -> is_finite (csum (violated_column cdot x rows k)) = true /\ Rabs (B2R (csum (violated_column cdot x rows k)) - real_sum (violated_column cdot x rows k)) <= E k /\
     Rabs (B2R mu * B2R (csum (violated_column cdot x rows k))) <= bpow radix2 1000) ->
  let g := snd (penalty_fl cdot csum mu rows x) in
  exists h, length g = length x /\ subgradient (length x) (excess (length x) rows) (coords x) h /\
    forall k, (k < length x)%nat -> exists s, Rabs (s - h k) <= E k /\ rounded_once (nth k g f0) (B2R mu * s).
Proof. exact penalty_direction. Qed.
Print Assumptions C94_direction.
(** The optimizer is given this direction with that of the constituent subtracted. *)
Theorem C94_direction_given : forall cdot csum mu rows fdot W P A b w x0,
  (exists fg, tol_maximize_con cdot csum mu rows fdot W P A b w x0 = ran_on W P fg x0 /\ given_con cdot csum mu rows (fun x => tol_calc fdot A b x w) (ends_grad fdot true A b w) fg) /\
  (exists fg, uni_maximize_con cdot csum mu rows fdot W P A b w x0 = ran_on W P fg x0 /\ given_con cdot csum mu rows (fun x => uni_calc fdot A b x w) (ends_grad fdot false A b w) fg) /\
  (exists fg, uss_maximize_con cdot csum mu rows fdot W P A b w x0 = ran_on W P fg x0 /\ given_con cdot csum mu rows (fun x => uss_calc fdot A b x w) (uss_grad fdot A b w) fg).
Proof. exact con_directions_given. Qed.
Print Assumptions C94_direction_given.
Example C94_direction_case : is_finite three = true /\ decided l_dot p_x p_rows /\
  forall k, (k < length p_x)%nat -> is_finite (in_turn (violated_column l_dot p_x p_rows k)) = true /\ Rabs (B2R (in_turn (violated_column l_dot p_x p_rows k)) - real_sum (violated_column l_dot p_x p_rows k)) <= 0 /\
    Rabs (B2R three * B2R (in_turn (violated_column l_dot p_x p_rows k))) <= bpow radix2 1000.
Proof. split; [vm_compute; reflexivity|]. split; [exact p_decided | exact p_column]. Qed.

(** WILS: the direction is that of one row with the least residual (norm='inf'), or
    the sum of the directions of all rows, taken from left to right, negated, plus
    the direction of the penalty. *)
Theorem C97_direction_given : forall fdot cdot csum o nm constraint X y w x, is_nan (fst (wils_objective fdot cdot csum o nm constraint X y w x)) = false ->
  exists T mcs ds, returns (residual_fl fdot o X y w (point x)) mode_NE T /\ chosen nm T mcs /\ Forall2 (fun mc d => returns (diff_fl fdot o X y w mc x) mode_NE d) mcs ds /\
    (Forall (fun d => length d = length x) ds -> length (snd (wils_objective fdot cdot csum o nm constraint X y w x)) = length x /\
       forall k, (k < length x)%nat -> nth k (snd (wils_objective fdot cdot csum o nm constraint X y w x)) f0 =
         fadd mode_NE (fneg (fold_left (fadd mode_NE) (map (fun d => nth k d f0) ds) f0)) (penalty_part cdot csum constraint x k)).
Proof. exact wils_given. Qed.
Print Assumptions C97_direction_given.
Example C97_direction_case :
  is_nan (fst (wils_objective seq_dot l_dot in_turn Models.OTol Models.NInf (Some (three, p_rows)) r_A r_b (np_ones 1) r_x)) = false /\
  is_nan (fst (wils_objective seq_dot l_dot in_turn Models.OUni Models.NL1 None r_A r_b (np_ones 1) r_x)) = false /\
  length (snd (wils_objective seq_dot l_dot in_turn Models.OUni Models.NL1 None r_A r_b (np_ones 1) r_x)) = 2%nat.
Proof. split; [vm_compute; reflexivity|]. split; vm_compute; reflexivity. Qed.
