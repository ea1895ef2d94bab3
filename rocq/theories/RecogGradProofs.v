(** The search directions of Tol, Uni and Uss in binary64. *)
From Coq Require Import ZArith Reals List Bool Arith Lia Lra.
From Flocq Require Import Core IEEE754.BinarySingleNaN.
From Verif Require Models.
From Verif Require Import Base PyNum Kernel Spec Expr Arrays Construct SpecArray XReal XArith KernelProofs ExprProofs ArrayProofs ArrayMore RecogFl SpecRecogFl RecogFlProofs HbrFl Exact SpecExact UssFl UssFlProofs Ralgb5 RecogOpt SpecRecogOpt HbrFlProofs RohnFl RecogOptProofs RecogOptMargin RecogOptSign RecogOptRun RecogOptTotal RecogOptFinal IspaeFlTight WilsFl SpecRecogGrad.
Import ListNotations.
Open Scope R_scope.

Lemma dbl_mul1 a : is_finite a = true -> xflt (fmul mode_NE a f1) = XFin (B2R a).
Proof.
  intro F. rewrite fmul_x, (proj1 (is_finite_x a) F). assert (E : xflt f1 = XFin 1) by exact xval_pn1.
  rewrite E. cbn [xmul]. rewrite Rmult_1_r. apply xround_dbl_id. rewrite <- (proj1 (is_finite_x a) F). apply flt_dbl.
Qed.
Lemma dbl_mul0 a : is_finite a = true -> xflt (fmul mode_NE a f0) = XFin 0.
Proof.
  intro F. rewrite fmul_x, (proj1 (is_finite_x a) F). change (xflt f0) with (XFin 0). cbn [xmul]. rewrite Rmult_0_r. apply xround_dbl_id. change (XFin 0) with (xflt f0). apply flt_dbl.
Qed.
(** Choosing an end by multiplying with 1 and 0 is exact. *)
Lemma by_sign_exact a l u : is_finite l = true -> is_finite u = true -> is_finite a = true -> xflt (by_sign a l u) = XFin (if Rle_bool 0 (B2R a) then B2R l else B2R u).
Proof.
  intros Fl Fu Fa. unfold by_sign. rewrite fadd_x. assert (E : nonneg a = Rle_bool 0 (B2R a)).
  { unfold nonneg. rewrite flt_leb_x, (proj1 (is_finite_x a) Fa). change (xflt f0) with (XFin 0). reflexivity. }
  rewrite E. destruct (Rle_bool 0 (B2R a)); rewrite dbl_mul1, dbl_mul0 by assumption; cbn [xadd]; rewrite ?Rplus_0_r, ?Rplus_0_l; apply xround_dbl_id.
  - rewrite <- (proj1 (is_finite_x l) Fl). apply flt_dbl.
  - rewrite <- (proj1 (is_finite_x u) Fu). apply flt_dbl.
Qed.
Lemma res_map_ok {X} (f : X -> res flt) (g : X -> flt) l : (forall k, In k l -> f k = Ok (g k)) -> res_map f l = Ok (map g l).
Proof. induction l as [|k l IH]; intro H; [reflexivity|]. cbn [res_map map]. rewrite (H k (or_introl eq_refl)). cbn [rbind]. rewrite IH by (intros; apply H; now right). reflexivity. Qed.
Lemma total_le n f g : (forall k, (k < n)%nat -> f k <= g k) -> total n f <= total n g.
Proof. induction n as [|n IH]; intro H; cbn [total]; [lra|]. assert (total n f <= total n g) by (apply IH; intros; apply H; lia). assert (f n <= g n) by (apply H; lia). lra. Qed.
Lemma total_plus n f g : total n f + total n g = total n (fun k => f k + g k).
Proof. induction n as [|n IH]; cbn [total]; [lra|]. rewrite <- IH. ring. Qed.
Lemma least_super n (l u x : vec) : (forall k, (k < n)%nat -> l k <= u k) -> supergradient n (least_product n l u) x (fun k => if Rle_bool 0 (x k) then l k else u k).
Proof.
  intros LU y. unfold least_product, dot, minus. rewrite total_plus. apply total_le. intros k Hk. specialize (LU k Hk). cbn beta. destruct (Rle_bool_spec 0 (x k)) as [P|P].
  - rewrite (Rmin_left (l k * x k)) by (apply Rmult_le_compat_r; lra). assert (Q := Rmin_l (l k * y k) (u k * y k)). lra.
  - rewrite (Rmin_right (l k * x k)) by nra. assert (Q := Rmin_r (l k * y k) (u k * y k)). lra.
Qed.
Lemma greatest_sub n (l u x : vec) : (forall k, (k < n)%nat -> l k <= u k) -> subgradient n (greatest_product n l u) x (fun k => if Rle_bool 0 (x k) then u k else l k).
Proof.
  intros LU y. unfold greatest_product, dot, minus. rewrite total_plus. apply total_le. intros k Hk. specialize (LU k Hk). cbn beta. destruct (Rle_bool_spec 0 (x k)) as [P|P].
  - rewrite (Rmax_right (l k * x k)) by (apply Rmult_le_compat_r; lra). assert (Q := Rmax_r (l k * y k) (u k * y k)). lra.
  - rewrite (Rmax_left (l k * x k)) by nra. assert (Q := Rmax_l (l k * y k) (u k * y k)). lra.
Qed.
Lemma once a b r s : xflt a = XFin r -> xflt b = XFin s -> Rabs (r * s) <= bpow radix2 1000 -> rounded_once (fmul mode_NE a b) (r * s).
Proof.
  intros A B L. destruct (round_near mode_NE (r * s)) as [N1 N2]; [eapply Rle_trans; [exact L | apply bpow_le; lia]|].
  assert (X : xflt (fmul mode_NE a b) = XFin (rnd mode_NE (r * s))) by (rewrite fmul_x, A, B; exact N1). destruct (fin_x _ _ X) as [F E]. split; [exact F|]. rewrite E. exact N2.
Qed.
Section Ends.
Variables (fdot : list (flt * flt) -> flt) (tol : bool) (A b : aitv) (weight : arr pynum) (mc : nat) (x : list flt) (w : flt) (l u : nat -> flt) (m : mode) (i s q : arr flt).
Hypothesis HP : returns (calc_parts fdot A b (point x)) m (i, s, q).
Hypothesis HW : aget weight [mc] = Some (PFlt w).
Hypothesis FW : is_finite w = true.
Hypothesis FX : Forall (fun f => is_finite f = true) x.
Hypothesis HA : forall k, (k < length x)%nat -> aget (adat A) [mc; k] = Some (mkitv Classical (PFlt (l k)) (PFlt (u k))) /\ is_finite (l k) = true /\ is_finite (u k) = true /\ B2R (l k) <= B2R (u k) /\
  Rabs (B2R w * B2R (l k)) <= bpow radix2 1000 /\ Rabs (B2R w * B2R (u k)) <= bpow radix2 1000.
Let up := flt_leb (fneg (f_get i [mc])) (f_get s [mc]).
Theorem ends_direction : exists g h, returns (ends_grad fdot tol A b weight mc x) m g /\ length g = length x /\
  (forall k, (k < length x)%nat -> rounded_once (nth k g f0) (if up then B2R w * h k else - (B2R w * h k))) /\
  (if Bool.eqb up tol then supergradient (length x) (least_product (length x) (fun k => B2R (l k)) (fun k => B2R (u k))) (coords x) h
   else subgradient (length x) (greatest_product (length x) (fun k => B2R (l k)) (fun k => B2R (u k))) (coords x) h).
Proof.
  set (side := Bool.eqb up tol).
  set (G := fun k => fmul mode_NE (if up then w else fneg w) (by_sign (nth k x f0) (if side then l k else u k) (if side then u k else l k))).
  exists (map G (seq 0 (length x))), (fun k => if Rle_bool 0 (coords x k) then (if side then B2R (l k) else B2R (u k)) else (if side then B2R (u k) else B2R (l k))).
  split; [|split; [now rewrite map_length, seq_length|split]].
  - unfold ends_grad. fold (point x). rewrite keeps_returns by apply keeps_parts. exists (i, s, q). split; [exact HP|].
    rewrite keeps_returns by apply keeps_lift. exists w. split; [rewrite HW; reflexivity|]. unfold returns, outcome, mlift. cbn [fst]. apply res_map_ok. intros k Hk. apply in_seq in Hk.
    destruct (HA k ltac:(lia)) as (E & _). unfold end_row. rewrite E. fold up. fold side. unfold G. destruct side; reflexivity.
  - intros k Hk. rewrite (nth_indep _ f0 (G 0%nat)) by (now rewrite map_length, seq_length). rewrite map_nth, seq_nth by exact Hk. cbn [Nat.add].
    destruct (HA k Hk) as (_ & Fl & Fu & _ & Bl & Bu). assert (Fx : is_finite (nth k x f0) = true) by (rewrite Forall_forall in FX; apply FX, nth_In; exact Hk).
    set (h := if Rle_bool 0 (coords x k) then _ else _).
    assert (E : xflt (by_sign (nth k x f0) (if side then l k else u k) (if side then u k else l k)) = XFin h) by (rewrite by_sign_exact by (destruct side; assumption); unfold h, coords; destruct side, Rle_bool; reflexivity).
    assert (BH : Rabs (B2R w * h) <= bpow radix2 1000) by (unfold h; destruct Rle_bool, side; assumption).
    unfold G. destruct up.
    + apply once; [now apply is_finite_x | exact E | exact BH].
    + replace (- (B2R w * h)) with (- B2R w * h) by ring. apply once; [|exact E | replace (- B2R w * h) with (- (B2R w * h)) by ring; now rewrite Rabs_Ropp].
      rewrite xflt_neg, (proj1 (is_finite_x w) FW). reflexivity.
  - assert (LU : forall k, (k < length x)%nat -> B2R (l k) <= B2R (u k)) by (intros k Hk; apply (HA k Hk)). fold side. destruct side; [apply least_super | apply greatest_sub]; exact LU.
Qed.
End Ends.

Lemma f_sign_x a : is_finite a = true -> exists s, xflt (f_sign a) = XFin s /\ sign_of s (B2R a) /\ (s = 1 \/ s = -1 \/ s = 0).
Proof.
  intro F. unfold f_sign. assert (N : is_nan a = false) by (destruct a; try discriminate F; reflexivity). rewrite N, !flt_ltb_x, (proj1 (is_finite_x a) F). change (xflt f0) with (XFin 0). assert (L : forall p q, xltb (XFin p) (XFin q) = Rlt_bool p q) by reflexivity. rewrite !L.
  assert (E1 : xflt f1 = XFin 1) by exact xval_pn1. unfold sign_of. destruct (Rlt_bool_spec 0 (B2R a)) as [P|P].
  - exists 1. split; [exact E1|]. rewrite Rabs_R1, (Rabs_right (B2R a)) by lra. split; [lra|]. auto.
  - destruct (Rlt_bool_spec (B2R a) 0) as [Q|Q].
    + exists (-1). split; [rewrite xflt_neg, E1; reflexivity|]. rewrite (Rabs_left (-1)), (Rabs_left (B2R a)) by lra. split; [lra|]. auto.
    + exists 0. split; [reflexivity|]. rewrite Rabs_R0. replace (B2R a) with 0 by lra. rewrite Rabs_R0. split; [lra|]. auto.
Qed.
(** Multiplying with a sign is exact. *)
Lemma sign_mul a c s : xflt a = XFin s -> is_finite c = true -> s = 1 \/ s = -1 \/ s = 0 -> xflt (fmul mode_NE a c) = XFin (s * B2R c).
Proof.
  intros A F S. rewrite fmul_x, A, (proj1 (is_finite_x c) F). cbn [xmul]. apply xround_dbl_id. destruct S as [-> | [-> | ->]].
  - rewrite Rmult_1_l, <- (proj1 (is_finite_x c) F). apply flt_dbl.
  - replace (XFin (-1 * B2R c)) with (xflt (fneg c)) by (rewrite xflt_neg, (proj1 (is_finite_x c) F); cbn [xopp]; f_equal; ring). apply flt_dbl.
  - rewrite Rmult_0_l. change (XFin 0) with (xflt f0). apply flt_dbl.
Qed.
Lemma sum_prod w a c r s : xflt a = XFin r -> xflt c = XFin s -> is_finite w = true -> forall S, Rabs r + Rabs s <= S -> S <= bpow radix2 1000 -> Rabs (B2R w) * S <= bpow radix2 1000 ->
  exists v, xflt (fmul mode_NE w (fadd mode_NE a c)) = XFin v /\ Rabs (v - B2R w * (r + s)) <= bpow radix2 (-50) * (Rabs (B2R w) * S) + bpow radix2 (-1072) * (Rabs (B2R w) + 1).
Proof.
  intros A C F S HS B1 B2. assert (T := Rabs_triang r s). assert (W0 := Rabs_pos (B2R w)). assert (S0 : 0 <= S) by (assert (Q := Rabs_pos r); assert (Q' := Rabs_pos s); lra).
  assert (L3 : bpow radix2 1000 <= bpow radix2 1003) by (apply bpow_le; lia).
  destruct (round_near mode_NE (r + s)) as [N1 N2]; [lra|].
  assert (X1 : xflt (fadd mode_NE a c) = XFin (rnd mode_NE (r + s))) by (rewrite fadd_x, A, C; exact N1). set (z := rnd mode_NE (r + s)) in *.
  set (e := bpow radix2 (-52)) in *. set (t := bpow radix2 (-1074)) in *. assert (E0 : 0 < e) by apply bpow_gt_0. assert (T0 : 0 < t) by apply bpow_gt_0.
  assert (E1 : e <= / 8) by (apply Rle_trans with (bpow radix2 (-3)); [apply bpow_le; lia | cbn; lra]).
  assert (N3 : Rabs (z - (r + s)) <= e * S + t). { eapply Rle_trans; [exact N2|]. assert (e * Rabs (r + s) <= e * S) by (apply Rmult_le_compat_l; lra). lra. }
  assert (Z1 : Rabs z <= S + e * S + t). { replace z with ((r + s) + (z - (r + s))) by ring. eapply Rle_trans; [apply Rabs_triang|]. lra. }
  assert (WT : Rabs (B2R w) * t <= bpow radix2 1000).
  { apply Rle_trans with (bpow radix2 1024 * t); [apply Rmult_le_compat_r; [lra | left; apply abs_B2R_lt_emax]|]. unfold t. rewrite <- bpow_plus. apply bpow_le. lia. }
  assert (ES : e * S <= / 8 * S) by (apply Rmult_le_compat_r; lra).
  assert (WE : Rabs (B2R w) * (e * S) <= / 8 * (Rabs (B2R w) * S)) by (replace (/ 8 * (Rabs (B2R w) * S)) with (Rabs (B2R w) * (/ 8 * S)) by ring; apply Rmult_le_compat_l; assumption).
  assert (P1 : Rabs (B2R w * z) <= Rabs (B2R w) * S + Rabs (B2R w) * (e * S) + Rabs (B2R w) * t) by (rewrite Rabs_mult, <- !Rmult_plus_distr_l; apply Rmult_le_compat_l; assumption).
  assert (WS0 : 0 <= Rabs (B2R w) * S) by (now apply Rmult_le_pos).
  assert (L8 : 8 * bpow radix2 1000 = bpow radix2 1003) by (change 1003%Z with (3 + 1000)%Z; rewrite bpow_plus; reflexivity).
  destruct (round_near mode_NE (B2R w * z)) as [M1 M2]; [assert (Q := bpow_gt_0 radix2 1000); lra|]. fold e in M2. fold t in M2.
  exists (rnd mode_NE (B2R w * z)). split; [rewrite fmul_x, X1, (proj1 (is_finite_x w) F); exact M1|].
  assert (D : Rabs (B2R w * z - B2R w * (r + s)) <= Rabs (B2R w) * (e * S) + Rabs (B2R w) * t).
  { replace (B2R w * z - B2R w * (r + s)) with (B2R w * (z - (r + s))) by ring. rewrite Rabs_mult, <- Rmult_plus_distr_l. now apply Rmult_le_compat_l. }
  assert (EP : e * Rabs (B2R w * z) <= e * (2 * (Rabs (B2R w) * S) + Rabs (B2R w) * t)) by (apply Rmult_le_compat_l; lra).
  assert (F4 : bpow radix2 (-50) = 4 * e) by (change (-50)%Z with (2 + -52)%Z; rewrite bpow_plus; reflexivity). assert (T4 : bpow radix2 (-1072) = 4 * t) by (change (-1072)%Z with (2 + -1074)%Z; rewrite bpow_plus; reflexivity).
  rewrite F4, T4. replace (rnd mode_NE (B2R w * z) - B2R w * (r + s)) with ((rnd mode_NE (B2R w * z) - B2R w * z) + (B2R w * z - B2R w * (r + s))) by ring. eapply Rle_trans; [apply Rabs_triang|].
  assert (WT0 : 0 <= Rabs (B2R w) * t) by (apply Rmult_le_pos; lra). assert (e * (Rabs (B2R w) * t) <= / 8 * (Rabs (B2R w) * t)) by (apply Rmult_le_compat_r; lra).
  rewrite Rmult_plus_distr_l in EP. replace (Rabs (B2R w) * (e * S)) with (e * (Rabs (B2R w) * S)) in D by ring. assert (0 <= e * (Rabs (B2R w) * S)) by (apply Rmult_le_pos; lra). lra.
Qed.
Section Uss.
Variables (fdot : list (flt * flt) -> flt) (A b : aitv) (weight : arr pynum) (mc r : nat) (x : list flt) (w : flt) (m : mode) (C0 G0 c0 : arr pynum) (C G c : arr flt).
Hypothesis SA : shp A = [r; length x].
Hypothesis HC : returns (arr_mid A) m C0 /\ returns (f_of C0) m C.
Hypothesis HG : returns (arr_rad A) m G0 /\ returns (f_of G0) m G.
Hypothesis Hc : returns (arr_mid b) m c0 /\ returns (f_of c0) m c.
Hypothesis HW : aget weight [mc] = Some (PFlt w).
Hypothesis FW : is_finite w = true.
Hypothesis FX : Forall (fun f => is_finite f = true) x.
Let t := fsub mode_NE (f_get c [mc]) (f_row fdot (length x) (fun l => f_get C [mc; l]) (fun l => nth l x f0)).
Hypothesis FT : is_finite t = true.
Let S k := Rabs (B2R (f_get G [mc; k])) + Rabs (B2R (f_get C [mc; k])).
Hypothesis HB : forall k, (k < length x)%nat -> is_finite (f_get C [mc; k]) = true /\ is_finite (f_get G [mc; k]) = true /\ S k <= bpow radix2 1000 /\ Rabs (B2R w) * S k <= bpow radix2 1000.
Theorem uss_direction : exists g e, returns (uss_grad fdot A b weight mc x) m g /\ length g = length x /\ sign_of e (B2R t) /\
  forall k, (k < length x)%nat -> is_finite (nth k g f0) = true /\ exists s, sign_of s (coords x k) /\
    Rabs (B2R (nth k g f0) - B2R w * (s * B2R (f_get G [mc; k]) + e * B2R (f_get C [mc; k]))) <= bpow radix2 (-50) * (Rabs (B2R w) * S k) + bpow radix2 (-1072) * (Rabs (B2R w) + 1).
Proof.
  destruct (f_sign_x t FT) as (e & Ee & Se & Ve).
  set (g := fun k => fmul mode_NE w (fadd mode_NE (fmul mode_NE (f_sign (nth k x f0)) (f_get G [mc; k])) (fmul mode_NE (f_sign t) (f_get C [mc; k])))).
  exists (map g (seq 0 (length x))), e. split; [|split; [now rewrite map_length, seq_length|split; [exact Se|]]].
  - unfold uss_grad. rewrite SA. rewrite keeps_returns by (unfold arr_mid; apply keeps_vectorize_num, keeps_mid). exists C0. split; [apply HC|]. rewrite keeps_returns by apply keeps_f_of. exists C. split; [apply HC|].
    rewrite keeps_returns by (unfold arr_rad; apply keeps_vectorize_num, keeps_rad). exists G0. split; [apply HG|]. rewrite keeps_returns by apply keeps_f_of. exists G. split; [apply HG|].
    rewrite keeps_returns by (unfold arr_mid; apply keeps_vectorize_num, keeps_mid). exists c0. split; [apply Hc|]. rewrite keeps_returns by apply keeps_f_of. exists c. split; [apply Hc|].
    rewrite keeps_returns by apply keeps_lift. exists w. split; [rewrite HW; reflexivity|]. reflexivity.
  - intros k Hk. rewrite (nth_indep _ f0 (g 0%nat)) by (now rewrite map_length, seq_length). rewrite map_nth, seq_nth by exact Hk. cbn [Nat.add].
    destruct (HB k Hk) as (FC & FG & B1 & B2). assert (Fx : is_finite (nth k x f0) = true) by (rewrite Forall_forall in FX; apply FX, nth_In; exact Hk).
    destruct (f_sign_x _ Fx) as (s & Es & Ss & Vs).
    assert (AB : forall p q, p = 1 \/ p = -1 \/ p = 0 -> Rabs (p * q) <= Rabs q).
    { intros p q Hp. rewrite Rabs_mult. rewrite <- (Rmult_1_l (Rabs q)) at 2. apply Rmult_le_compat_r; [apply Rabs_pos|]. destruct Hp as [-> | [-> | ->]]; apply Rabs_le; lra. }
    destruct (sum_prod w _ _ _ _ (sign_mul _ _ s Es FG Vs) (sign_mul _ _ e Ee FC Ve) FW (S k)) as (v & Ev & Dv); [apply Rplus_le_compat; now apply AB | exact B1 | exact B2|].
    fold (g k) in Ev. destruct (fin_x _ _ Ev) as [Fv Bv]. split; [exact Fv|]. exists s. split; [exact Ss|]. rewrite Bv. exact Dv.
Qed.
End Uss.

Lemma wils_direction fdot o A b weight mc x w l u m i s q : o <> Models.OUss ->
  returns (calc_parts fdot A b (point x)) m (i, s, q) -> aget weight [mc] = Some (PFlt w) -> is_finite w = true -> Forall (fun f => is_finite f = true) x ->
  (forall k, (k < length x)%nat -> aget (adat A) [mc; k] = Some (mkitv Classical (PFlt (l k)) (PFlt (u k))) /\ is_finite (l k) = true /\ is_finite (u k) = true /\ B2R (l k) <= B2R (u k) /\
     Rabs (B2R w * B2R (l k)) <= bpow radix2 1000 /\ Rabs (B2R w * B2R (u k)) <= bpow radix2 1000) ->
  let upper := flt_leb (fneg (f_get i [mc])) (f_get s [mc]) in
  exists g h, returns (diff_fl fdot o A b weight mc x) m g /\ length g = length x /\
    (forall k, (k < length x)%nat -> rounded_once (nth k g f0) (if upper then B2R w * h k else - (B2R w * h k))) /\
    (if Bool.eqb upper (match o with Models.OTol => true | _ => false end) then supergradient (length x) (least_product (length x) (fun k => B2R (l k)) (fun k => B2R (u k))) (coords x) h
     else subgradient (length x) (greatest_product (length x) (fun k => B2R (l k)) (fun k => B2R (u k))) (coords x) h).
Proof. intros O H1 H2 H3 H4 H5. destruct o; [| | congruence]; cbn [diff_fl]; apply (ends_direction fdot _ A b weight mc x w l u m i s q H1 H2 H3 H4 H5). Qed.

Lemma given_spec con grad : (forall x, keeps_mode (con x)) -> (forall mc x, keeps_mode (grad mc x)) -> (forall x T v, returns (con x) mode_NE T -> In v (adata T) -> is_double v) -> given con grad (objective con grad).
Proof.
  intros KC KG DBL y N. destruct (objective con grad y) as [f gr] eqn:Ho. cbn [fst snd] in *. destruct (objective_spec con grad KC KG y f gr Ho) as [->|(T & mc & t & gl & HT & Hm & Hn & Hd & HG & E)]; [discriminate|].
  destruct (argmin_spec T mc Hm) as (t' & Ht' & MN). assert (t' = t) by congruence. subst t'.
  assert (It := nth_error_In _ _ Hn). destruct (DBL _ T t HT It) as [ft ->]. cbn [to_double] in Hd. inversion Hd; subst ft.
  assert (Nt : is_nan_num (PFlt (fneg f)) = false) by (cbn [is_nan_num]; destruct f; auto).
  exists T, mc, gl. split; [exact HT|]. split; [exact Hn|]. split; [split; [exact It|]; intros w Hw; now apply MN|]. now split.
Qed.
Lemma directions_given fdot W P A b w x0 :
  (exists fg, tol_maximize_fl fdot W P A b w x0 = ran_on W P fg x0 /\ given (fun x => tol_calc fdot A b x w) (ends_grad fdot true A b w) fg) /\
  (exists fg, uni_maximize_fl fdot W P A b w x0 = ran_on W P fg x0 /\ given (fun x => uni_calc fdot A b x w) (ends_grad fdot false A b w) fg) /\
  (exists fg, uss_maximize_fl fdot W P A b w x0 = ran_on W P fg x0 /\ given (fun x => uss_calc fdot A b x w) (uss_grad fdot A b w) fg).
Proof.
  split; [|split].
  - eexists. split; [reflexivity|]. exact (given_spec _ _ (keeps_tol fdot A b w) (keeps_ends fdot A b w true) (tol_double fdot A b w)).
  - eexists. split; [reflexivity|]. exact (given_spec _ _ (keeps_uni fdot A b w) (keeps_ends fdot A b w false) (uni_double fdot A b w)).
  - eexists. split; [reflexivity|]. exact (given_spec _ _ (fun x => keeps_uss fdot A b x w) (keeps_uss_grad fdot A b w) (uss_double fdot A b w)).
Qed.
