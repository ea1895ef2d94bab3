(** The points at which ralgb5 calls calcfg are those of Shor's method; no
    division by zero (over exact reals). *)
From Coq Require Import ZArith Reals List Bool Arith Lia Lra.
From Verif Require Import Exact SpecExact ExactProofs EstimProofs SubdiffProofs Recog Ralgb5 SpecShor.
Import ListNotations.
Open Scope R_scope.

Lemma sum_squares n v : 0 <= total n (fun i => v i * v i).
Proof. apply total_nn. intros j _. nra. Qed.
Lemma sum_squares_pos n v : non_zero n v -> 0 < total n (fun i => v i * v i).
Proof.
  intros [i [Hi Hv]]. apply Rlt_le_trans with (v i * v i); [nra|].
  apply (total_term n (fun i => v i * v i) i Hi). intros j _. nra.
Qed.
Lemma sum_squares_zero n v : total n (fun i => v i * v i) = 0 -> forall i, (i < n)%nat -> v i = 0.
Proof.
  intros E i Hi. assert (H := total_zero_nn n (fun i => v i * v i)). simpl in H.
  specialize (H (fun j _ => ltac:(nra)) E i Hi). nra.
Qed.
Lemma non_zero_dec n v : non_zero n v \/ forall i, (i < n)%nat -> v i = 0.
Proof.
  destruct (Req_dec (total n (fun i => v i * v i)) 0) as [E|N].
  - right. now apply sum_squares_zero.
  - left. destruct (Classical_Prop.classic (non_zero n v)) as [Y|Y]; [exact Y|]. exfalso. apply N. apply total_0. intros j Hj.
    destruct (Req_dec (v j) 0) as [->|Nz]; [ring|]. exfalso. apply Y. exists j. split; assumption.
Qed.

Section Factor.
Variable n : nat.
(** B' v and the relation H = B B'. *)
Definition bt (B : mat) (v : vec) : vec := fun i => total n (fun j => B j i * v j).
Definition factor (H B : mat) : Prop := forall i j, (i < n)%nat -> (j < n)%nat -> H i j = total n (fun k => B i k * B j k).
(** B' has no kernel. *)
Definition regular (B : mat) : Prop := forall v, (forall i, (i < n)%nat -> bt B v i = 0) -> forall i, (i < n)%nat -> v i = 0.

Lemma factor_times H B v : factor H B -> forall i, (i < n)%nat -> times n H v i = times n B (bt B v) i.
Proof.
  intros F i Hi. unfold times, bt.
  transitivity (total n (fun j => total n (fun k => B i k * B j k * v j))).
  { apply total_ext. intros j Hj. rewrite (F i j Hi Hj), <- total_scal_r. reflexivity. }
  rewrite total_swap. apply total_ext. intros k Hk. rewrite <- total_scal. apply total_ext. intros j Hj. ring.
Qed.
Lemma bt_dot B u v : dot n u (times n B v) = dot n (bt B u) v.
Proof.
  unfold dot, times, bt.
  transitivity (total n (fun i => total n (fun j => u i * (B i j * v j)))).
  { apply total_ext. intros i Hi. now rewrite total_scal. }
  rewrite total_swap. apply total_ext. intros j Hj. rewrite <- total_scal_r. apply total_ext. intros i Hi. ring.
Qed.
Lemma factor_energy H B v : factor H B -> energy n H v = total n (fun i => bt B v i * bt B v i).
Proof.
  intro F. unfold energy. transitivity (dot n v (times n B (bt B v))).
  { unfold dot. apply total_ext. intros i Hi. now rewrite (factor_times H B v F i Hi). }
  apply bt_dot.
Qed.
Lemma factor_positive H B : factor H B -> regular B -> positive_definite n H.
Proof.
  intros F G v [i [Hi Hv]]. rewrite (factor_energy H B v F). apply sum_squares_pos.
  destruct (non_zero_dec n (bt B v)) as [Y|Z]; [exact Y|]. exfalso. apply Hv. now apply (G v Z).
Qed.
Lemma bt_ext B u v : agree n u v -> forall i, bt B u i = bt B v i.
Proof. intros E i. unfold bt. apply total_ext. intros j Hj. now rewrite (E j Hj). Qed.
Lemma times_ext H u v : agree n u v -> forall i, times n H u i = times n H v i.
Proof. intros E i. unfold times. apply total_ext. intros j Hj. now rewrite (E j Hj). Qed.
Lemma energy_ext H u v : agree n u v -> energy n H u = energy n H v.
Proof. intro E. unfold energy, dot. apply total_ext. intros i Hi. now rewrite (E i Hi), (times_ext H u v E i). Qed.

(** The dilated matrix. *)
Definition dilated (B : mat) (w : R) (xi : vec) : mat := fun i j => B i j + w * (times n B xi i * xi j).
Lemma bt_dilated B w xi v i : bt (dilated B w xi) v i = bt B v i + w * dot n xi (bt B v) * xi i.
Proof.
  unfold bt at 1, dilated.
  transitivity (total n (fun j => B j i * v j + w * xi i * (v j * times n B xi j))).
  { apply total_ext. intros j Hj. ring. }
  rewrite total_plus, total_scal. fold (bt B v i). change (total n (fun j => v j * times n B xi j)) with (dot n v (times n B xi)).
  rewrite bt_dot. replace (dot n (bt B v) xi) with (dot n xi (bt B v)) by (unfold dot; apply total_ext; intros; ring). ring.
Qed.
Lemma dilated_regular B w xi : regular B -> dot n xi xi = 1 -> 1 + w <> 0 -> regular (dilated B w xi).
Proof.
  intros G U Nw v Z. apply G. set (c := dot n xi (bt B v)).
  assert (E : forall i, (i < n)%nat -> bt B v i = - (w * c) * xi i).
  { intros i Hi. specialize (Z i Hi). rewrite bt_dilated in Z. fold c in Z. lra. }
  assert (Ec : c = - (w * c)).
  { unfold c at 1, dot. transitivity (total n (fun j => - (w * c) * (xi j * xi j))).
    - apply total_ext. intros j Hj. rewrite (E j Hj). ring.
    - rewrite total_scal. change (total n (fun j => xi j * xi j)) with (dot n xi xi). rewrite U. ring. }
  assert (C0 : c = 0). { assert ((1 + w) * c = 0) by lra. apply Rmult_integral in H. destruct H; [contradiction|assumption]. }
  intros i Hi. rewrite (E i Hi), C0. ring.
Qed.
Lemma dilated_factor H B w xi : factor H B -> dot n xi xi = 1 ->
  forall i j, (i < n)%nat -> (j < n)%nat -> total n (fun k => dilated B w xi i k * dilated B w xi j k) = H i j + (2 * w + w * w) * (times n B xi i * times n B xi j).
Proof.
  intros F U i j Hi Hj. unfold dilated.
  transitivity (total n (fun k => B i k * B j k + (w * times n B xi j * (B i k * xi k) + (w * times n B xi i * (B j k * xi k) + w * w * (times n B xi i * times n B xi j) * (xi k * xi k))))).
  { apply total_ext. intros k Hk. ring. }
  rewrite !total_plus, !total_scal. rewrite <- (F i j Hi Hj).
  change (total n (fun k => B i k * xi k)) with (times n B xi i). change (total n (fun k => B j k * xi k)) with (times n B xi j).
  change (total n (fun k => xi k * xi k)) with (dot n xi xi). rewrite U. ring.
Qed.
End Factor.

Section Run.
Variables (n : nat) (big : R) (ndiv : R -> R -> R) (vdiv : vec -> R -> vec).
Hypothesis Hndiv : forall a b, b <> 0 -> ndiv a b = a / b.
Hypothesis Hvdiv : forall v c, c <> 0 -> agree n (vdiv v c) (fun i => v i / c).
Notation OP := (real_ops_with n big ndiv vdiv).
Variable P : params OP.
Variable calcfg : vec -> R * vec.
Hypothesis Hext : forall x y, agree n x y -> agree n (snd (calcfg x)) (snd (calcfg y)).
Hypothesis Htolg : 0 < (tolg OP P : R).
Hypothesis Halpha : (alpha OP P : R) <> 0.
Variable x0 : vec.

Let grad : vec -> vec := fun x => snd (calcfg x).
Let nxt := next n grad (alpha OP P) (q1 OP P) (q2 OP P) (nh OP P).
Let aft := after n grad (alpha OP P) (h0 OP P) (q1 OP P) (q2 OP P) (nh OP P) x0.

(** Every evaluated point is the point of the method with the same number; the
    states before the last are regular. *)
Definition sound (s : place) : Prop := positive_definite n (metric s) /\ non_zero n (since s).
Definition tracks (t : list vec) : Prop :=
  (forall k y, nth_error (rev t) k = Some y -> agree n y (at_ (aft k))) /\ (forall k, (S k < length t)%nat -> sound (aft k)).
(** [s] is the state after the last evaluation. *)
Definition stands (t : list vec) (s : place) : Prop := exists k, length t = S k /\ s = aft k /\ tracks t.

Lemma tracks_cons t s x : stands t s -> sound s -> agree n x (target n s) -> tracks (x :: t) /\ stands (x :: t) (nxt s).
Proof.
  intros [k [Hl [Es [T1 T2]]]] So Ex. rewrite Es in So, Ex |- *. clear Es s.
  assert (Et : at_ (nxt (aft k)) = target n (aft k)).
  { unfold nxt, next. destruct (Rlt_dec 0 _); reflexivity. }
  assert (T : tracks (x :: t)).
  { split.
    - intros k' y E. cbn [rev] in E. destruct (Nat.lt_ge_cases k' (length (rev t))) as [L|G].
      + rewrite nth_error_app1 in E by exact L. now apply T1.
      + rewrite nth_error_app2 in E by exact G. rewrite rev_length in *. destruct (k' - length t)%nat eqn:Ek; [|destruct n0; discriminate].
        simpl in E. injection E as <-. assert (k' = S k) by lia. subst k'. change (aft (S k)) with (nxt (aft k)). now rewrite Et.
    - intros k' Hk. simpl in Hk. destruct (Nat.eq_dec k' k) as [->|N]; [exact So|]. apply T2. lia. }
  split; [exact T|]. exists (S k). split; [simpl; lia|]. split; [reflexivity|exact T].
Qed.

Lemma norm_spec (v : vec) : v_norm OP v = sqrt (total n (fun i => v i * v i)).
Proof. cbn. now rewrite vsum_total. Qed.
Lemma norm_large v : n_lt OP (v_norm OP v) (tolg OP P) = false -> non_zero n v.
Proof.
  rewrite norm_spec. cbn. destruct (Rlt_dec _ _) as [|N]; [discriminate|]. intros _. destruct (non_zero_dec n v) as [Y|Z]; [exact Y|].
  exfalso. apply N. rewrite (total_0 n (fun i => v i * v i)), sqrt_0; [exact Htolg|]. intros j Hj. rewrite (Z j Hj). ring.
Qed.
Lemma dot_ext_r u v1 v2 : agree n v1 v2 -> dot n u v1 = dot n u v2.
Proof. intro E. unfold dot. apply total_ext. intros i Hi. now rewrite (E i Hi). Qed.
Lemma dot_ext_l u1 u2 v : agree n u1 u2 -> dot n u1 v = dot n u2 v.
Proof. intro E. unfold dot. apply total_ext. intros i Hi. now rewrite (E i Hi). Qed.

(** The line search. *)
Lemma line_tracks fuel : forall nit dx normdx st g1 d cal deltax s, (501 <= fuel + cal)%nat -> (cal <= 500)%nat -> 0 < (d : R) ->
  stands (s_trace OP st) s -> sound s -> agree n (s_x OP st) (at_ s) -> (s_hs OP st : R) = step s -> agree n dx (direction n s) -> cal = moves s ->
  match line_search OP P calcfg fuel nit dx normdx st g1 d cal deltax with
  | inl (_, t) => tracks t
  | inr (st', g1', cal', _) => tracks (s_trace OP st') /\ ((500 < cal')%nat \/
      exists s', stands (s_trace OP st') s' /\ agree n (s_x OP st') (at_ s') /\ agree n g1' (since s') /\ non_zero n g1' /\
        metric s' = contracted n (alpha OP P) (metric s) (minus (since s') (since s)) /\ dot n (direction n s) (since s') <= 0 /\ moves s' = 0%nat /\
        step s' = (if Nat.eqb cal' 1 then (s_hs OP st' : R) * q1 OP P else s_hs OP st'))
  end.
Proof.
  induction fuel as [|fuel IH]; intros nit dx normdx st g1 d cal deltax s Hf Hc Hd St So Ex Eh Ed Em; [lia|].
  cbn [line_search]. replace (n_lt OP (n_zero OP) d) with true by (cbn; destruct (Rlt_dec 0 d); [reflexivity|contradiction]).
  rewrite (proj2 (Nat.leb_le cal 500) Hc). cbn [andb].
  set (x := v_sub OP (s_x OP st) (v_scale OP (s_hs OP st) dx)).
  assert (Exx : agree n x (target n s)).
  { intros i Hi. unfold x, target. cbn. rewrite (Ex i Hi), Eh, (Ed i Hi). reflexivity. }
  destruct (tracks_cons _ _ x St So Exx) as [T St']. clear St.
  assert (Eg : agree n (snd (calcfg x)) (grad (target n s))) by (apply Hext; exact Exx).
  destruct (calcfg x) as [f g1'] eqn:Ec. cbn [snd] in Eg.
  destruct (n_lt OP (v_norm OP g1') (tolg OP P)) eqn:Eg0; [exact T|].
  assert (Nz := norm_large _ Eg0).
  set (hs := if mod0 cal (nh OP P) then n_mul OP (s_hs OP st) (q2 OP P) else s_hs OP st).
  assert (Ehs : (hs : R) = (if every_nh (nh OP P) (moves s) then step s * q2 OP P else step s)).
  { unfold hs, mod0, every_nh. rewrite <- Em. generalize (nh OP P). intros [|h]; [cbn; now rewrite Eh|].
    destruct (cal mod S h =? 0)%nat; [cbn; now rewrite Eh|exact Eh]. }
  assert (Edot : v_dot OP dx g1' = dot n (direction n s) (grad (target n s))).
  { cbn. rewrite vsum_total. change (dot n dx g1' = dot n (direction n s) (grad (target n s))). rewrite (dot_ext_l dx (direction n s) g1' Ed). now apply dot_ext_r. }
  destruct (Rlt_dec 0 (dot n (direction n s) (grad (target n s)))) as [L|G].
  - (* the line goes on *)
    assert (En : nxt s = mkplace (target n s) (since s) (metric s) hs (S (moves s))).
    { unfold nxt, next. destruct (Rlt_dec 0 (dot n (direction n s) (grad (target n s)))) as [_|C]; [now rewrite Ehs|contradiction]. }
    destruct (Nat.eq_dec cal 500) as [E5|N5].
    + (* emergency *)
      destruct fuel as [|fuel]; cbn [line_search].
      * cbn [s_trace]. split; [exact T|]. left. lia.
      * replace (Nat.leb (S cal) 500) with false by (symmetry; apply Nat.leb_gt; lia). rewrite andb_false_r. cbn [s_trace]. split; [exact T|]. left. lia.
    + assert (IH' := IH nit dx normdx (mkstate OP x (if n_lt OP f (s_fr OP st) then x else s_xr OP st) (if n_lt OP f (s_fr OP st) then f else s_fr OP st) hs (S (s_ncalls OP st)) (x :: s_trace OP st)) g1' (v_dot OP dx g1') (S cal)
        (n_add OP deltax (n_mul OP (s_hs OP st) normdx)) (nxt s)).
      rewrite En in IH'. cbn [s_trace s_x s_hs at_ since metric step moves] in IH'.
      destruct So as [So1 So2]. rewrite En in St'.
      specialize (IH' ltac:(lia) ltac:(lia)). rewrite Edot in IH'. specialize (IH' L St' (conj So1 So2) Exx eq_refl Ed ltac:(lia)).
      rewrite Edot. exact IH'.
  - (* a turn *)
    set (g := grad (target n s)) in *.
    assert (En : nxt s = mkplace (target n s) g (contracted n (alpha OP P) (metric s) (minus g (since s))) (if Nat.eqb (moves s) 0 then hs * q1 OP P else hs) 0).
    { unfold nxt, next. destruct (Rlt_dec 0 (dot n (direction n s) (grad (target n s)))) as [C|_]; [contradiction|now rewrite Ehs]. }
    assert (Ls : forall fr xr, line_search OP P calcfg fuel nit dx normdx (mkstate OP x xr fr hs (S (s_ncalls OP st)) (x :: s_trace OP st)) g1' (v_dot OP dx g1') (S cal) (n_add OP deltax (n_mul OP (s_hs OP st) normdx)) =
       inr (mkstate OP x xr fr hs (S (s_ncalls OP st)) (x :: s_trace OP st), g1', S cal, n_add OP deltax (n_mul OP (s_hs OP st) normdx))).
    { intros fr xr. destruct fuel; cbn [line_search]; [reflexivity|].
      replace (n_lt OP (n_zero OP) (v_dot OP dx g1')) with false; [reflexivity|]. rewrite Edot. cbn. destruct (Rlt_dec 0 _); [contradiction|reflexivity]. }
    rewrite Ls. cbn [s_trace s_x s_hs]. split; [exact T|]. right. exists (nxt s). split; [exact St'|]. rewrite En. cbn [at_ since metric step moves].
    split; [exact Exx|]. split; [exact Eg|]. split; [exact Nz|]. split; [reflexivity|]. split; [lra|]. split; [reflexivity|].
    rewrite <- Em. destruct cal; reflexivity.
Qed.

Lemma non_zero_agree u v : agree n u v -> non_zero n u -> non_zero n v.
Proof. intros E [i [Hi N]]. exists i. split; [exact Hi|]. now rewrite <- (E i Hi). Qed.
Lemma agree_sym (u v : vec) : agree n u v -> agree n v u.
Proof. intros E i Hi. symmetry. now apply E. Qed.

(** The unit vector B' v / |B' v|, and B applied to it. *)
Lemma unit_spec H B v : factor n H B -> regular n B -> non_zero n v ->
  let u := m_tv OP B v in let xi := v_div OP u (v_norm OP u) in
  v_norm OP u = sqrt (energy n H v) /\ 0 < energy n H v /\ dot n xi xi = 1 /\ agree n (m_v OP B xi) (along n H v).
Proof.
  intros F G Nz u xi.
  assert (Eu : forall i, u i = bt n B v i) by (intro i; unfold u; cbn; now rewrite vsum_total).
  assert (Ee : 0 < energy n H v) by (apply (factor_positive n H B F G); exact Nz).
  assert (En : v_norm OP u = sqrt (energy n H v)).
  { rewrite norm_spec, (factor_energy n H B v F). reflexivity. }
  assert (Sp : 0 < sqrt (energy n H v)) by (now apply sqrt_lt_R0).
  assert (Exi : agree n xi (fun i => bt n B v i / sqrt (energy n H v))).
  { intros i Hi. unfold xi. rewrite En. change (vdiv u (sqrt (energy n H v)) i = bt n B v i / sqrt (energy n H v)). rewrite (Hvdiv u (sqrt (energy n H v)) ltac:(lra) i Hi). now rewrite (Eu i). }
  split; [exact En|]. split; [exact Ee|]. split.
  - unfold dot. transitivity (total n (fun i => / energy n H v * (bt n B v i * bt n B v i))).
    + apply total_ext. intros i Hi. rewrite (Exi i Hi). rewrite <- (sqrt_sqrt (energy n H v)) at 3 by lra. field. lra.
    + rewrite total_scal, <- (factor_energy n H B v F). field. lra.
  - intros i Hi. change (m_v OP B xi i) with (vsum n (fun j => B i j * xi j)). rewrite vsum_total. unfold along. rewrite (factor_times n H B v F i Hi). unfold times.
    transitivity (total n (fun j => / sqrt (energy n H v) * (B i j * bt n B v j))).
    + apply total_ext. intros j Hj. rewrite (Exi j Hj). field. lra.
    + rewrite total_scal. field. lra.
Qed.

Lemma along_ext H u v : agree n u v -> agree n (along n H u) (along n H v).
Proof. intros E i Hi. unfold along. now rewrite (times_ext n H u v E i), (energy_ext n H u v E). Qed.
Lemma contracted_ext H u v i j : agree n u v -> contracted n (alpha OP P) H u i j = contracted n (alpha OP P) H v i j.
Proof. intro E. unfold contracted. now rewrite (times_ext n H u v E i), (times_ext n H u v E j), (energy_ext n H u v E). Qed.

Lemma dilate_spec H B r : factor n H B -> regular n B -> non_zero n r ->
  let u := m_tv OP B r in let xi := v_div OP u (v_norm OP u) in
  let B' := m_dilate OP B (n_sub OP (n_div OP (n_one OP) (alpha OP P)) (n_one OP)) xi in
  factor n (contracted n (alpha OP P) H r) B' /\ regular n B'.
Proof.
  intros F G Nz u xi B'. destruct (unit_spec H B r F G Nz) as [_ [Ee [U A]]]. fold u in A, U. fold xi in A, U.
  set (w := 1 / (alpha OP P : R) - 1).
  assert (EB : forall i j, B' i j = dilated n B w xi i j).
  { intros i j. unfold B', dilated, w. cbn. rewrite vsum_total, Hndiv by exact Halpha. reflexivity. }
  assert (Et : forall i, (i < n)%nat -> times n B xi i = along n H r i).
  { intros i Hi. rewrite <- (A i Hi). change (m_v OP B xi i) with (vsum n (fun j => B i j * xi j)). now rewrite vsum_total. }
  assert (Sq : sqrt (energy n H r) * sqrt (energy n H r) = energy n H r) by (apply sqrt_sqrt; lra).
  assert (Sp : 0 < sqrt (energy n H r)) by (now apply sqrt_lt_R0).
  split.
  - intros i j Hi Hj. transitivity (total n (fun k => dilated n B w xi i k * dilated n B w xi j k)).
    + rewrite (dilated_factor n H B w xi F U i j Hi Hj), (Et i Hi), (Et j Hj). unfold contracted, along. set (q := sqrt (energy n H r)) in *. rewrite <- Sq.
      unfold w. field. split; [lra|exact Halpha].
    + apply total_ext. intros k Hk. now rewrite !EB.
  - intros v Z. apply (dilated_regular n B w xi G U).
    + unfold w. replace (1 + (1 / (alpha OP P : R) - 1)) with (/ (alpha OP P : R)) by (field; exact Halpha). now apply Rinv_neq_0_compat.
    + intros i Hi. rewrite <- (Z i Hi). unfold bt. apply total_ext. intros k Hk. now rewrite EB.
Qed.

Lemma main_tracks fuel : forall nit st B g0 vf s, stands (s_trace OP st) s -> agree n (s_x OP st) (at_ s) -> agree n g0 (since s) -> non_zero n g0 ->
  factor n (metric s) B -> regular n B -> (s_hs OP st : R) = step s -> moves s = 0%nat ->
  tracks (snd (main_loop OP P calcfg fuel nit st B g0 vf)).
Proof.
  induction fuel as [|fuel IH]; intros nit st B g0 vf s St Ex Eg Nz F G Eh Em.
  { destruct St as [k [_ [_ T]]]. exact T. }
  cbn [main_loop]. destruct (Z.of_nat nit <=? maxiter OP P)%Z; [|destruct St as [k [_ [_ T]]]; exact T].
  destruct (unit_spec (metric s) B g0 F G Nz) as [En [Ee [_ A]]].
  set (g1 := m_tv OP B g0) in *. set (dx := m_v OP B (v_div OP g1 (v_norm OP g1))) in *.
  assert (Ed : agree n dx (direction n s)).
  { intros i Hi. rewrite (A i Hi). unfold direction. apply along_ext; assumption. }
  assert (So : sound s) by (split; [apply (factor_positive n _ B F G)|exact (non_zero_agree _ _ Eg Nz)]).
  assert (L := line_tracks 502 nit dx (v_norm OP dx) st g1 (n_one OP) 0 (n_zero OP) s ltac:(lia) ltac:(lia) ltac:(cbn; lra) St So Ex Eh Ed (eq_sym Em)).
  destruct (line_search OP P calcfg 502 nit dx (v_norm OP dx) st g1 (n_one OP) 0 (n_zero OP)) as [[r t]|[[[st' g1'] cal'] deltax']]; [exact L|].
  destruct L as [T L]. destruct (Nat.ltb_spec 500 cal') as [C|C]; [exact T|].
  destruct L as [L|[s' [St' [Ex' [Eg' [Nz' [Em' [Ed' [Mv' Eh']]]]]]]]]; [lia|].
  cbn [s_trace]. destruct (n_lt OP deltax' (tolx OP P)); [exact T|].
  match goal with |- context [n_lt OP ?a (tolf OP P)] => destruct (n_lt OP a (tolf OP P)) end; [exact T|].
  assert (Er : agree n (v_sub OP g1' g0) (minus (since s') (since s))).
  { intros i Hi. cbn. unfold minus. now rewrite (Eg' i Hi), (Eg i Hi). }
  assert (Nr : non_zero n (v_sub OP g1' g0)).
  { destruct (non_zero_dec n (v_sub OP g1' g0)) as [Y|Z]; [exact Y|]. exfalso.
    assert (Es : agree n (since s') (since s)). { intros i Hi. specialize (Z i Hi). rewrite (Er i Hi) in Z. unfold minus in Z. lra. }
    rewrite (dot_ext_r (direction n s) _ _ Es) in Ed'.
    assert (Ps : 0 < energy n (metric s) (since s)) by (apply So; apply So).
    assert (Pd : dot n (direction n s) (since s) = sqrt (energy n (metric s) (since s))).
    { unfold direction, along, dot. transitivity (total n (fun j => / sqrt (energy n (metric s) (since s)) * (since s j * times n (metric s) (since s) j))).
      - apply total_ext. intros j Hj. unfold Rdiv. ring.
      - rewrite total_scal. change (total n (fun j => since s j * times n (metric s) (since s) j)) with (energy n (metric s) (since s)).
        rewrite <- (sqrt_sqrt (energy n (metric s) (since s))) at 2 by lra. field. apply Rgt_not_eq. now apply sqrt_lt_R0. }
    rewrite Pd in Ed'. assert (0 < sqrt (energy n (metric s) (since s))) by (now apply sqrt_lt_R0). lra. }
  destruct (dilate_spec (metric s) B (v_sub OP g1' g0) F G Nr) as [F' G'].
  apply (IH _ _ _ _ _ s').
  - exact St'.
  - exact Ex'.
  - exact Eg'.
  - exact Nz'.
  - intros i j Hi Hj. rewrite Em', <- (contracted_ext (metric s) _ _ i j Er). apply F'; assumption.
  - exact G'.
  - cbn [s_hs]. now rewrite Eh'.
  - exact Mv'.
Qed.

Lemma ralgb5_tracks r t : ralgb5 OP P calcfg n x0 = (r, t) -> tracks t.
Proof.
  unfold ralgb5. destruct (calcfg x0) as [fr g0] eqn:Ec.
  assert (T0 : tracks [x0]).
  { split; [|intros k Hk; simpl in Hk; lia]. intros k y E. cbn in E. destruct k as [|k]; [|destruct k; discriminate]. injection E as <-. intros i _. reflexivity. }
  destruct (n_lt OP (v_norm OP g0) (tolg OP P)) eqn:Eg; [intro E; injection E as <- <-; exact T0|].
  intro E.
  assert (M := main_tracks (Z.to_nat (maxiter OP P + 2)) 0 (mkstate OP x0 x0 fr (h0 OP P) 1 [x0]) (m_eye OP n) g0 (repeat (n_inf OP) (S (k_sims OP P))) (aft 0)).
  replace t with (snd (r, t)) by reflexivity. rewrite <- E. apply M.
  - exists 0%nat. split; [reflexivity|]. split; [reflexivity|exact T0].
  - intros i _. reflexivity.
  - intros i _. unfold aft. cbn [after start since]. unfold grad. now rewrite Ec.
  - exact (norm_large _ Eg).
  - intros i j Hi Hj. cbn. rewrite (total_pick n i); [|exact Hi|].
    + destruct (Nat.eq_dec i i) as [_|N]; [|contradiction]. destruct (Nat.eq_dec i j), (Nat.eq_dec j i); try ring; congruence.
    + intros k Hk Nk. destruct (Nat.eq_dec i k); [congruence|ring].
  - intros v Z i Hi. specialize (Z i Hi). unfold bt in Z. rewrite (total_pick n i) in Z; [|exact Hi|].
    + cbn in Z. destruct (Nat.eq_dec i i) as [_|N]; [|contradiction]. lra.
    + intros k Hk Nk. cbn. destruct (Nat.eq_dec k i); [contradiction|ring].
  - reflexivity.
  - reflexivity.
Qed.
End Run.

(** The objectives of Tol, Uni and Uss read only the components that count. *)
Lemma mv_agree n M x y : agree n x y -> mv n M x = mv n M y.
Proof. intro E. apply FunctionalExtensionality.functional_extensionality. intro i. unfold mv. rewrite !vsum_total. apply total_ext. intros j Hj. now rewrite (E j Hj). Qed.
Lemma mv_abs_agree n M x y : agree n x y -> mv n M (vabs x) = mv n M (vabs y).
Proof. intro E. apply mv_agree. intros j Hj. unfold vabs. now rewrite (E j Hj). Qed.
Lemma tol_agree k n A b w x y : agree n x y -> agree n (snd (tol_fg k n A b w x)) (snd (tol_fg k n A b w y)).
Proof.
  intros E j Hj. unfold tol_fg, tol_calcfg, cf_infs, cf_sups. rewrite (mv_agree n (mids A) x y E), (mv_abs_agree n (rads A) x y E). cbn [snd].
  destruct (Rle_dec _ _); now rewrite (E j Hj).
Qed.
Lemma uni_agree k n A b w x y : agree n x y -> agree n (snd (uni_fg k n A b w x)) (snd (uni_fg k n A b w y)).
Proof.
  intros E j Hj. unfold uni_fg, uni_calcfg, cf_infs, cf_sups. rewrite (mv_agree n (mids A) x y E), (mv_abs_agree n (rads A) x y E). cbn [snd].
  destruct (Rle_dec _ _); now rewrite (E j Hj).
Qed.
Lemma uss_agree k n A b w x y : agree n x y -> agree n (snd (uss_fg k n A b w x)) (snd (uss_fg k n A b w y)).
Proof.
  intros E j Hj. unfold uss_fg, uss_calcfg. rewrite (mv_agree n (mids A) x y E), (mv_abs_agree n (rads A) x y E). cbn [snd].
  now rewrite (E j Hj).
Qed.

Lemma ralgb5_moves n big ndiv vdiv P calcfg x0 r t : (forall a b, b <> 0 -> ndiv a b = a / b) -> (forall v c, c <> 0 -> agree n (vdiv v c) (fun i => v i / c)) ->
  let OP := real_ops_with n big ndiv vdiv in
  (forall x y, agree n x y -> agree n (snd (calcfg x)) (snd (calcfg y))) -> 0 < (tolg OP P : R) -> (alpha OP P : R) <> 0 ->
  ralgb5 OP P calcfg n x0 = (r, t) ->
  let shor := after n (fun x => snd (calcfg x)) (alpha OP P) (h0 OP P) (q1 OP P) (q2 OP P) (nh OP P) x0 in
  (forall k y, nth_error (rev t) k = Some y -> agree n y (at_ (shor k))) /\
  (forall k, (S k < length t)%nat -> positive_definite n (metric (shor k)) /\ non_zero n (since (shor k)) /\ 0 < dot n (direction n (shor k)) (since (shor k))).
Proof.
  intros H1 H2 OP H3 H4 H5 E shor. destruct (ralgb5_tracks n big ndiv vdiv H1 H2 P calcfg H3 H4 H5 x0 r t E) as [T1 T2].
  split; [exact T1|]. intros k Hk. destruct (T2 k Hk) as [S1 S2]. split; [exact S1|]. split; [exact S2|].
  set (s := after _ _ _ _ _ _ _ _ k) in S1, S2. change (shor k) with s.
  assert (Pe := S1 _ S2). unfold direction, along, dot.
  apply Rlt_le_trans with (/ sqrt (energy n (metric s) (since s)) * energy n (metric s) (since s)).
  - apply Rmult_lt_0_compat; [|exact Pe]. apply Rinv_0_lt_compat. now apply sqrt_lt_R0.
  - unfold energy at 2, dot. rewrite <- total_scal. apply Req_le. apply total_ext. intros j Hj. unfold Rdiv. ring.
Qed.

(** One evaluation after the first, when the line ends there and tolx is larger
    than the move. *)
Section OneMove.
Variables (big tx tg a0 h : R) (ndiv : R -> R -> R) (vdiv : vec -> R -> vec) (calcfg : vec -> R * vec) (x0 : vec).
Notation OP := (real_ops_with 1 big ndiv vdiv).
Definition one_params : params OP := mkparams OP tx tg 0 5%Z a0 0 h 3 1 1.
Let g0 := snd (calcfg x0).
Let dx : vec := fun i => vsum 1 (fun j => (if Nat.eq_dec i j then 1 else 0) * vdiv (fun i => vsum 1 (fun j => (if Nat.eq_dec j i then 1 else 0) * g0 j)) (sqrt (vsum 1 (fun i => vsum 1 (fun j => (if Nat.eq_dec j i then 1 else 0) * g0 j) * vsum 1 (fun j => (if Nat.eq_dec j i then 1 else 0) * g0 j)))) j).
Let x1 : vec := fun i => x0 i - h * dx i.
Lemma one_move : tg <= Rabs (g0 O) -> tg <= Rabs (snd (calcfg x1) O) -> dx O * snd (calcfg x1) O <= 0 -> h * Rabs (dx O) < tx ->
  snd (ralgb5 OP one_params calcfg 1 x0) = [x1; x0].
Proof.
  intros T0 T1 Td Tx. unfold ralgb5.
  replace (calcfg x0) with (fst (calcfg x0), g0) by (unfold g0; now destruct (calcfg x0)).
  assert (N : forall v : vec, v_norm OP v = Rabs (v O)). { intro v. cbn. rewrite Rplus_0_l. apply sqrt_Rsqr_abs. }
  assert (Lt : forall a b : R, b <= a -> n_lt OP a b = false). { intros a b L. cbn. destruct (Rlt_dec a b); [lra|reflexivity]. }
  rewrite N, (Lt (Rabs (g0 O)) (tolg OP one_params) T0).
  change (Z.to_nat (maxiter OP one_params + 2)) with 7%nat. cbn [main_loop].
  change (Z.of_nat 0 <=? maxiter OP one_params)%Z with true. cbv iota.
  change (m_v OP (m_eye OP 1) (v_div OP (m_tv OP (m_eye OP 1) g0) (v_norm OP (m_tv OP (m_eye OP 1) g0)))) with dx.
  set (st0 := mkstate OP _ _ _ _ _ _).
  assert (L : forall fuel g1, line_search OP one_params calcfg (S (S fuel)) 0 dx (v_norm OP dx) st0 g1 (n_one OP) 0 (n_zero OP) =
    let (f, g2) := calcfg x1 in
    inr (mkstate OP x1 (if n_lt OP f (fst (calcfg x0)) then x1 else x0) (if n_lt OP f (fst (calcfg x0)) then f else fst (calcfg x0)) (h * 1) 2 [x1; x0], g2, 1%nat, 0 + h * v_norm OP dx)).
  { intros fuel g1. cbn [line_search]. replace (n_lt OP (n_zero OP) (n_one OP)) with true by (cbn; destruct (Rlt_dec 0 1); [reflexivity|lra]).
    cbn [Nat.leb andb]. change (v_sub OP (s_x OP st0) (v_scale OP (s_hs OP st0) dx)) with x1.
    destruct (calcfg x1) as [f g2] eqn:E1. cbn [snd] in T1, Td. rewrite N, (Lt (Rabs (g2 O)) (tolg OP one_params) T1).
    change (mod0 0 (nh OP one_params)) with true. cbv iota.
    replace (n_lt OP (n_zero OP) (v_dot OP dx g2)) with false; [reflexivity|]. symmetry. apply Lt. cbn. cbn in Td. lra. }
  rewrite (L 500%nat). clear L. destruct (calcfg x1) as [f g2]. change (Nat.ltb 500 1) with false. cbv iota.
  replace (n_lt OP (0 + h * v_norm OP dx) (tolx OP one_params)) with true; [reflexivity|].
  symmetry. rewrite N. change (n_lt OP (0 + h * Rabs (dx O)) (tolx OP one_params)) with (if Rlt_dec (0 + h * Rabs (dx O)) tx then true else false).
  destruct (Rlt_dec (0 + h * Rabs (dx O)) tx); [reflexivity|lra].
Qed.
End OneMove.

(** A division by zero when tolg = 0. *)
Definition div_or (c : R) (v : vec) (d : R) : vec := fun i => if Req_EM_T d 0 then c else v i / d.
Lemma tolg_zero_x : forall c : R, exists P : params (real_ops_with 1 0 Rdiv (div_or c)),
  tolg _ P = 0 /\ alpha _ P = 2 /\ exists y t, snd (ralgb5 _ P (fun _ => (0, fun _ => 0)) 1 (fun _ => 5)) = y :: t /\ y O = 5 - c.
Proof.
  intro c. exists (one_params 0 (Rabs c + 1) 0 2 1 Rdiv (div_or c)). split; [reflexivity|]. split; [reflexivity|].
  assert (D : forall v, div_or c v (sqrt (0 + (0 + 1 * 0) * (0 + 1 * 0))) O = c).
  { intro v. unfold div_or. replace (0 + (0 + 1 * 0) * (0 + 1 * 0)) with 0 by ring. rewrite sqrt_0. destruct (Req_EM_T 0 0); [reflexivity|contradiction]. }
  rewrite one_move.
  - eexists _, _. split; [reflexivity|]. cbn. rewrite D. ring.
  - cbn. rewrite Rabs_R0. lra.
  - cbn. rewrite Rabs_R0. lra.
  - cbn. lra.
  - cbn. rewrite D. replace (0 + 1 * c) with c by ring. lra.
Qed.
(** f(x) = |x| from 1 with step 3. *)
Definition abs1 (x : vec) : R * vec := (Rabs (x O), fun _ => if Rlt_dec 0 (x O) then 1 else -1).
Lemma abs1_run : let OP := real_ops_with 1 0 Rdiv (fun v c i => v i / c) in let P := one_params 0 10 (1 / 2) 2 3 Rdiv (fun v c i => v i / c) in
  (forall x y, agree 1 x y -> agree 1 (snd (abs1 x)) (snd (abs1 y))) /\ 0 < (tolg OP P : R) /\ (alpha OP P : R) <> 0 /\
  exists y, rev (snd (ralgb5 OP P abs1 1 (fun _ => 1))) = [(fun _ => 1); y] /\ y O = -2.
Proof.
  intros OP P. split; [intros x y E i _; unfold abs1; cbn [snd]; now rewrite (E O ltac:(lia))|]. split; [cbn; lra|]. split; [cbn; lra|].
  assert (G : snd (abs1 (fun _ => 1)) = fun _ => 1). { unfold abs1. cbn [snd]. destruct (Rlt_dec 0 1); [reflexivity|lra]. }
  assert (S1 : sqrt (0 + (0 + 1 * 1) * (0 + 1 * 1)) = 1). { replace (0 + (0 + 1 * 1) * (0 + 1 * 1)) with 1 by ring. apply sqrt_1. }
  unfold OP, P. rewrite one_move; rewrite ?G.
  - eexists. split; [reflexivity|]. cbn. rewrite S1. field.
  - cbn. rewrite Rabs_R1. lra.
  - cbn. rewrite S1. destruct (Rlt_dec 0 _); rewrite ?Rabs_R1, ?Rabs_Ropp, ?Rabs_R1; [lra|]. rewrite Rabs_left; lra.
  - cbn. rewrite S1. destruct (Rlt_dec 0 _); lra.
  - cbn. rewrite S1. rewrite Rabs_right; lra.
Qed.
