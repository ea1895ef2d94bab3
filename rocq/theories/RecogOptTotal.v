(** maximize started at a finite point of moderate size never returns NaN. *)
From Coq Require Import ZArith Reals List Bool Arith Lia Lra.
From Flocq Require Import Core IEEE754.BinarySingleNaN.
From Verif Require Import Base PyNum Kernel Spec Expr Arrays Construct SpecArray XReal XArith KernelProofs KernelMore KernelAlg ExprProofs ArrayProofs ArrayMore ArrayMat ConstructProofs KaucherProofs
  RecogFl SpecRecogFl RecogFlProofs RecogFlCor HbrFl HbrFlProofs RohnFl GSProofs UssFl SpecUssFl UssFlProofs Ralgb5 RalgbProofs RalgbMore ConstrainedProofs RecogOpt SpecRecogOpt RecogOptProofs RecogOptMargin RecogOptSign RecogOptRun.
Import ListNotations.
Open Scope R_scope.

(** ** The value never becomes NaN *)
Section Keep.
Variable W : vops.
Variable P : params (ops_of W).
Variable calcfg : list flt -> flt * list flt.
Lemma better_num f k : flt_ltb f k = true -> is_nan f = false.
Proof. rewrite flt_ltb_x. intro H. destruct (is_nan f) eqn:E; [|reflexivity]. apply is_nan_x in E. rewrite E in H. discriminate. Qed.
Definition numf (f : num (ops_of W)) : Prop := is_nan (f : flt) = false.
Lemma line_num fuel : forall nit dx normdx (st : state (ops_of W)) g1 d cal deltax, numf (s_fr _ st) ->
  match line_search (ops_of W) P calcfg fuel nit dx normdx st g1 d cal deltax with
  | inl r => numf (r_f _ (fst r))
  | inr (st', _, _, _) => numf (s_fr _ st')
  end.
Proof.
  induction fuel as [|fuel IH]; intros nit dx normdx st g1 d cal deltax H; cbn [line_search]; [exact H|].
  destruct (n_lt (ops_of W) (n_zero (ops_of W)) d && Nat.leb cal 500); [|exact H].
  destruct (calcfg (v_sub (ops_of W) (s_x _ st) (v_scale (ops_of W) (s_hs _ st) dx))) as [f g] eqn:E.
  assert (Q : numf (if n_lt (ops_of W) f (s_fr _ st) then f else s_fr _ st)).
  { destruct (n_lt (ops_of W) f (s_fr _ st)) eqn:B; [exact (better_num _ _ B) | exact H]. }
  destruct (n_lt (ops_of W) (v_norm (ops_of W) g) (tolg (ops_of W) P)); [exact Q|]. apply IH. exact Q.
Qed.
Lemma main_num fuel : forall nit (st : state (ops_of W)) B g0 vf, numf (s_fr _ st) -> numf (r_f _ (fst (main_loop (ops_of W) P calcfg fuel nit st B g0 vf))).
Proof.
  induction fuel as [|fuel IH]; intros nit st B g0 vf H; [exact H|]. cbn [main_loop]. destruct (Z.leb _ _); [|exact H].
  match goal with |- context [line_search (ops_of W) P calcfg ?fu ?a ?b ?c st ?d ?e ?f ?g] => generalize (line_num fu a b c st d e f g H); destruct (line_search (ops_of W) P calcfg fu a b c st d e f g) as [r | [[[st' g1] cal] deltax]] end; [auto|].
  intro H'. destruct (Nat.ltb 500 cal); [exact H'|]. destruct (n_lt (ops_of W) deltax (tolx (ops_of W) P)); [exact H'|].
  match goal with |- numf (r_f _ (fst (if ?c then _ else _))) => destruct c end; [exact H'|]. apply IH. exact H'.
Qed.
Lemma run_num m x0 : is_nan (fst (calcfg x0)) = false -> numf (r_f _ (fst (ralgb5 (ops_of W) P calcfg m x0))).
Proof.
  intro H. unfold ralgb5. destruct (calcfg x0) as [fr g0] eqn:E. cbn [fst] in H. destruct (n_lt (ops_of W) (v_norm (ops_of W) g0) (tolg (ops_of W) P)); [exact H|]. apply main_num. exact H.
Qed.
End Keep.

(** ** The computations do not raise *)
Lemma f_of_wf a m y : returns (f_of a) m y -> awf a -> awf y.
Proof.
  unfold f_of, amapM. intros H Wa. rewrite keeps_returns in H by (apply keeps_mapM; intro; apply keeps_lift). destruct H as (l & Hl & H). apply returns_ret in H. subst y.
  apply mapM_returns in Hl; [|intro; apply keeps_lift]. unfold awf in *. cbn [ashape adata]. now rewrite <- (Forall2_len _ _ _ Hl).
Qed.
Lemma doubles_wf g X : consistent X -> (forall e, keeps_mode (g e)) -> (forall e v, returns (g e) mode_NE v -> is_double v) -> adata (adat X) <> [] ->
  (forall e, In e (adata (adat X)) -> exists v, returns (g e) mode_NE v) ->
  exists a y, returns (vectorize_num g (adat X)) mode_NE a /\ returns (f_of a) mode_NE y /\ ashape y = ashape (adat X) /\ awf y.
Proof.
  intros [_ WX] K D N T. destruct (double_fun_exact g X mode_NE K D N T) as (a & Ha & Sa & Fa).
  destruct (doubles g X mode_NE K D N T) as (a' & y & Ha' & Hy & Sy & _). assert (a' = a) by exact (ret_det _ _ _ _ Ha' Ha). subst a'.
  exists a, y. split; [exact Ha|]. split; [exact Hy|]. split; [exact Sy|]. apply (f_of_wf _ _ _ Hy). unfold awf in *. rewrite Sa, <- WX. symmetry. exact (Forall2_len _ _ _ Fa).
Qed.
Lemma f_bin_total f (a c : arr flt) r : ashape a = [r] -> awf a -> ashape c = [r] -> awf c -> exists z, returns (f_bin f a c) mode_NE z /\ ashape z = [r] /\ awf z.
Proof.
  intros Sa Wa Sc Wc. destruct (binop_arr_total (f_op f) (f_op_keeps f) a c [r] mode_NE Wa Wc) as [z Hz].
  - rewrite Sa, Sc. apply bcast_same.
  - intros. now eexists.
  - exists z. split; [exact Hz|]. destruct (binop_1 (f_op f) a c mode_NE z r (f_op_keeps f) Sa Sc Hz) as (Sz & Wz & _). auto.
Qed.
Lemma f_mv_wf fdot r n C y : ashape (f_mv fdot r n C y) = [r] /\ awf (f_mv fdot r n C y).
Proof. split; [reflexivity|]. unfold f_mv. apply of_fun_wf. Qed.
Lemma amap_wf {X Y} (f : X -> Y) a : awf a -> awf (amap f a).
Proof. unfold awf, amap. cbn [ashape adata]. now rewrite map_length. Qed.
Section Total.
Variables (fdot : list (flt * flt) -> flt) (r n : nat) (A b : aitv) (x w : arr pynum).
Hypothesis R0 : (0 < r)%nat.
Hypothesis SY : system r n A b x.
Hypothesis MO : moderate A b x.
Lemma entries_total : (forall e, In e (adata (adat b)) -> (exists v, returns (mid e) mode_NE v) /\ exists v, returns (rad e) mode_NE v) /\
  (forall e, In e (adata (adat A)) -> (exists v, returns (mid e) mode_NE v) /\ exists v, returns (rad e) mode_NE v) /\ adata (adat b) <> [] /\ adata (adat A) <> [].
Proof.
  destruct SY as (N0 & [CA WA] & SA & GA & [Cb Wb] & Sb & Fb & _). destruct MO as (MA & Mb & _). rewrite CA in SA. rewrite Cb in Sb.
  split; [|split; [|split]].
  - intros e He. rewrite Forall_forall in Fb, Mb. destruct (Fb e He). apply entry_total; auto.
  - intros e He. rewrite Forall_forall in MA. destruct (MA e He) as (? & ? & ?). apply entry_total; auto.
  - intro L; apply (f_equal (@length itv)) in L; rewrite Wb, Sb in L; simpl in L; lia.
  - intro L; apply (f_equal (@length itv)) in L; rewrite WA, SA in L; simpl in L; nia.
Qed.
Ltac dbl g X pr T N nm :=
  let Cn := fresh in assert (Cn : consistent X) by (destruct SY as (_ & ? & _ & _ & ? & _); assumption);
  destruct (doubles_wf g X Cn) as (nm & ? & ? & ? & ? & ?);
  [intro; first [apply keeps_mid | apply keeps_rad] | intros ? ?; first [apply mid_double | apply rad_double] | exact N | intros ? He; apply pr; apply T; exact He|].
Lemma point_total : exists y, returns (f_of x) mode_NE y /\ awf y /\ ashape y = [n].
Proof.
  destruct SY as (_ & _ & _ & _ & _ & _ & _ & Wx & Sx & Fx). destruct (f_of_run x mode_NE) as (y & Hy & Sy & _).
  { intros v Hv. rewrite Forall_forall in Fx. destruct (Fx v Hv) as [Sv _]. destruct (to_double_exact v (small_exact v Sv)) as (f & Hf & _). now exists f. }
  exists y. split; [exact Hy|]. split; [exact (f_of_wf _ _ _ Hy Wx) | congruence].
Qed.
Ltac go E := rewrite keeps_returns by first [apply keeps_f_of | apply keeps_bin | unfold arr_mid, arr_rad; apply keeps_vectorize_num; first [apply keeps_mid | apply keeps_rad]]; eexists; split; [exact E|].
Lemma parts_total : exists i s q, returns (calc_parts fdot A b x) mode_NE (i, s, q) /\ ashape i = [r] /\ awf i /\ ashape s = [r] /\ awf s /\ ashape q = [r] /\ awf q.
Proof.
  destruct entries_total as (TB & TA & NB & NA). destruct SY as (N0 & CA & SA & GA & CB & Sb & _ & _ & Sx & _). 
  destruct (doubles_wf mid A CA keeps_mid (fun e v => mid_double e mode_NE v) NA (fun e He => proj1 (TA e He))) as (C0 & C & HC0 & HC & _).
  destruct (doubles_wf rad A CA keeps_rad (fun e v => rad_double e mode_NE v) NA (fun e He => proj2 (TA e He))) as (G0 & G & HG0 & HG & _).
  destruct (doubles_wf mid b CB keeps_mid (fun e v => mid_double e mode_NE v) NB (fun e He => proj1 (TB e He))) as (c0 & c & Hc0 & Hc & Sc & Wc).
  destruct (doubles_wf rad b CB keeps_rad (fun e v => rad_double e mode_NE v) NB (fun e He => proj2 (TB e He))) as (q0 & q & Hq0 & Hq & Sq & Wq).
  destruct point_total as (y & Hy & Wy & Sy).
  assert (Sb' : ashape (adat b) = [r]) by (destruct CB as [CB _]; rewrite CB in Sb; exact Sb). assert (Sc' : ashape c = [r]) by congruence. assert (Sq' : ashape q = [r]) by congruence.
  destruct (f_mv_wf fdot r n C y) as [S1 W1]. destruct (f_mv_wf fdot r n G (amap fabs y)) as [S2 W2].
  destruct (f_bin_total fadd _ _ r S1 W1 S2 W2) as (u & Hu & Su & Wu). destruct (f_bin_total fsub _ _ r S1 W1 S2 W2) as (v & Hv & Sv & Wv).
  destruct (f_bin_total fsub c u r Sc' Wc Su Wu) as (i & Hi & Si & Wi). destruct (f_bin_total fsub c v r Sc' Wc Sv Wv) as (s & Hs & Ss & Ws).
  exists i, s, q. split; [|auto 10]. unfold calc_parts. rewrite SA, Sx. rewrite Nat.eqb_refl. cbn [negb].
  go HC0. go HC. go HG0. go HG. go Hc0. go Hc. go Hq0. go Hq. go Hy. go Hu. go Hi. go Hv. go Hs. reflexivity.
Qed.
Lemma mul_total w0 d : weights_from w0 r w -> ashape d = [r] -> awf d -> exists T, returns (np_mul w (amap PFlt d)) mode_NE T.
Proof.
  intros (Ww & Sw & Fw) Sd Wd. apply (binop_arr_total mul_ ltac:(intros; apply keeps_prim) w (amap PFlt d) [r] mode_NE Ww (amap_wf _ _ Wd)).
  - change (ashape (amap PFlt d)) with (ashape d). rewrite Sw, Sd. apply bcast_same.
  - intros idx k a c _ Ha Hc. unfold bget in Ha, Hc. apply aget_in in Ha. apply aget_in in Hc. cbn [amap adata] in Hc. apply in_map_iff in Hc. destruct Hc as (f & <- & _).
    rewrite Forall_forall in Fw. destruct (Fw a Ha) as [Sa _]. destruct (XArith.num_mul_x mode_NE a (PFlt f) Sa I) as (v & Hv & _). exists v. unfold returns, outcome, mul_, mprim. exact Hv.
Qed.
Lemma tol_total w0 : weights_from w0 r w -> exists T, returns (tol_calc fdot A b x w) mode_NE T.
Proof.
  intro Hw. destruct parts_total as (i & s & q & Hp & Si & Wi & Ss & Ws & Sq & Wq).
  destruct (f_bin_total (fun _ => f_max) (amap fabs i) (amap fabs s) r Si (amap_wf _ _ Wi) Ss (amap_wf _ _ Ws)) as (G & HG & SG & WG).
  destruct (f_bin_total fsub q G r Sq Wq SG WG) as (D & HD & SD & WD). destruct (mul_total w0 D Hw SD WD) as [T HT].
  exists T. unfold tol_calc. rewrite keeps_returns by apply keeps_parts. exists (i, s, q). split; [exact Hp|]. go HG. go HD. exact HT.
Qed.
Lemma uni_total w0 : weights_from w0 r w -> exists T, returns (uni_calc fdot A b x w) mode_NE T.
Proof.
  intro Hw. destruct parts_total as (i & s & q & Hp & Si & Wi & Ss & Ws & Sq & Wq).
  destruct (f_bin_total (fun _ => f_mig) i s r Si Wi Ss Ws) as (G & HG & SG & WG).
  destruct (f_bin_total fsub q G r Sq Wq SG WG) as (D & HD & SD & WD). destruct (mul_total w0 D Hw SD WD) as [T HT].
  exists T. unfold uni_calc. rewrite keeps_returns by apply keeps_parts. exists (i, s, q). split; [exact Hp|]. go HG. go HD. exact HT.
Qed.
Lemma uss_total w0 : weights_from w0 r w -> exists T, returns (uss_calc fdot A b x w) mode_NE T.
Proof.
  intro Hw. destruct entries_total as (TB & TA & NB & NA). destruct SY as (N0 & CA & SA & GA & CB & Sb & _ & _ & Sx & _). 
  destruct (doubles_wf mid A CA keeps_mid (fun e v => mid_double e mode_NE v) NA (fun e He => proj1 (TA e He))) as (C0 & C & HC0 & HC & _).
  destruct (doubles_wf rad A CA keeps_rad (fun e v => rad_double e mode_NE v) NA (fun e He => proj2 (TA e He))) as (G0 & G & HG0 & HG & _).
  destruct (doubles_wf mid b CB keeps_mid (fun e v => mid_double e mode_NE v) NB (fun e He => proj1 (TB e He))) as (c0 & c & Hc0 & Hc & Sc & Wc).
  destruct (doubles_wf rad b CB keeps_rad (fun e v => rad_double e mode_NE v) NB (fun e He => proj2 (TB e He))) as (q0 & q & Hq0 & Hq & Sq & Wq).
  destruct point_total as (y & Hy & Wy & Sy). destruct CB as [CB _]. rewrite CB in Sb. rewrite Sb in Sc, Sq.
  destruct (f_mv_wf fdot r n C y) as [S1 W1]. destruct (f_mv_wf fdot r n G (amap fabs y)) as [S2 W2].
  destruct (f_bin_total fadd q _ r Sq Wq S2 W2) as (s & Hs & Ss & Ws). destruct (f_bin_total fsub c _ r Sc Wc S1 W1) as (d & Hd & Sd & Wd).
  destruct (f_bin_total fsub s (amap fabs d) r Ss Ws Sd (amap_wf _ _ Wd)) as (v & Hv & Sv & Wv). destruct (mul_total w0 v Hw Sv Wv) as [T HT].
  exists T. unfold uss_calc, uss_constituent_fl. rewrite SA, Sx, Nat.eqb_refl. cbn [negb].
  go Hq0. go Hq. go HG0. go HG. go Hy. go Hs. go Hc0. go Hc. go HC0. go HC. go Hd. go Hv. exact HT.
Qed.
End Total.
