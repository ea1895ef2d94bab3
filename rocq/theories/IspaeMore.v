(** Bases, roots, objectives and fits of ISPAE. *)
From Coq Require Import Reals List Arith Bool Lia Lra Psatz.
From Verif Require Import Exact Recog SpecExact ExactProofs RecogProofs Ralgb5 RalgbProofs RalgbMore Models SpecModels WilsProofs IspaeProofs.
Import ListNotations.
Open Scope R_scope.

(** ** The bases are the usual ones *)
Lemma basis2_S bk d x : fst (basis2 bk (S d) x) = snd (basis2 bk d x). Proof. cbn [basis2]. now destruct (basis2 bk d x). Qed.
Lemma monom_pow d x : basis Monom d x = x ^ d.
Proof.
  assert (H : basis2 Monom d x = (x ^ d, x ^ S d)); [|unfold basis; now rewrite H]. induction d as [|d IH]; [simpl; f_equal; ring|]. cbn [basis2]. rewrite IH. reflexivity.
Qed.
Lemma chebyshev_cos d t : basis Chebyshev d (cos t) = cos (INR d * t).
Proof.
  assert (H : basis2 Chebyshev d (cos t) = (cos (INR d * t), cos (INR (S d) * t))); [|unfold basis; now rewrite H].
  induction d as [|d IH]; [cbn [basis2]; simpl; rewrite Rmult_0_l, cos_0, Rmult_1_l; reflexivity|]. cbn [basis2]. rewrite IH. f_equal.
  rewrite (S_INR (S d)). replace ((INR (S d) + 1) * t) with (INR (S d) * t + t) by ring. rewrite cos_plus.
  replace (INR d * t) with (INR (S d) * t - t) by (rewrite S_INR; ring). rewrite cos_minus. ring.
Qed.
Lemma legendre_one d : basis Legendre d 1 = 1.
Proof.
  assert (H : basis2 Legendre d 1 = (1, 1)); [|unfold basis; now rewrite H]. induction d as [|d IH]; [reflexivity|]. cbn [basis2]. rewrite IH. f_equal.
  assert (Q := pos_INR d). rewrite S_INR. field. lra.
Qed.
Lemma laguerre_zero d : basis Laguerre d 0 = 1.
Proof.
  assert (H : basis2 Laguerre d 0 = (1, 1)); [|unfold basis; now rewrite H]. induction d as [|d IH]; [cbn; f_equal; ring|]. cbn [basis2]. rewrite IH. f_equal.
  assert (Q := pos_INR d). rewrite S_INR. field. lra.
Qed.
(** Hermite: the derivative of degree d+1 is 2 (d+1) times degree d *)
Lemma hermite_deriv d x : derivable_pt_lim (basis Hermite (S d)) x (2 * INR (S d) * basis Hermite d x).
Proof.
  assert (Ext : forall f g z l, (forall y, f y = g y) -> derivable_pt_lim g z l -> derivable_pt_lim f z l).
  { intros f g z l E H eps He. destruct (H eps He) as [dl Hd]. exists dl. intros h Hh Hl. rewrite !E. now apply Hd. }
  assert (S0 : forall e y, basis Hermite (S (S e)) y = 2 * y * basis Hermite (S e) y - 2 * INR (S e) * basis Hermite e y).
  { intros e y. unfold basis. rewrite !basis2_S. cbn [basis2]. destruct (basis2 Hermite e y). reflexivity. }
  assert (D2 : derivable_pt_lim (fun y => 2 * y) x 2).
  { assert (D := derivable_pt_lim_mult (fun _ => 2) (fun y => y) x 0 1 (derivable_pt_lim_const 2 x) (derivable_pt_lim_id x)). cbv beta in D. replace (0 * x + 2 * 1) with 2 in D by ring. exact D. }
  assert (B0 : forall y, basis Hermite 0 y = 1) by reflexivity. assert (B1 : forall y, basis Hermite 1 y = 2 * y) by reflexivity.
  assert (H : derivable_pt_lim (basis Hermite (S d)) x (2 * INR (S d) * basis Hermite d x) /\ derivable_pt_lim (basis Hermite (S (S d))) x (2 * INR (S (S d)) * basis Hermite (S d) x)); [|apply H].
  induction d as [|d [IH1 IH2]].
  - assert (D1 : derivable_pt_lim (basis Hermite 1) x 2).
    { apply (Ext _ (fun y => 2 * y)); [exact B1 | exact D2]. }
    split; [rewrite B0; replace (2 * INR 1 * 1) with 2 by (simpl; ring); exact D1|].
    apply (Ext _ (fun y => (2 * y) * (2 * y) - 2)); [intro y; rewrite S0, B1, B0; simpl; ring|].
    replace (2 * INR 2 * basis Hermite 1 x) with ((2 * (2 * x) + (2 * x) * 2) - 0) by (rewrite B1; simpl; ring).
    apply (derivable_pt_lim_minus (fun y => (2 * y) * (2 * y)) (fun _ => 2)); [|apply derivable_pt_lim_const]. apply (derivable_pt_lim_mult (fun y => 2 * y) (fun y => 2 * y)); exact D2.
  - split; [exact IH2|]. apply (Ext _ (fun y => (2 * y) * basis Hermite (S (S d)) y - (2 * INR (S (S d))) * basis Hermite (S d) y)); [intro y; apply S0|].
    replace (2 * INR (S (S (S d))) * basis Hermite (S (S d)) x) with
      ((2 * basis Hermite (S (S d)) x + (2 * x) * (2 * INR (S (S d)) * basis Hermite (S d) x)) - (0 * basis Hermite (S d) x + 2 * INR (S (S d)) * (2 * INR (S d) * basis Hermite d x))).
    + apply (derivable_pt_lim_minus (fun y => (2 * y) * basis Hermite (S (S d)) y) (fun y => (2 * INR (S (S d))) * basis Hermite (S d) y)).
      * apply (derivable_pt_lim_mult (fun y => 2 * y) (basis Hermite (S (S d)))); [exact D2 | exact IH2].
      * apply (derivable_pt_lim_mult (fun _ => 2 * INR (S (S d))) (basis Hermite (S d))); [apply derivable_pt_lim_const | exact IH1].
    + rewrite (S0 d x). rewrite (S_INR (S (S d))). ring.
Qed.

(** ** The derivative of a polynomial has finitely many zeros *)
Fixpoint ev (p : list R) (x : R) : R := match p with [] => 0 | c :: p' => c + x * ev p' x end.
Fixpoint quo (r : R) (p : list R) : list R := match p with [] => [] | c :: p' => ev p' r :: quo r p' end.
Lemma quo_ok r p x : ev p x - ev p r = (x - r) * ev (quo r p) x.
Proof. induction p as [|c p IH]; [simpl; ring|]. cbn [quo ev]. replace (c + x * ev p x - (c + r * ev p r)) with (x * (ev p x - ev p r) + (x - r) * ev p r) by ring. rewrite IH. ring. Qed.
(** the last coefficient of [quo r p] is 0 (of [ev [] r]): the degree drops *)
Lemma quo_last r p : p <> [] -> exists q, quo r p = q ++ [0] /\ length p = S (length q).
Proof.
  induction p as [|c p IH]; [congruence|]. intros _. destruct p as [|d p]; [exists []; split; reflexivity|].
  destruct IH as (q & E & L); [congruence|]. cbn [quo]. cbn [quo] in E. exists (ev (d :: p) r :: q). split; [cbn [app]; f_equal; exact E | simpl in *; lia].
Qed.
Lemma ev_app0 q x : ev (q ++ [0]) x = ev q x. Proof. induction q; simpl; [ring | now rewrite IHq]. Qed.
Lemma finite_roots : forall n p, (length p <= n)%nat -> (forall x, ev p x = 0) \/ exists l, forall x, ev p x = 0 -> In x l.
Proof.
  induction n as [|n IH]; intros p L; [destruct p; [now left | simpl in L; lia]|].
  destruct (Classical_Prop.classic (exists r, ev p r = 0)) as [[r Hr]|N]; [|right; exists []; intros x Hx; apply N; now exists x].
  destruct p as [|c p]; [now left|]. destruct (quo_last r (c :: p) ltac:(discriminate)) as (q & E & Lq).
  assert (F : forall x, ev (c :: p) x = (x - r) * ev q x) by (intro x; rewrite <- (ev_app0 q), <- E, <- quo_ok, Hr; ring).
  destruct (IH q ltac:(lia)) as [Z|(l & Hl)].
  - left. intro x. rewrite F, Z. ring.
  - right. exists (r :: l). intros x Hx. rewrite F in Hx. apply Rmult_integral in Hx. destruct Hx as [Hx|Hx]; [left; lra | right; now apply Hl].
Qed.
Fixpoint addp (p q : list R) : list R := match p, q with [], _ => q | _, [] => p | a :: p', b :: q' => a + b :: addp p' q' end.
Fixpoint dv (p : list R) : list R := match p with [] => [] | c :: p' => addp p' (0 :: dv p') end.
Lemma ev_addp p : forall q x, ev (addp p q) x = ev p x + ev q x.
Proof. induction p as [|a p IH]; intros q x; [simpl; ring|]. destruct q as [|b q]; [simpl; ring|]. cbn [addp ev]. rewrite IH. ring. Qed.
Lemma ev_scal c p x : ev (map (Rmult c) p) x = c * ev p x.
Proof. induction p as [|a p IH]; simpl; [ring | rewrite IH; ring]. Qed.
Lemma ev_deriv p x : derivable_pt_lim (ev p) x (ev (dv p) x).
Proof.
  induction p as [|c p IH]; [apply (derivable_pt_lim_const 0)|]. cbn [dv]. rewrite ev_addp. cbn [ev].
  assert (D := derivable_pt_lim_plus (fun _ => c) (fun y => y * ev p y) x 0 (1 * ev p x + x * ev (dv p) x) (derivable_pt_lim_const c x) (derivable_pt_lim_mult (fun y => y) (ev p) x 1 (ev (dv p) x) (derivable_pt_lim_id x) IH)).
  replace (ev p x + (0 + x * ev (dv p) x)) with (0 + (1 * ev p x + x * ev (dv p) x)) by ring. exact D.
Qed.
Definition isp (f : R -> R) : Prop := exists p, forall x, f x = ev p x.
Lemma isp_const c : isp (fun _ => c). Proof. exists [c]. intro x. simpl. ring. Qed.
Lemma isp_x f : isp f -> isp (fun x => x * f x). Proof. intros [p H]. exists (0 :: p). intro x. rewrite H. simpl. ring. Qed.
Lemma isp_plus f g : isp f -> isp g -> isp (fun x => f x + g x). Proof. intros [p H] [q K]. exists (addp p q). intro x. now rewrite ev_addp, H, K. Qed.
Lemma isp_scal c f : isp f -> isp (fun x => c * f x). Proof. intros [p H]. exists (map (Rmult c) p). intro x. now rewrite ev_scal, H. Qed.
Lemma isp_ext f g : (forall x, f x = g x) -> isp g -> isp f. Proof. intros E [p H]. exists p. intro x. now rewrite E. Qed.
Lemma isp_basis2 bk d : isp (fun x => fst (basis2 bk d x)) /\ isp (fun x => snd (basis2 bk d x)).
Proof.
  induction d as [|d [[p P] [q Q]]].
  - split; cbn [basis2 fst snd]; [apply isp_const|].
    destruct bk; [exists [0; 1] | exists [0; 1] | exists [0; 2] | exists [1; -1] | exists [0; 1]]; intro x; simpl; ring.
  - split; [exists q; intro x; now rewrite basis2_S|].
    apply (isp_ext _ (fun y => let c := INR (S d) in
        match bk with Monom => y * ev q y | Chebyshev => 2 * (y * ev q y) + (-1) * ev p y | Hermite => 2 * (y * ev q y) + (- 2 * c) * ev p y
        | Laguerre => / (c + 1) * ((2 * c + 1) * ev q y + ((-1) * (y * ev q y) + (- c) * ev p y)) | Legendre => / (c + 1) * ((2 * c + 1) * (y * ev q y) + (- c) * ev p y) end)).
    + intro y. rewrite <- P, <- Q. cbn [basis2]. destruct (basis2 bk d y). cbn [fst snd]. unfold Rdiv. destruct bk; cbv zeta; ring.
    + assert (IP : isp (ev p)) by (exists p; reflexivity). assert (IQ : isp (ev q)) by (exists q; reflexivity).
      cbv zeta. destruct bk; repeat first [exact IP | exact IQ | apply (isp_x (ev q)) | apply isp_plus | apply isp_scal].
Qed.
Lemma isp_poly bk beta : forall degs, isp (poly bk beta degs).
Proof.
  induction beta as [|c beta IH]; intro degs; [exact (isp_const 0)|]. destruct degs as [|d degs]; [exact (isp_const 0)|].
  apply (isp_plus (fun x => c * basis bk d x) (poly bk beta degs)); [|apply IH]. apply isp_scal. exact (proj1 (isp_basis2 bk d)).
Qed.
Lemma constant_of f : (forall x, derivable_pt_lim f x 0) -> forall x y, f x = f y.
Proof.
  intro H. assert (W : forall x y, x < y -> f x = f y).
  { intros x y L. assert (pr : forall c, x < c < y -> derivable_pt f c) by (intros c _; exists 0; apply H).
    destruct (MVT_cor2 f (fun _ => 0) x y L ltac:(intros; apply H)) as (c & E & _). lra. }
  intros x y. destruct (Rtotal_order x y) as [L|[->|L]]; [now apply W | reflexivity | symmetry; now apply W].
Qed.
(** So a suitable list of roots always exists. *)
Theorem roots_exist bk beta degs : exists l, lists_roots (poly bk beta degs) l.
Proof.
  destruct (isp_poly bk beta degs) as [p P]. assert (D : forall x, derivable_pt_lim (poly bk beta degs) x (ev (dv p) x)).
  { intros x eps He. destruct (ev_deriv p x eps He) as [dl Hd]. exists dl. intros h Hh Hl. rewrite !P. now apply Hd. }
  destruct (finite_roots (length (dv p)) (dv p) ltac:(lia)) as [Z|(l & Hl)].
  - exists []. right. apply constant_of. intro x. rewrite <- (Z x). apply D.
  - exists l. left. intros x Hx. apply Hl. exact (uniqueness_limite _ _ _ _ (D x) Hx).
Qed.

(** ** Bias *)
Lemma filter_all {T} (p : T -> bool) x l : (forall y, p y = true -> y = x) -> forall y, In y (filter p l) -> y = x.
Proof. intros H y Hy. apply filter_In in Hy. now apply H. Qed.
Lemma fold_const (op : R -> R -> R) v vs : (forall a, op a a = a) -> (forall y, In y vs -> y = v) -> fold_left op vs v = v.
Proof. intros I. induction vs as [|a vs IH]; intro H; [reflexivity|]. cbn [fold_left]. rewrite (H a) by now left. rewrite I. apply IH. intros y Hy. apply H. now right. Qed.
Lemma value_point bk roots beta degs c : value_of_one_col bk roots beta degs (r_point c) = Some (r_point (poly bk beta degs c)).
Proof.
  unfold value_of_one_col. fold (insideb (r_point c)). cbn [rl rh r_point filter].
  assert (T : insideb (mkr c c) c = true) by (apply insideb_iff; unfold inI; simpl; lra). unfold r_point. rewrite T. cbn [map]. 
  assert (A : forall y, In y (map (poly bk beta degs) (c :: filter (insideb (mkr c c)) (roots beta degs))) -> y = poly bk beta degs c).
  { intros y Hy. apply in_map_iff in Hy. destruct Hy as (x & <- & Hx). f_equal. destruct Hx as [->|Hx]; [reflexivity|].
    apply (filter_all (insideb (mkr c c)) c (roots beta degs)); [|exact Hx]. intros z Hz. apply insideb_iff in Hz. unfold inI in Hz. simpl in Hz. lra. }
  f_equal. f_equal; apply fold_const; try exact A; intro a; [apply Rmin_left | apply Rmax_left]; lra.
Qed.
Definition bias_factor (bk : basis_kind) : R := match bk with Monom | Chebyshev | Legendre => 1 | Hermite => 2 | Laguerre => 0 end.
Lemma bias_value bk roots c beta cols : ispae_value bk roots (c :: beta) (bias_col :: cols) =
  match ispae_value bk roots beta cols with Some Z => Some (r_add (r_point (c * bias_factor bk)) Z) | None => None end.
Proof.
  unfold bias_col. cbn [ispae_value firstn skipn seq]. rewrite value_point. replace (poly bk [c] [1%nat] 1) with (c * bias_factor bk); [reflexivity|].
  cbn [poly]. unfold basis. destruct bk; cbn; ring.
Qed.
(** With the Laguerre basis the bias has no effect. *)
Theorem bias_laguerre roots c c' beta cols : ispae_value Laguerre roots (c :: beta) (bias_col :: cols) = ispae_value Laguerre roots (c' :: beta) (bias_col :: cols).
Proof. rewrite !bias_value. cbn [bias_factor]. rewrite !Rmult_0_r. reflexivity. Qed.
