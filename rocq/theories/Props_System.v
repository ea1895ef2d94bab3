(** The variability measure ive and the pictures: C67, C68. *)
From Coq Require Import Reals ZArith List Bool Arith Lia Lra Permutation.
From Verif Require Import Exact Recog SpecExact Ralgb5 SysProps SpecSys SysProofs Plot SpecPlot PlotProofs.
Import ListNotations.
Open Scope R_scope.

(** ** C67.  [cond]: numpy.linalg.cond, [coin]: the random choices, [x0]: the
    starting point and [P]: the parameters of the optimizer, all arbitrary. *)
Theorem C67_value : forall cond coin k n big P x0 A b N v, proper_mat (S k) n A -> nonzero_rhs (S k) b -> ive cond coin k n big P x0 A b N = Num v ->
  exists x t M c, (forall s, s <= t <-> tolerable (S k) n A (shrink s b) x) /\ corner (S k) n A M /\ cond M = Some c /\
    v = measure (S k) n b x t c /\ forall r d, (r < N)%nat -> cond (sampled A coin r) = Some d -> c <= d.
Proof. exact ive_value. Qed.
Print Assumptions C67_value.

(** Whatever was sampled, the value is no closer to zero than with the least
    condition number of all corner matrices, and equal to it if that corner was
    among the sampled ones. *)
Theorem C67_bound : forall cond coin k n big P x0 A b N v c0, proper_mat (S k) n A -> nonzero_rhs (S k) b ->
  (forall M c, corner (S k) n A M -> cond M = Some c -> c0 <= c) -> ive cond coin k n big P x0 A b N = Num v ->
  exists x t, (forall s, s <= t <-> tolerable (S k) n A (shrink s b) x) /\
    (0 <= t -> measure (S k) n b x t c0 <= v) /\ (t <= 0 -> v <= measure (S k) n b x t c0) /\
    ((exists r, (r < N)%nat /\ cond (sampled A coin r) = Some c0) -> v = measure (S k) n b x t c0).
Proof. exact ive_bound. Qed.
Print Assumptions C67_bound.

Theorem C67_more_rounds : forall cond coin k n big P x0 A b N N' v v', nonzero_rhs (S k) b -> (forall M c, cond M = Some c -> 0 <= c) -> (N <= N')%nat ->
  ive cond coin k n big P x0 A b N = Num v -> ive cond coin k n big P x0 A b N' = Num v' -> Rabs v' <= Rabs v.
Proof. exact ive_more_rounds. Qed.
Print Assumptions C67_more_rounds.

(** A positive value shows a tolerable point with positive slack; a negative
    value shows that there is none, if the optimizer found the maximum. *)
Theorem C67_sign : forall cond coin k n big P x0 A b N v, proper_mat (S k) n A -> nonzero_rhs (S k) b -> (forall M c, cond M = Some c -> 0 < c) ->
  ive cond coin k n big P x0 A b N = Num v ->
  (0 < v -> exists x s, 0 < s /\ tolerable (S k) n A (shrink s b) x) /\
  (v < 0 -> (forall y, tol_value k n A b y ones <= snd (tol_maximize k n big P A b (fun _ => 1) x0)) -> forall y, ~ tolerable (S k) n A b y).
Proof. exact ive_sign. Qed.
Print Assumptions C67_sign.

Theorem C67_is_a_number : forall cond coin k n big P x0 A b N r c, nonzero_rhs (S k) b -> (r < N)%nat -> cond (sampled A coin r) = Some c ->
  exists v, ive cond coin k n big P x0 A b N = Num v.
Proof. exact ive_defined. Qed.
Print Assumptions C67_is_a_number.

(** When no sampled matrix has a condition number the value is infinite, with the
    sign of the slack, or NaN if the slack, the point or the number of unknowns
    is zero. *)
Theorem C67_singular : forall cond coin k n big P x0 A b N, proper_mat (S k) n A -> nonzero_rhs (S k) b -> (forall r, (r < N)%nat -> cond (sampled A coin r) = None) ->
  exists x t, (forall s, s <= t <-> tolerable (S k) n A (shrink s b) x) /\
    let q := sqrt (INR n) * t * length2 n x in
    (0 < q -> ive cond coin k n big P x0 A b N = Infty true) /\ (q < 0 -> ive cond coin k n big P x0 A b N = Infty false) /\ (q = 0 -> ive cond coin k n big P x0 A b N = NaN).
Proof. exact ive_singular. Qed.
Print Assumptions C67_singular.
(** Likewise when the right-hand side is zero. *)
Theorem C67_zero_rhs : forall cond coin k n big P x0 A b N r c, proper_mat (S k) n A -> ~ nonzero_rhs (S k) b -> (r < N)%nat -> cond (sampled A coin r) = Some c -> (forall M c, cond M = Some c -> 0 < c) ->
  exists x t, (forall s, s <= t <-> tolerable (S k) n A (shrink s b) x) /\
    let q := sqrt (INR n) * t * length2 n x in
    (0 < q -> ive cond coin k n big P x0 A b N = Infty true) /\ (q < 0 -> ive cond coin k n big P x0 A b N = Infty false) /\ (q = 0 -> ive cond coin k n big P x0 A b N = NaN).
Proof. exact ive_zero_rhs. Qed.
Print Assumptions C67_zero_rhs.
(** Every corner matrix can be the sampled one. *)
Theorem C67_every_corner : forall cond k n big P x0 A b M c, proper_mat (S k) n A -> nonzero_rhs (S k) b -> corner (S k) n A M ->
  (forall M M', (forall i j, (i < S k)%nat -> (j < n)%nat -> M i j = M' i j) -> cond M = cond M') -> cond M = Some c ->
  exists coin x t, (forall s, s <= t <-> tolerable (S k) n A (shrink s b) x) /\ ive cond coin k n big P x0 A b 1 = Num (measure (S k) n b x t c).
Proof. exact ive_every_corner. Qed.
Print Assumptions C67_every_corner.

Theorem C67_no_rounds : forall cond coin k n big P x0 A b, nonzero_rhs (S k) b -> forall v, ive cond coin k n big P x0 A b 0 <> Num v.
Proof. exact ive_no_rounds. Qed.
Print Assumptions C67_no_rounds.

(** The converse of the sign fails: a system with slack 1 whose value is 0. *)
Theorem C67_origin_refuted : exists A b, proper_mat 1 1 A /\ nonzero_rhs 1 b /\ (exists x, tolerable 1 1 A (shrink 1 b) x) /\
  forall cond coin big P N v, ive cond coin 0 1 big P (fun _ => 0) A b N = Num v -> v = 0.
Proof. exact ive_origin_refuted. Qed.
Print Assumptions C67_origin_refuted.

Example C67_case : proper_mat 1 1 iv_A2 /\ nonzero_rhs 1 iv_b2 /\ (forall M c, corner 1 1 iv_A2 M -> Some 1 = Some c -> 1 <= c) /\
  forall coin big P x0, exists v, ive (fun _ => Some 1) coin 0 1 big P x0 iv_A2 iv_b2 1 = Num v.
Proof. exact ive_case. Qed.

(** ** C68 *)
Theorem C68_every_box_once : forall ps, Forall (fun p => proper (fst p) /\ proper (snd p)) ps ->
  exists ss, Permutation (seen (scatter ps)) ss /\ Forall2 depicts ps ss.
Proof. exact scatter_depicts. Qed.
Print Assumptions C68_every_box_once.

Theorem C68_solution_sets : forall vs, seen (plot_r2 vs) = flat_map (fun v => match v with [] => [] | _ => Area v :: map Dot v end) vs.
Proof. exact plot_r2_seen. Qed.
Print Assumptions C68_solution_sets.

Example C68_case : Forall (fun p => proper (fst p) /\ proper (snd p)) [(mkr 0 1, mkr 2 3); (mkr 1 1, mkr 2 2); (mkr 1 1, mkr 0 5)].
Proof. exact scatter_case. Qed.
