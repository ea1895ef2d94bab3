(** Models of models/WILS.py and models/ISPAE.py over exact reals.  The training
    data are an interval matrix with [S k] rows and an interval vector; rounding,
    pandas and the roots of polynomials (numpy) are not modelled: the latter are
    arguments. *)
From Coq Require Import Reals List Arith Bool.
From Verif Require Import Exact Recog Ralgb5.
Import ListNotations.
Open Scope R_scope.

(** ** Weights: WILS.py:109-114, ISPAE.py:348-353 *)

(** The weights are overwritten one after the other, so entry k uses the new
    entry k-1.  [store] is what remains of a number written into the array: the
    number itself for arrays of floats, its integer part for arrays of ints. (WILS.py:111-114) *)
Fixpoint smooth (store : R -> R) (alpha beta : R) (w : vec) (k : nat) : R :=
  match k with
  | O => store (beta * w O * (1 - alpha))
  | S j => store (beta * (w (S j) * (1 - alpha) + alpha * smooth store alpha beta w j))
  end.
(** The weights used by fit, and the caller's array afterwards: without an
    argument a new array of ones is used, otherwise the argument itself is
    overwritten. (WILS.py:109-114) *)
Definition fit_weights (store : R -> R) (alpha beta : R) (arg : option vec) : vec * option vec :=
  match arg with
  | None => (smooth (fun x => x) alpha beta (fun _ => 1), None)
  | Some w => let w' := smooth store alpha beta w in (w', Some w')
  end.
(** The weights used by [h] successive calls of fit with the same argument (WILS.py:85) *)
Fixpoint fits (store : R -> R) (alpha beta : R) (h : nat) (arg : option vec) : list vec :=
  match h with O => [] | S h' => let (w, arg') := fit_weights store alpha beta arg in w :: fits store alpha beta h' arg' end.
(** Conversion of a float to an integer entry: towards zero (numpy, for WILS.py:112-114) *)
Definition to_int (x : R) : R := if Rle_dec 0 x then IZR (Int_part x) else - IZR (Int_part (- x)).

(** ** The functionals of WILS *)
(** WILS.py:18-27 and 118-126 *)
Inductive objective : Type := OTol | OUni | OUss.
Inductive norm : Type := NInf | NL1.
(** WILS.py:18-27, residuals 0..k *)
Definition wrap_norm (nm : norm) (k : nat) (residual : vec) : R * list nat :=
  match nm with
  | NInf => let mc := argmin k residual in (residual mc, [mc])
  | NL1 => (vsum (S k) residual, seq 0 (S k))
  end.
(** The residuals: WILS.py:34-42 (Uni), 55-57 (Uss), 68-72 (Tol) *)
Definition w_residual (o : objective) (n : nat) (Xm Xr : mat) (ym yr w x : vec) : vec :=
  match o with
  | OTol => fun i => w i * (yr i - Rmax (Rabs (cf_infs n Xm Xr ym x i)) (Rabs (cf_sups n Xm Xr ym x i)))
  | OUni => fun i => w i * (yr i - cf_mig (cf_infs n Xm Xr ym x i) (cf_sups n Xm Xr ym x i))
  | OUss => fun i => w i * (yr i + mv n Xr (vabs x) i - Rabs (ym i - mv n Xm x i))
  end.
(** The vector [diff] of one row: WILS.py:46-50, 61-62, 76-80 *)
Definition w_diff (o : objective) (n : nat) (infX supX Xm Xr : mat) (ym w x : vec) (mc : nat) : vec :=
  match o with
  | OTol => if Rle_dec (- cf_infs n Xm Xr ym x mc) (cf_sups n Xm Xr ym x mc)
            then fun j => w mc * pick (x j) (infX mc j) (supX mc j) else fun j => - w mc * pick (x j) (supX mc j) (infX mc j)
  | OUni => if Rle_dec (- cf_infs n Xm Xr ym x mc) (cf_sups n Xm Xr ym x mc)
            then fun j => w mc * pick (x j) (supX mc j) (infX mc j) else fun j => - w mc * pick (x j) (infX mc j) (supX mc j)
  | OUss => fun j => w mc * (sgn (x j) * Xr mc j + sgn (ym mc - mv n Xm x mc) * Xm mc j)
  end.
(** WILS.py:31-82: value and vector of one call *)
Definition wils_calcfg (o : objective) (nm : norm) (k n : nat) (A : imat) (b : ivec) (w x : vec) : R * vec :=
  let ym := fun i => r_mid (b i) in let yr := fun i => r_rad (b i) in
  let (obj, mcs) := wrap_norm nm k (w_residual o n (mids A) (rads A) ym yr w x) in
  (- obj, fun j => - fold_left (fun s mc => s + w_diff o n (infs_of A) (sups_of A) (mids A) (rads A) ym w x mc j) mcs 0).
(** fit, WILS.py:85-143, from the starting point [x0]: xr, fr and the caller's
    weights afterwards.  [rows]: a LinearConstraint with its mu, if given. *)
Definition wils_fit (o : objective) (nm : norm) (alpha beta : R) (constraint : option (R * list (vec * R))) (k n : nat) (big : R) (P : params (real_ops n big))
  (A : imat) (b : ivec) (weight : option vec) (x0 : vec) : vec * R * option vec :=
  let (w, weight') := fit_weights (fun x => x) alpha beta weight in
  let fg := match constraint with
            | None => wils_calcfg o nm k n A b w
            | Some (mu, rows) => with_penalty n mu rows (wils_calcfg o nm k n A b w)
            end in
  let r := fst (ralgb5 (real_ops n big) P fg n x0) in
  (r_x _ r, - r_f _ r, weight').
(** predict, WILS.py:146-147 *)
Definition wils_predict (n : nat) (X : imat) (xr : vec) : ivec := imv n X xr.

(** ** ISPAE *)
(** ISPAE.py:36-42: the polynomial bases of numpy, by their recurrences *)
Inductive basis_kind : Type := Monom | Chebyshev | Hermite | Laguerre | Legendre.
Fixpoint basis2 (bk : basis_kind) (d : nat) (x : R) : R * R :=
  match d with
  | O => (1, match bk with Monom | Chebyshev | Legendre => x | Hermite => 2 * x | Laguerre => 1 - x end)
  | S e =>
      let (p, q) := basis2 bk e x in
      let c := INR (S e) in
      (q, match bk with
          | Monom => x * q
          | Chebyshev => 2 * x * q - p
          | Hermite => 2 * x * q - 2 * c * p
          | Laguerre => ((2 * c + 1 - x) * q - c * p) / (c + 1)
          | Legendre => ((2 * c + 1) * x * q - c * p) / (c + 1)
          end)
  end.
Definition basis (bk : basis_kind) (d : nat) (x : R) : R := fst (basis2 bk d x).
(** [poly = beta @ basis] with degrees [degs], ISPAE.py:95-103 *)
Fixpoint poly (bk : basis_kind) (beta : list R) (degs : list nat) (x : R) : R :=
  match beta, degs with c :: beta', d :: degs' => c * basis bk d x + poly bk beta' degs' x | _, _ => 0 end.
(** value_of_one_col, ISPAE.py:102-124, for one interval; [roots] gives the real
    parts of the roots of the derivative (numpy).  [None]: min() of an empty
    sequence. *)
Definition value_of_one_col (bk : basis_kind) (roots : list R -> list nat -> list R) (beta : list R) (degs : list nat) (X : rit) : option rit :=
  let dots := rl X :: rh X :: roots beta degs in
  let inside := filter (fun d => if Rle_dec (rl X) d then if Rle_dec d (rh X) then true else false else false) dots in
  match map (poly bk beta degs) inside with
  | [] => None
  | v :: vs => Some (mkr (fold_left Rmin vs v) (fold_left Rmax vs v))
  end.
(** value, ISPAE.py:127-147, for one row of data: a column is its order and its
    interval; [beta] are the remaining coefficients, of which the first column
    takes as many as its order *)
Fixpoint ispae_value (bk : basis_kind) (roots : list R -> list nat -> list R) (beta : list R) (cols : list (nat * rit)) : option rit :=
  match cols with
  | [] => Some (r_point 0)
  | (o, X) :: cols' =>
      match value_of_one_col bk roots (firstn o beta) (seq 1 o) X, ispae_value bk roots (skipn o beta) cols' with
      | Some v, Some s => Some (r_add v s)
      | _, _ => None
      end
  end.
(** _expand_dataframe, ISPAE.py:242-262, for one row: the ranges of the basis
    polynomials of degrees 1..order of each column *)
Fixpoint opt_all {A : Type} (l : list (option A)) : option (list A) :=
  match l with
  | [] => Some []
  | o :: l' => match o, opt_all l' with Some a, Some r => Some (a :: r) | _, _ => None end
  end.
Definition expand_row (bk : basis_kind) (roots : list R -> list nat -> list R) (cols : list (nat * rit)) : option (list rit) :=
  opt_all (flat_map (fun c => map (fun d => value_of_one_col bk roots [1] [d] (snd c)) (seq 1 (fst c))) cols).
(** predict, ISPAE.py:376-394, for one row: the expanded row @ coefficients *)
Fixpoint row_at (Xs : list rit) (beta : list R) : rit :=
  match Xs, beta with X :: Xs', c :: beta' => r_add (r_scale c X) (row_at Xs' beta') | _, _ => r_point 0 end.
Definition ispae_predict (bk : basis_kind) (roots : list R -> list nat -> list R) (beta : list R) (cols : list (nat * rit)) : option rit :=
  match expand_row bk roots cols with Some Xs => Some (row_at Xs beta) | None => None end.
(** The bias column: the number 1 with order 1, ISPAE.py:306-307, 317-318 *)
Definition bias_col : nat * rit := (1%nat, r_point 1).
(** The residual of one row for the objectives Tol and Uni, ISPAE.py:226-229 and
    178-185: [V] is the value *)
Definition ispae_residual (uni : bool) (w : R) (y V : rit) : R :=
  let c := r_csub (r_mid y) V in
  w * (r_rad y - (if uni then cf_mig (rl c) (rh c) else Rmax (Rabs (rl c)) (Rabs (rh c)))).
(** The vector [diff] of one row, ISPAE.py:190-193 (Uni), 234-237 (Tol): [E] is the
    expanded row *)
Definition sel_row (beta : list R) (p q : rit -> R) (E : list rit) : list R := map (fun t => pick (fst t) (p (snd t)) (q (snd t))) (combine beta E).
Definition ispae_diff (uni : bool) (w : R) (y V : rit) (E : list rit) (beta : list R) : list R :=
  let c := r_csub (r_mid y) V in
  if Rle_dec (- rl c) (rh c)
  then map (fun g => w * g) (if uni then sel_row beta rh rl E else sel_row beta rl rh E)
  else map (fun g => - w * g) (if uni then sel_row beta rl rh E else sel_row beta rh rl E).
(** calcfg, ISPAE.py:178-195, 226-239, 356-363, for rows 0..k of [N] coefficients;
    [None] never occurs for proper data *)
Definition the (d : rit) (o : option rit) : rit := match o with Some v => v | None => d end.
Definition ispae_calcfg (uni : bool) (nm : norm) (bk : basis_kind) (roots : list R -> list nat -> list R) (k N : nat)
  (rows : nat -> list (nat * rit)) (y : ivec) (w x : vec) : R * vec :=
  let beta := map x (seq 0 N) in
  let V := fun i => the (r_point 0) (ispae_value bk roots beta (rows i)) in
  let E := fun i => match expand_row bk roots (rows i) with Some Xs => Xs | None => [] end in
  let (obj, mcs) := wrap_norm nm k (fun i => ispae_residual uni (w i) (y i) (V i)) in
  (- obj, fun j => - fold_left (fun s mc => s + nth j (ispae_diff uni (w mc) (y mc) (V mc) (E mc) beta) 0) mcs 0).
(** fit, ISPAE.py:348-373 *)
Definition ispae_fit (uni : bool) (nm : norm) (bk : basis_kind) (roots : list R -> list nat -> list R) (alpha beta : R) (k N : nat) (big : R)
  (P : params (real_ops N big)) (rows : nat -> list (nat * rit)) (y : ivec) (weight : option vec) (x0 : vec) : vec * R * option vec :=
  let (w, weight') := fit_weights (fun x => x) alpha beta weight in
  let r := fst (ralgb5 (real_ops N big) P (ispae_calcfg uni nm bk roots k N rows y w) N x0) in
  (r_x _ r, - r_f _ r, weight').
