(** Model of the recognizing functionals linear/Tol.py, linear/Uni.py,
    linear/Uss.py, of dist (kernel/utils.py:15-41), of the linear penalty and
    LinearConstraint (kernel/abstract.py:13-31, 183-269), over exact reals.
    [A] has [m] rows ([m = S k]) and [n] columns, [w] is the weight vector
    ([np.ones] when none is given). *)
From Coq Require Import Reals List Arith.
From Verif Require Import Exact.
Import ListNotations.
Open Scope R_scope.

(** ** Tol.py *)
(** Tol.py:12-16 *)
Definition tol_constituent (n : nat) (A : imat) (b : ivec) (x w : vec) : vec :=
  fun i => w i * (r_rad (b i) - r_mag (r_csub (r_mid (b i)) (imv n A x i))).
(** Tol.py:19-21, for [m = S k] rows *)
Definition tol_value (k n : nat) (A : imat) (b : ivec) (x w : vec) : R := vmin k (tol_constituent n A b x w).

(** The intermediate vectors of calcfg, Tol.py:26-29, Uni.py:26-29: [index = x >= 0],
    [infs = bm - (Am@x + Ar@abs(x))], [sups = bm - (Am@x - Ar@abs(x))]. *)
Definition pick (x : R) (p q : R) : R := if Rle_dec 0 x then p else q.
Definition cf_infs (n : nat) (Am Ar : mat) (bm x : vec) : vec := fun i => bm i - (mv n Am x i + mv n Ar (vabs x) i).
Definition cf_sups (n : nat) (Am Ar : mat) (bm x : vec) : vec := fun i => bm i - (mv n Am x i - mv n Ar (vabs x) i).
(** Tol.py:24-37 *)
Definition tol_calcfg (k n : nat) (infA supA Am Ar : mat) (bm br w x : vec) : R * vec :=
  let infs := cf_infs n Am Ar bm x in let sups := cf_sups n Am Ar bm x in
  let tol := fun i => w i * (br i - Rmax (Rabs (infs i)) (Rabs (sups i))) in
  let mc := argmin k tol in
  let dtol := if Rle_dec (- infs mc) (sups mc)
              then fun j => w mc * pick (x j) (infA mc j) (supA mc j)
              else fun j => - w mc * pick (x j) (supA mc j) (infA mc j) in
  (- tol mc, fun j => - dtol j).

(** ** Uni.py *)
(** Uni.py:12-16, 19-21 *)
Definition uni_constituent (n : nat) (A : imat) (b : ivec) (x w : vec) : vec :=
  fun i => w i * (r_rad (b i) - r_mig (r_csub (r_mid (b i)) (imv n A x i))).
Definition uni_value (k n : nat) (A : imat) (b : ivec) (x w : vec) : R := vmin k (uni_constituent n A b x w).
(** Uni.py:24-41 *)
Definition cf_mig (i s : R) : R := if Rle_dec (i * s) 0 then 0 else Rmin (Rabs i) (Rabs s).
Definition uni_calcfg (k n : nat) (infA supA Am Ar : mat) (bm br w x : vec) : R * vec :=
  let infs := cf_infs n Am Ar bm x in let sups := cf_sups n Am Ar bm x in
  let uni := fun i => w i * (br i - cf_mig (infs i) (sups i)) in
  let mc := argmin k uni in
  let duni := if Rle_dec (- infs mc) (sups mc)
              then fun j => w mc * pick (x j) (supA mc j) (infA mc j)
              else fun j => - w mc * pick (x j) (infA mc j) (supA mc j) in
  (- uni mc, fun j => - duni j).

(** ** Uss.py *)
(** Uss.py:12-16, 19-21 *)
Definition uss_constituent (n : nat) (A : imat) (b : ivec) (x w : vec) : vec :=
  fun i => w i * (r_rad (b i) + mv n (rads A) (vabs x) i - Rabs (r_mid (b i) - mv n (mids A) x i)).
Definition uss_value (k n : nat) (A : imat) (b : ivec) (x w : vec) : R := vmin k (uss_constituent n A b x w).
(** Uss.py:24-31 *)
Definition uss_calcfg (k n : nat) (Am Ar : mat) (bm br w x : vec) : R * vec :=
  let d := fun i => bm i - mv n Am x i in
  let uss := fun i => w i * (br i + mv n Ar (vabs x) i - Rabs (d i)) in
  let mc := argmin k uss in
  (- uss mc, fun j => - (w mc * (sgn (x j) * Ar mc j + sgn (d mc) * Am mc j))).

(** The arguments optimize passes, abstract.py:41-43. *)
Definition tol_fg (k n : nat) (A : imat) (b : ivec) (w x : vec) : R * vec :=
  tol_calcfg k n (infs_of A) (sups_of A) (mids A) (rads A) (fun i => r_mid (b i)) (fun i => r_rad (b i)) w x.
Definition uni_fg (k n : nat) (A : imat) (b : ivec) (w x : vec) : R * vec :=
  uni_calcfg k n (infs_of A) (sups_of A) (mids A) (rads A) (fun i => r_mid (b i)) (fun i => r_rad (b i)) w x.
Definition uss_fg (k n : nat) (A : imat) (b : ivec) (w x : vec) : R * vec :=
  uss_calcfg k n (mids A) (rads A) (fun i => r_mid (b i)) (fun i => r_rad (b i)) w x.

(** ** dist, utils.py:15-41, for vectors of length [S k] *)
Definition cheb (x y : rit) : R := Rmax (Rabs (rl x - rl y)) (Rabs (rh x - rh y)).
Definition dist_inf (k : nat) (x y : ivec) : R := vmax k (fun i => cheb (x i) (y i)).
(** integer order [p]: the p-th root of a non-negative number (utils.py:15-41) *)
Definition root (p : nat) (s : R) : R := if Rle_dec s 0 then 0 else Rpower s (/ INR p).
Definition dist_p (k : nat) (p : nat) (x y : ivec) : R := root p (vsum (S k) (fun i => cheb (x i) (y i) ^ p)).

(** utils.py:194: subset of interval vectors of length [n] *)
Definition subsetb (x y : rit) : bool := if Rle_dec (rl y) (rl x) then if Rle_dec (rh x) (rh y) then true else false else false.
Definition subset_v (n : nat) (x y : ivec) : bool := forallb (fun i => subsetb (x i) (y i)) (seq 0 n).

(** ** LinearConstraint, abstract.py:206-246 *)

(** A bound: a finite number or an infinity ([abs(lb[k]) != np.inf] tests this).
    (abstract.py:217 and 224) *)
Inductive bound : Type := BFin (r : R) | BInf.
(** [C[k].any()]: some entry of the row of length [n] is non-zero. (abstract.py:217 and 224) *)
Definition row_any (n : nat) (row : vec) : bool := existsb (fun j => if Req_EM_T (row j) 0 then false else true) (seq 0 n).
(** The rows and bounds kept; [w] is drawn from uniform(1, 1), that is 1, so
    the multiplication by W is dropped. (abstract.py:212-240) *)
Definition lc_lower (r n : nat) (C : mat) (lb : nat -> bound) : list (vec * R) :=
  flat_map (fun k => match lb k with
                     | BFin v => if row_any n (C k) then [((fun j => - C k j), - v)] else []
                     | BInf => [] end) (seq 0 r).
Definition lc_upper (r n : nat) (C : mat) (ub : nat -> bound) : list (vec * R) :=
  flat_map (fun k => match ub k with
                     | BFin v => if row_any n (C k) then [(C k, v)] else []
                     | BInf => [] end) (seq 0 r).
(** [None]: the constructor fails.  When no row is kept, abstract.py:229-231 appends and
    abstract.py:240 uses W before assignment (UnboundLocalError; TypeError earlier
    when ub is None). *)
Definition lc_rows (r n : nat) (C : mat) (lb ub : option (nat -> bound)) : list (vec * R) :=
  (match lb with Some f => lc_lower r n C f | None => [] end) ++ (match ub with Some f => lc_upper r n C f | None => [] end).
Definition linear_constraint (r n : nat) (C : mat) (lb ub : option (nat -> bound)) : option (list (vec * R)) :=
  match lc_rows r n C lb ub with [] => None | rows => Some rows end.

(** linear_penalty, abstract.py:13-31 *)
Definition penalty_row (n : nat) (x : vec) (row : vec * R) : R * vec :=
  let Cix := vsum n (fun j => fst row j * x j) in
  if Rlt_dec (snd row) Cix then (Cix - snd row, fst row) else (0, fun _ => 0).
Definition lsum (l : list R) : R := fold_right Rplus 0 l.
Definition linear_penalty (n : nat) (mu : R) (rows : list (vec * R)) (x : vec) : R * vec :=
  let ps := map (penalty_row n x) rows in
  (mu * lsum (map fst ps), fun j => mu * lsum (map (fun p => snd p j) ps)).

(** find_mu, abstract.py:252-269: for each column the least absolute value of a
    sum of a non-empty selection of its non-zero entries; None when no column
    has a non-zero entry ([min] of an empty list). *)
Fixpoint subset_sums (c : list R) : list R :=
  match c with [] => [0] | a :: c' => subset_sums c' ++ map (Rplus a) (subset_sums c') end.
Fixpoint lmin (d : R) (l : list R) : R := match l with [] => d | a :: l' => Rmin a (lmin a l') end.
Definition nonzero (l : list R) : list R := filter (fun a => if Req_EM_T a 0 then false else true) l.
Definition col_min (c : list R) : option R :=
  match nonzero c with
  | [] => None
  | c' => match map Rabs (tl (subset_sums c')) with [] => None | a :: l => Some (lmin a (a :: l)) end
  end.
Fixpoint somes {A} (l : list (option A)) : list A :=
  match l with [] => [] | Some a :: l' => a :: somes l' | None :: l' => somes l' end.
Definition find_mu (n : nat) (rows : list (vec * R)) (numerator : R) : option R :=
  match somes (map (fun j => col_min (map (fun r : vec * R => fst r j) rows)) (seq 0 n)) with
  | [] => None
  | a :: l => Some (numerator / lmin a (a :: l))
  end.

(** Tol.py:40-45 (the same in Uni.py and Uss.py): value and gradient are added. *)
Definition with_penalty (n : nat) (mu : R) (rows : list (vec * R)) (fg : vec -> R * vec) (x : vec) : R * vec :=
  let (p, dp) := linear_penalty n mu rows x in
  let (f, g) := fg x in (f + p, fun j => g j + dp j).
