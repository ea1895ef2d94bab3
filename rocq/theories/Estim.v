(** Model of linear/Rohn.py, linear/HBR.py, linear/Neumaier.py and
    linear/ChebNorm.py over exact reals (see Exact.v: rounding is not modelled).
    The linear programming solver and [np.linalg.inv] are arguments. *)
From Coq Require Import Reals ZArith List Bool Arith.
From Verif Require Import Exact Recog.
Import ListNotations.
Open Scope R_scope.

(** ** Real matrices: [M @ N], [M.T], [np.eye], real matrix @ interval matrix
    and real matrix @ interval vector, with [n] inner terms *)
(** as in HBR.py:33-51, Neumaier.py:36-43 and Rohn.py:67-86 *)
Definition mm (n : nat) (M N : mat) : mat := fun i j => vsum n (fun l => M i l * N l j).
Definition tr (M : mat) : mat := fun i j => M j i.
Definition eye : mat := fun i j => if (i =? j)%nat then 1 else 0.
Definition rimm (n : nat) (C : mat) (A : imat) : imat := fun i j => isum n (fun l => r_scale (C i l) (A l j)).
Definition rimv (n : nat) (C : mat) (b : ivec) : ivec := fun i => isum n (fun l => r_scale (C i l) (b l)).

(** ** _Rohn_Tol, Rohn.py:12-61, for [m] rows and [n] columns (the code calls
    them n and m) *)

(** [cvxopt.solvers.lp(c, G, h)]: number of rows, number of variables, c, G, h;
    [None] when the status is not optimal, in which case Rohn.py:20 raises. *)
Definition lp_solver := nat -> nat -> vec -> mat -> vec -> option vec.
(** Rohn.py:24-32 *)
Definition rt_A (m n : nat) (A : imat) : mat := fun i j =>
  if (i <? m)%nat then (if (j <? n)%nat then rh (A i j) else - rl (A i (j - n)%nat))
  else if (i <? 2 * m)%nat then (if (j <? n)%nat then - rl (A (i - m)%nat j) else rh (A (i - m)%nat (j - n)%nat))
  else - eye (i - 2 * m)%nat j.
(** Rohn.py:25, 34-35 *)
Definition rt_b (m : nat) (b : ivec) : vec := fun i =>
  if (i <? m)%nat then rh (b i) else if (i <? 2 * m)%nat then - rl (b (i - m)%nat) else 0.
(** Rohn.py:37-38 *)
Definition rt_c (n nu : nat) : vec := fun j => if (j =? nu)%nat then 1 else if (j =? nu + n)%nat then -1 else 0.
(** Rohn.py:23-43 *)
Definition rt_algo (lp : lp_solver) (m n : nat) (A : imat) (b : ivec) (nu : nat) : option rit :=
  let c := rt_c n nu in let mc := fun j => - c j in
  match lp (2 * (m + n))%nat (2 * n)%nat c (rt_A m n A) (rt_b m b) with
  | None => None
  | Some x =>
      let inf := vsum (2 * n) (fun j => x j * c j) in
      match lp (2 * (m + n))%nat (2 * n)%nat mc (rt_A m n A) (rt_b m b) with
      | None => None
      | Some y => Some (mkr inf (- vsum (2 * n) (fun j => y j * mc j)))
      end
  end.
Fixpoint all_some {A} (l : list (option A)) : option (list A) :=
  match l with
  | [] => Some []
  | None :: _ => None
  | Some a :: l' => match all_some l' with Some r => Some (a :: r) | None => None end
  end.
(** Rohn.py:45-61 with nu = None; [tolval] is the value Tol.maximize returned.
    [None]: an exception is raised. *)
Definition rohn_tol (lp : lp_solver) (m n : nat) (A : imat) (b : ivec) (tolval : R) : option (list rit) :=
  if Rlt_dec tolval 0 then None else all_some (map (rt_algo lp m n A b) (seq 0 n)).

(** ** _Rohn_Uni, Rohn.py:64-89, for [m] rows and [n = S k] columns *)
Section RohnUni.
(** [np.linalg.inv] of an n x n matrix *)
Variable inv : nat -> mat -> mat.
(** [inv(M.T @ M) @ M.T] for an m x n matrix, Rohn.py:67, 75 *)
Definition pinv (m n : nat) (M : mat) : mat := mm n (inv n (mm m (tr M) M)) (tr M).
(** Rohn.py:68-69 *)
Definition ru_A (m n : nat) (A : imat) : imat := rimm m (pinv m n (mids A)) A.
Definition ru_b (m n : nat) (A : imat) (b : ivec) : ivec := rimv m (pinv m n (mids A)) b.
(** Rohn.py:74-79 on the n x n system of Rohn.py:68-69 *)
Definition ru_R (n : nat) (A : imat) : mat := pinv n n (mids A).
Definition ru_x0 (n : nat) (A : imat) (b : ivec) : vec := mv n (ru_R n A) (fun i => r_mid (b i)).
Definition ru_G (n : nat) (A : imat) : mat := fun i j =>
  Rabs (eye i j - mm n (ru_R n A) (mids A) i j) + mm n (fun i l => Rabs (ru_R n A i l)) (rads A) i j.
Definition ru_g (n : nat) (A : imat) (b : ivec) : vec := fun i =>
  let x0 := ru_x0 n A b in
  Rabs (mv n (ru_R n A) (fun l => mv n (mids A) x0 l - r_mid (b l)) i)
  + mv n (fun i l => Rabs (ru_R n A i l)) (fun l => mv n (rads A) (vabs x0) l + r_rad (b l)) i.
(** Rohn.py:81-88: [err = None] is infinity; [fuel] iterations are still allowed
    by the counter. *)
Fixpoint ru_loop (k fuel : nat) (tol : R) (G : mat) (g : vec) (r : vec) (err : option R) : vec :=
  match fuel with
  | O => r
  | S f =>
      if match err with None => true | Some e => if Rle_dec tol e then true else false end then
        let r' := fun i => mv (S k) G r i + g i + tol in
        ru_loop k f tol G g r' (Some (vmax k (fun i => Rabs (r' i - r i))))
      else r
  end.
(** Rohn.py:89 *)
Definition sort_itv (l h : R) : rit := mkr (Rmin l h) (Rmax l h).
Definition rohn_uni (m k : nat) (A : imat) (b : ivec) (tol : R) (maxiter : Z) : ivec :=
  let n := S k in
  let A1 := ru_A m n A in let b1 := ru_b m n A b in
  let r := ru_loop k (Z.to_nat (maxiter + 1)) tol (ru_G n A1) (ru_g n A1 b1) (fun _ => 0) None in
  let x0 := ru_x0 n A1 b1 in
  fun i => sort_itv (x0 i - r i) (x0 i + r i).
End RohnUni.

(** ** HBR.py:26-55 for a vector right-hand side and n = S k *)

(** compmat, utils.py:67-76 *)
Definition r_compmat (A : imat) : mat := fun i j => if (i =? j)%nat then r_mig (A i j) else - r_mag (A i j).
(** [Interval(-a, a)] (HBR.py:55, Neumaier.py:43) *)
Definition sym (a : R) : rit := sort_itv (- a) a.
(** Interval division (pyx:446-455): raises when the divisor contains 0. *)
Definition r_div (x y : rit) : option rit :=
  if has0 y then None else
  Some (mkr (Rmin (Rmin (rl x / rl y) (rl x / rh y)) (Rmin (rh x / rl y) (rh x / rh y)))
            (Rmax (Rmax (rl x / rl y) (rl x / rh y)) (Rmax (rh x / rl y) (rh x / rh y)))).
(** [C] is what [np.linalg.inv(A.mid)] returned (HBR.py:32), [B] what
    [np.linalg.inv(compmat(C @ A))] returned (HBR.py:39).  numpy divides by zero
    without raising; the model's real division is only used where the divisor
    is non-zero in the theorems. *)
Definition hbr (k : nat) (A0 : imat) (b0 : ivec) (C B : mat) : option (list rit) :=
  let n := S k in
  let A := rimm n C A0 in let b := rimv n C b0 in
  let cm := r_compmat A in
  let v := vabs (mv n B (fun _ => 1)) in
  let u := mv n cm v in
  if existsb (fun i => if Rlt_dec 0 (u i) then true else false) (seq 0 n) then
    let E := fun i j => mm n cm B i j - eye i j in
    let w := fun j => vmax k (fun i => - E i j / (u i * 1)) in
    let dlow := fun i => - (v i * w i - B i i) in
    let vw := vsum n (fun i => v i * w i) in
    let B2 := fun i j => B i j + vw in
    let mb := fun i => r_mag (b i) in
    let u2 := mv n B2 mb in
    let alpha := fun i => cm i i + (-1) / B2 i i in
    let beta := fun i => u2 i / dlow i - mb i in
    all_some (map (fun i => r_div (r_add (b i) (sym (beta i))) (r_add (A i i) (sym (alpha i)))) (seq 0 n))
  else None.

(** ** Neumaier.py:28-43 *)

(** Length of the numpy broadcast of vectors of lengths [n] and [m].
    (numpy, for Neumaier.py:42-43) *)
Definition bcast_len (n m : nat) : option nat :=
  if (n =? m)%nat then Some n else if (n =? 1)%nat then Some m else if (m =? 1)%nat then Some n else None.
Definition bidx (n j : nat) : nat := if (n =? 1)%nat then O else j.
(** Neumaier.py:36-41: [A @ np.diag(w)] scales the columns (the zero terms of the
    product are dropped). *)
Definition nm_A (A : imat) (w : option vec) : imat :=
  match w with Some w => fun i j => r_scale (w j) (A i j) | None => A end.
Definition nm_box (w : option vec) : vec := match w with Some w => w | None => fun _ => 1 end.
(** Neumaier.py:42 *)
Definition nm_r (n : nat) (A : imat) (b : ivec) (y : vec) : vec := fun i =>
  (r_rad (b i) - r_mag (r_csub (r_mid (b i)) (imv n A y i))) / vsum n (fun j => r_mag (A i j)).
(** Neumaier.py:43: length and entries of the result, [None] when numpy cannot
    broadcast. *)
Definition neumaier (m n : nat) (A : imat) (b : ivec) (y : vec) (w : option vec) : option (nat * ivec) :=
  let r := nm_r n (nm_A A w) b y in
  match bcast_len n m with
  | None => None
  | Some l => Some (l, fun j => let s := r_scale (nm_box w (bidx n j) * r (bidx m j)) (mkr (-1) 1) in
                                mkr (y (bidx n j) + rl s) (y (bidx n j) + rh s))
  end.

(** ** ChebNorm.py, for m = S k rows *)
Section Cheb.
(** __calc_lp_on_box, ChebNorm.py:27-33: number of variables, c, lower and upper
    bounds; returns a minimizer of [c @ a] *)
Variable lpbox : nat -> vec -> vec -> vec -> vec.
(** ChebNorm.py:35-47 *)
Definition opt_A (n : nat) (infA supA : mat) (bm x : vec) : mat := fun i =>
  let xmin := lpbox n x (infA i) (supA i) in
  let fmin := vsum n (fun j => xmin j * x j) in
  let xmax := lpbox n (fun j => - x j) (infA i) (supA i) in
  let fmax := vsum n (fun j => xmax j * - x j) in
  if Rle_dec (fmax - bm i) (bm i - fmin) then xmin else xmax.
(** ChebNorm.py:14-25 *)
Definition cheb_constituent (n : nat) (A : imat) (b : ivec) (x w : vec) : vec :=
  let M := opt_A n (infs_of A) (sups_of A) (fun i => r_mid (b i)) x in
  fun i => w i * (r_rad (b i) + Rabs (r_mid (b i) - mv n M x i)).
Definition cheb_value (k n : nat) (A : imat) (b : ivec) (x w : vec) : R := vmax k (cheb_constituent n A b x w).
(** ChebNorm.py:49-59 *)
Definition argmax (k : nat) (f : vec) : nat := argmin k (fun i => - f i).
Definition cheb_calcfg (k n : nat) (infA supA : mat) (bm br w x : vec) : R * vec :=
  let M := opt_A n infA supA bm x in
  let f := fun i => w i * (br i + Rabs (bm i - mv n M x i)) in
  let q := argmax k f in
  (vmax k f, fun j => M q j * sgn (mv n M x q - bm q)).
Definition cheb_fg (k n : nat) (A : imat) (b : ivec) (w x : vec) : R * vec :=
  cheb_calcfg k n (infs_of A) (sups_of A) (fun i => r_mid (b i)) (fun i => r_rad (b i)) w x.
End Cheb.
