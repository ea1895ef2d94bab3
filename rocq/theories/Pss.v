(** Model of linear/PSS.py over exact reals, for [m] equations and [n] unknowns
    (the code calls them n and m).  The starting boxes (StartBar, PSS.py:133-148:
    x0, or what Rohn or Gauss returned) and the linear programming solver are
    arguments.  Vectors with the component [nu] deleted are kept with it, and the
    component is never used; [idx] lists the other components. *)
From Coq Require Import Reals List Arith Bool ZArith.
From Verif Require Import Exact Estim.
Import ListNotations.
Open Scope R_scope.

(** What Omega and ExactOmega give: a number, infinity, or an exception.
    (PSS.py:95-131 and 165-203) *)
Inductive oval : Type := Val (r : R) | Infty | Fail.
(** [x < omega], [x <= y] (PSS.py:231-300) *)
Definition ov_lt (x : oval) (omega : R) : bool := match x with Val r => if Rlt_dec r omega then true else false | _ => false end.
Definition ov_le (x y : oval) : bool :=
  match x, y with
  | Val r, Val s => if Rle_dec r s then true else false
  | Val _, Infty => true
  | Infty, Infty => true
  | _, _ => false
  end.

(** A quotient: one piece or two, each with optional finite ends. (PSS.py:69-93) *)
Inductive quot : Type := QOne (lo hi : option R) | QTwo (lo1 hi1 lo2 hi2 : option R) | QFail.
(** kdiv, PSS.py:69-92, with the function number of PSS.py:218-224 chosen from the
    divisor.  Division by zero (divisor [0,0]) raises for Python floats. *)
Definition kdiv (a d : rit) : quot :=
  if has0 a then QOne None None
  else if Rlt_dec (rh a) 0 then
    if Req_EM_T (rl d) 0 then (if Req_EM_T (rh d) 0 then QFail else QOne None (Some (rh a / rh d)))
    else if Req_EM_T (rh d) 0 then QOne (Some (rh a / rl d)) None
    else QTwo None (Some (rh a / rh d)) (Some (rh a / rl d)) None
  else if Rlt_dec 0 (rl a) then
    if Req_EM_T (rl d) 0 then (if Req_EM_T (rh d) 0 then QFail else QOne (Some (rl a / rh d)) None)
    else if Req_EM_T (rh d) 0 then QOne None (Some (rl a / rl d))
    else QTwo None (Some (rl a / rl d)) (Some (rl a / rh d)) None
  else QFail.
Definition cdiv (a d : rit) : quot := match r_div a d with Some q => QOne (Some (rl q)) (Some (rh q)) | None => QFail end.
(** PSS.py:214: [Anu.a * Anu.b > 0] *)
Definition classic_row (d : rit) : bool := if Rlt_dec 0 (rl d * rh d) then true else false.

(** intersection, preprocessing.py:127-133; [None] is the NaN interval *)
Definition olo (lo : option R) (x : R) : R := match lo with Some l => Rmax l x | None => x end.
Definition ohi (hi : option R) (x : R) : R := match hi with Some h => Rmin h x | None => x end.
Definition isect (lo hi : option R) (v : option rit) : option rit :=
  match v with
  | None => None
  | Some v =>
      let sup := olo lo (rl v) in let inf := ohi hi (rh v) in
      if Rle_dec (sup - inf) (/ 10 ^ 15) then Some (mkr (Rmin sup inf) (Rmax sup inf)) else None
  end.
(** The running intersection: one interval, or two after a quotient with two pieces
    (PSS.py:105-113) *)
Inductive inter : Type := IOne (v : option rit) | ITwo (v1 v2 : option rit) | IFail.
Definition meet (s : inter) (q : quot) : inter :=
  match s, q with
  | IFail, _ => IFail
  | _, QFail => IFail
  | IOne v, QOne lo hi => IOne (isect lo hi v)
  | IOne v, QTwo l1 h1 l2 h2 => ITwo (isect l1 h1 v) (isect l2 h2 v)
  | ITwo v1 v2, QOne lo hi => ITwo (isect lo hi v1) (isect lo hi v2)
  | ITwo v1 v2, QTwo l1 h1 l2 h2 => ITwo (isect l1 h1 v1) (isect l2 h2 v2)
  end.
(** PSS.py:115-126 *)
Definition answer (s : inter) : oval :=
  match s with
  | IFail => Fail
  | IOne None => Infty
  | IOne (Some v) => Val (rl v)
  | ITwo None None => Infty
  | ITwo (Some v) None => Val (rl v)
  | ITwo None (Some v) => Val (rl v)
  | ITwo (Some v1) (Some v2) => Val (Rmin (rl v1) (rl v2))
  end.
(** Omega, PSS.py:95-126: [bAr] the right-hand sides, [Anu] the column.  The
    quotients of the classical rows come first; when there are none, that of the
    first row is used twice (PSS.py:109-113); without rows PSS.py:110 raises. *)
Definition omega_of (m : nat) (bAr Anu : ivec) (Vnu : rit) : oval :=
  let classic := map (fun i => cdiv (bAr i) (Anu i)) (filter (fun i => classic_row (Anu i)) (seq 0 m)) in
  let kahan := map (fun i => kdiv (bAr i) (Anu i)) (filter (fun i => negb (classic_row (Anu i))) (seq 0 m)) in
  let all := match classic, kahan with
             | [], [] => [QFail]
             | [], q :: qs => q :: q :: qs
             | _, _ => classic ++ kahan
             end in
  answer (fold_left meet all (IOne (Some Vnu))).

(** ** ExactOmega, PSS.py:165-203 *)
(** The signs: those of Q.a, and [s] at [nu] (PSS.py:166) *)
Definition pss_S (nu : nat) (Q : ivec) (s : R) : vec := fun j => if (j =? nu)%nat then s else sgn (rl (Q j)).
(** PSS.py:175-178, 151: rows of A_ub *)
Definition pss_A (m n : nat) (A : imat) (S : vec) : mat := fun i j =>
  if (i <? m)%nat then r_mid (A i j) * S j - r_rad (A i j)
  else if (i <? 2 * m)%nat then - (r_mid (A (i - m)%nat j) * S j) - r_rad (A (i - m)%nat j)
  else if (i <? 2 * m + n)%nat then - (if (i - 2 * m =? j)%nat then S j else 0)
  else if (i <? 2 * m + 2 * n)%nat then (if (i - (2 * m + n) =? j)%nat then S j else 0)
  else - (if (i - (2 * m + 2 * n) =? j)%nat then 1 else 0).
(** PSS.py:169-170, 180-182, 153 *)
Definition pss_b (m n nu : nat) (b Q : ivec) : vec := fun i =>
  if (i <? m)%nat then rh (b i)
  else if (i <? 2 * m)%nat then - rl (b (i - m)%nat)
  else if (i <? 2 * m + n)%nat then (if (i - 2 * m =? nu)%nat then 10 ^ 15 else - rl (Q (i - 2 * m)%nat))
  else if (i <? 2 * m + 2 * n)%nat then (if (i - (2 * m + n) =? nu)%nat then 10 ^ 15 else rh (Q (i - (2 * m + n))%nat))
  else 0.
Definition pss_lp (lp : lp_solver) (m n nu : nat) (A : imat) (b Q : ivec) (s : R) : option R :=
  let c := fun j => if (j =? nu)%nat then s else 0 in
  match lp (2 * (m + n) + n)%nat n c (pss_A m n A (pss_S nu Q s)) (pss_b m n nu b Q) with
  | Some y => Some (vsum n (fun j => y j * c j))
  | None => None
  end.
Definition exact_omega (lp : lp_solver) (m n nu : nat) (A : imat) (b Q : ivec) (Vnu : rit) : oval :=
  match pss_lp lp m n nu A b Q (sgn (rl Vnu)) with
  | Some r => Val r
  | None => match pss_lp lp m n nu A b Q (sgn (rh Vnu)) with Some r => Val r | None => Val (10 ^ 15) end
  end.

(** ** algo, PSS.py:205-311 *)
Record item : Type := mkitem { iQ : ivec; iq : R; full : bool }.
Definition others (n nu : nat) : list nat := filter (fun j => negb (j =? nu)%nat) (seq 0 n).
Definition wid (x : rit) : R := rh x - rl x.
(** [np.argmax(Q.wid)]: the first widest component; amax of nothing raises (PSS.py:231-232) *)
Definition widest (idx : list nat) (Q : ivec) : option nat :=
  match idx with
  | [] => None
  | j :: js => Some (fold_left (fun k j' => if Rlt_dec (wid (Q k)) (wid (Q j')) then j' else k) js j)
  end.
Definition set_at (Q : ivec) (k : nat) (X : rit) : ivec := fun j => if (j =? k)%nat then X else Q j.
(** PSS.py:236-242: the point where component [k] is cut *)
Definition cut (X : rit) : R :=
  if Req_EM_T (rl X) 0 then r_mid X
  else if Rlt_dec (-2) (rh X / rl X) then (if Rlt_dec (rh X / rl X) (- (1 / 2)) then 0 else r_mid X) else r_mid X.
Definition lower_half (Q : ivec) (k : nat) : ivec := set_at Q k (mkr (rl (Q k)) (cut (Q k))).
Definition upper_half (Q : ivec) (k : nat) : ivec := set_at Q k (mkr (cut (Q k)) (rh (Q k))).
(** [WorkListA @ Q] (PSS.py:227, 247 and 271) *)
Definition rest (idx : list nat) (A : imat) (Q : ivec) : ivec := fun i => fold_right (fun j s => r_add (r_mul (A i j) (Q j)) s) (r_point 0) idx.
Definition rest_mid (idx : list nat) (A : imat) (Q : ivec) : ivec := fun i => fold_right (fun j s => r_add (r_scale (r_mid (Q j)) (A i j)) s) (r_point 0) idx.
Definition zero_in (idx : list nat) (Q : ivec) : bool := existsb (fun j => has0 (Q j)) idx.
(** bisect_left and insert, PSS.py:253-254, in a list sorted by q *)
Fixpoint insort (x : item) (L : list item) : list item :=
  match L with [] => [x] | y :: L' => if Rlt_dec (iq y) (iq x) then y :: insort x L' else x :: y :: L' end.
Fixpoint delete_nth (k : nat) (L : list item) : list item :=
  match k, L with O, _ :: L' => L' | S k', y :: L' => y :: delete_nth k' L' | _, [] => [] end.
(** PSS.py:299-307: the first element with three components *)
Fixpoint first_full (L : list item) : option nat :=
  match L with [] => None | y :: L' => if full y then Some O else match first_full L' with Some k => Some (S k) | None => None end end.
Definition head_q (L : list item) : option R := match L with [] => None | y :: _ => Some (iq y) end.

Section Algo.
Variables (lp : lp_solver) (m n nu : nat) (A : imat) (b V : ivec) (tol : R).
Definition Anu : ivec := fun i => A i nu.
(** PSS.py:246-268: the estimate of a half, the list with it, and eta *)
Definition estimate (Q : ivec) : oval :=
  let idx := others n nu in
  if zero_in idx Q then omega_of m (fun i => r_sub (b i) (rest idx A Q i)) Anu (V nu) else exact_omega lp m n nu A b Q (V nu).
Definition add_half (Q : ivec) (omega : R) (L : list item) : option (list item * oval) :=
  let idx := others n nu in
  match estimate Q with
  | Fail => None
  | q =>
      if ov_lt q omega then
        let r := match q with Val r => r | _ => 0 end in
        if zero_in idx Q then
          match omega_of m (fun i => r_sub (b i) (rest_mid idx A Q i)) Anu (V nu) with
          | Fail => None
          | eta => Some (insort (mkitem Q r true) L, eta)
          end
        else Some (insort (mkitem Q r false) L, q)
      else Some (L, Infty)
  end.
(** PSS.py:294-297 *)
Definition update (omega : R) (eta : oval) (L : list item) : R * list item :=
  match eta with
  | Val r => if Rlt_dec r omega then (r, filter (fun l => if Rle_dec (iq l) r then true else false) L) else (omega, L)
  | _ => (omega, L)
  end.
(** The loop of PSS.py:231-311; [fuel] bounds the iterations left, [None]: an exception *)
Fixpoint pss_loop (fuel : nat) (L : list item) (pos : nat) (omega : R) : option R :=
  match nth_error L pos with
  | None => None
  | Some it =>
      match widest (others n nu) (iQ it) with
      | None => None
      | Some k =>
          if Rlt_dec (wid (iQ it k)) tol then head_q L
          else match fuel with
          | O => head_q L
          | S f =>
              match add_half (lower_half (iQ it) k) omega (delete_nth pos L) with
              | None => None
              | Some (L1, eta1) =>
                  match add_half (upper_half (iQ it) k) omega L1 with
                  | None => None
                  | Some (L2, eta2) =>
                      let (omega', L3) := update omega (if ov_le eta1 eta2 then eta1 else eta2) L2 in
                      match first_full L3 with
                      | None => head_q L3
                      | Some pos' => pss_loop f L3 pos' omega'
                      end
                  end
              end
          end
      end
  end.
Definition algo (maxiter : Z) : option R := pss_loop (Z.to_nat (maxiter + 1)) [mkitem V (rl (V nu)) false] 0 (rh (V nu)).
End Algo.
(** PSS, PSS.py:313-334: component [nu].  [V1], [V2]: the starting boxes of the two
    passes, for b and for -b. *)
Definition r_neg (x : rit) : rit := mkr (- rh x) (- rl x).
Definition pss (lp : lp_solver) (m n : nat) (A : imat) (b V1 V2 : ivec) (tol : R) (maxiter : Z) (nu : nat) : option rit :=
  match algo lp m n nu A b V1 tol maxiter, algo lp m n nu A (fun i => r_neg (b i)) V2 tol maxiter with
  | Some l, Some h => Some (mkr l (- h))
  | _, _ => None
  end.
(** With x0 both passes start from x0 (PSS.py:134-135). *)
Definition pss_x0 (lp : lp_solver) (m n : nat) (A : imat) (b x0 : ivec) (tol : R) (maxiter : Z) (nu : nat) : option rit :=
  pss lp m n A b x0 x0 tol maxiter nu.
