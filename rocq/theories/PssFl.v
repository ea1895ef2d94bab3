(** Model of linear/PSS.py on doubles (Pss.v has it over exact reals), for [m]
    equations and [n] unknowns (the code calls them n and m).  The starting boxes
    (StartBar, PSS.py:133-148) and ExactOmega (PSS.py:165-203: what the linear
    programming solver answers for a box [Q] without zeros, or 10**15) are
    arguments.  Vectors with the component [nu] deleted are lists of the others. *)
From Coq Require Import ZArith List Arith Bool.
From Flocq Require Import IEEE754.BinarySingleNaN.
From Verif Require Import Base PyNum Kernel Expr Arrays Construct.
Import ListNotations.

(** [try: c except: d] (PSS.py:105-110) *)
Definition mcatch {A} (c d : M A) : M A := fun r => match c r with (Ok a, r1) => (Ok a, r1) | (Err _, r1) => d r1 end.
Definition pinf : pynum := PFlt finf.
Definition pninf : pynum := PFlt fninf.

(** A quotient: one interval or an array of two. (PSS.py:69-93) *)
Inductive fquot : Type := FOne (X : itv) | FTwo (X1 X2 : itv).
(** kdiv, PSS.py:69-92, with the function number of PSS.py:218-224 chosen from the
    divisor: 0 if its lower end is 0, 1 if its upper end is 0, else 2.  The two
    intervals of func2 and func5 are made by Interval of two lists of doubles;
    here one by one. *)
Definition kdiv_fl (a d : itv) : M fquot :=
  if contains_num a pn0 then X <- single_interval pninf pinf false false ;; mret (FOne X)
  else if num_lt (hi a) pn0 then
    if num_eq (lo d) pn0 then v <- div_ (hi a) (hi d) ;; X <- single_interval pninf v false false ;; mret (FOne X)
    else if num_eq (hi d) pn0 then v <- div_ (hi a) (lo d) ;; X <- single_interval v pinf false false ;; mret (FOne X)
    else v <- div_ (hi a) (lo d) ;; u <- div_ (hi a) (hi d) ;;
         X1 <- single_interval pninf u false false ;; X2 <- single_interval v pinf false false ;; mret (FTwo X1 X2)
  else if num_lt pn0 (lo a) then
    if num_eq (lo d) pn0 then v <- div_ (lo a) (hi d) ;; X <- single_interval v pinf false false ;; mret (FOne X)
    else if num_eq (hi d) pn0 then v <- div_ (lo a) (lo d) ;; X <- single_interval pninf v false false ;; mret (FOne X)
    else v <- div_ (lo a) (hi d) ;; u <- div_ (lo a) (lo d) ;;
         X1 <- single_interval pninf u false false ;; X2 <- single_interval v pinf false false ;; mret (FTwo X1 X2)
  else mraise GenericException.
(** intersection of preprocessing.py:127-143 of a running result and a quotient:
    elementwise, a single interval against both of two. *)
Definition meet_fl (s q : fquot) : M fquot :=
  match s, q with
  | FOne X, FOne Y => Z <- intersect X Y ;; mret (FOne Z)
  | FOne X, FTwo Y1 Y2 => Z1 <- intersect X Y1 ;; Z2 <- intersect X Y2 ;; mret (FTwo Z1 Z2)
  | FTwo X1 X2, FOne Y => Z1 <- intersect X1 Y ;; Z2 <- intersect X2 Y ;; mret (FTwo Z1 Z2)
  | FTwo X1 X2, FTwo Y1 Y2 => Z1 <- intersect X1 Y1 ;; Z2 <- intersect X2 Y2 ;; mret (FTwo Z1 Z2)
  end.
Fixpoint meets_fl (s : fquot) (qs : list fquot) : M fquot :=
  match qs with [] => mret s | q :: qs' => s' <- meet_fl s q ;; meets_fl s' qs' end.
(** np.nanmin, np.nanmax of two numbers. (PSS.py:115-121) *)
Definition nanmin2 (x y : pynum) : pynum := if is_nan_num x then y else if is_nan_num y then x else if num_lt y x then y else x.
Definition nanmax2 (x y : pynum) : pynum := if is_nan_num x then y else if is_nan_num y then x else if num_lt x y then y else x.
(** PSS.py:115-126.  [result.a], [result.b] of the array of two are numpy arrays. *)
Definition answer_fl (s : fquot) : M pynum :=
  match s with
  | FOne X => mret (if is_nan_num (hi X) then pinf else lo X)
  | FTwo X1 X2 =>
      let Z := array_interval (mkarr [2] [X1; X2]) in
      bs <- arr_b Z ;;
      match adata bs with
      | [b1; b2] =>
          if is_nan_num b1 && is_nan_num b2 then mret pinf
          else as_ <- arr_a Z ;;
               match adata as_ with
               | [a1; a2] => mret (if is_nan_num b1 || is_nan_num b2 then nanmax2 a1 a2 else nanmin2 a1 a2)
               | _ => mraise IndexError
               end
      | _ => mraise IndexError
      end
  end.
(** Omega, PSS.py:95-126: the rows of [bAr] and of the column, with the flag of
    PSS.py:214 (classical division).  When the classical division or the
    intersections of its quotients raise, or there are none, the first of the
    other quotients starts the intersection (PSS.py:109-110, 112-113). *)
Definition omega_fl (rows : list (bool * (itv * itv))) (Vnu : itv) : M pynum :=
  let pick (f : bool) := map snd (filter (fun r : bool * (itv * itv) => Bool.eqb (fst r) f) rows) in
  div <- mcatch (mapM (fun p : itv * itv => py_op OpDiv (OItv (fst p)) (OItv (snd p))) (pick true)) (mret []) ;;
  pdiv <- mapM (fun p : itv * itv => kdiv_fl (fst p) (snd p)) (pick false) ;;
  s <- mcatch (match div with
               | [] => mraise IndexError
               | d :: ds => s <- meet_fl (FOne d) (FOne Vnu) ;; meets_fl s (map FOne ds)
               end)
              (match pdiv with [] => mraise IndexError | q :: _ => meet_fl q (FOne Vnu) end) ;;
  r <- meets_fl s pdiv ;;
  answer_fl r.

(** ** algo, PSS.py:205-311 *)
Record fitem : Type := mkfitem { fQ : list itv; fq : pynum; ffull : bool }.
(** The index of the [j]-th component that is left when [nu] is deleted. (PSS.py:206 and 211) *)
Definition skip (nu j : nat) : nat := if j <? nu then j else S j.
Definition vec_itv (Q : list itv) : aitv := array_interval (mkarr [length Q] Q).
(** [ArrayInterval(self.data @ other.data)], real_intervals.py:281-286 *)
Definition as_array (Z : arr operand) : aitv :=
  array_interval (amap (fun o => match o with OItv e => e | ONum c => mkitv Classical c c end) Z).
(** np.argmax: the first largest of a list. (PSS.py:232) *)
Fixpoint argmax_from (k best : nat) (w : pynum) (ws : list pynum) : nat * pynum :=
  match ws with [] => (best, w) | v :: ws' => if num_lt w v then argmax_from (S k) k v ws' else argmax_from (S k) best w ws' end.
Definition argmax (ws : list pynum) : option (nat * pynum) :=
  match ws with [] => None | w :: ws' => Some (argmax_from 1 0 w ws') end.
Definition set_nth_itv (k : nat) (X : itv) (Q : list itv) : list itv := firstn k Q ++ X :: skipn (S k) Q.
(** The number -1/2 (PSS.py:165-203) *)
Definition mhalf : pynum := PFlt (fl (-1) (-1)).
(** PSS.py:236-242: the two parts of component [k]. *)
Definition cut_fl (X : itv) : M (itv * itv) :=
  c <- (if num_eq (lo X) pn0 then mid X
        else r <- div_ (hi X) (lo X) ;; if num_lt (PInt (-2)) r && num_lt r mhalf then mret pn0 else mid X) ;;
  X1 <- single_interval (lo X) c false false ;;
  X2 <- single_interval c (hi X) false false ;;
  mret (X1, X2).
(** bisect_left and insert, PSS.py:253-254, in a list sorted by q *)
Fixpoint insort_fl (x : fitem) (L : list fitem) : list fitem :=
  match L with [] => [x] | y :: L' => if num_lt (fq y) (fq x) then y :: insort_fl x L' else x :: y :: L' end.
Fixpoint delete_fl (k : nat) (L : list fitem) : list fitem :=
  match k, L with O, _ :: L' => L' | S k', y :: L' => y :: delete_fl k' L' | _, [] => [] end.
(** PSS.py:299-307: the first element with three components *)
Fixpoint first_full_fl (L : list fitem) : option nat :=
  match L with [] => None | y :: L' => if ffull y then Some O else match first_full_fl L' with Some k => Some (S k) | None => None end end.
Definition head_fl (L : list fitem) : M pynum := match L with [] => mraise IndexError | y :: _ => mret (fq y) end.

Section Algo.
Variables (eo : list itv -> pynum) (m n nu : nat) (A : nat -> nat -> itv) (b V : nat -> itv) (tol : pynum).
(** PSS.py:206, 211-213: [A] without column [nu], [b], column [nu]. *)
Definition WA : aitv := array_interval (mkarr [m; n - 1] (map (fun ij => A (nth 0 ij 0) (skip nu (nth 1 ij 0))) (indices [m; n - 1]))).
Definition Wb : aitv := array_interval (mkarr [m] (map b (seq 0 m))).
Definition column : list itv := map (fun i => A i nu) (seq 0 m).
(** PSS.py:214 *)
Definition classic_rows : M (list bool) :=
  la <- arr_a (vec_itv column) ;; lb <- arr_b (vec_itv column) ;;
  mapM (fun p : pynum * pynum => v <- mul_ (fst p) (snd p) ;; mret (num_lt pn0 v)) (combine (adata la) (adata lb)).
(** [WorkListA @ Q], [WorkListb - Ar] (PSS.py:227, 247 and 271) *)
Definition rest_fl (Q : list itv) : M aitv := Z <- matmul (op_arr WA) (op_arr (vec_itv Q)) ;; mret (as_array Z).
Definition rest_mid_fl (Q : list itv) : M aitv :=
  v <- arr_mid (vec_itv Q) ;; Z <- matmul (op_arr WA) (amap ONum v) ;; mret (as_array Z).
Definition omega_at (fs : list bool) (Ar : aitv) : M pynum :=
  bAr <- arr_op OpSub Wb (op_arr Ar) ;; omega_fl (combine fs (combine (adata (adat bAr)) column)) (V nu).
Definition zero_in_fl (Q : list itv) : bool := existsb (fun X => contains_num X pn0) Q.
(** PSS.py:246-268: the estimate of a half, the list with it, and eta *)
Definition add_half_fl (fs : list bool) (Q : list itv) (omega : pynum) (L : list fitem) : M (list fitem * pynum) :=
  if zero_in_fl Q then
    Ar <- rest_fl Q ;; q <- omega_at fs Ar ;;
    if num_lt q omega then Am <- rest_mid_fl Q ;; eta <- omega_at fs Am ;; mret (insort_fl (mkfitem Q q true) L, eta)
    else mret (L, pinf)
  else
    let q := eo Q in
    if num_lt q omega then mret (insort_fl (mkfitem Q q false) L, q) else mret (L, pinf).
(** PSS.py:294-297 *)
Definition update_fl (omega eta : pynum) (L : list fitem) : pynum * list fitem :=
  if num_lt eta omega then (eta, filter (fun l => num_le (fq l) eta) L) else (omega, L).
(** The loop of PSS.py:231-311; [fuel] bounds the iterations left *)
Fixpoint pss_loop_fl (fuel : nat) (fs : list bool) (L : list fitem) (pos : nat) (omega : pynum) : M pynum :=
  match nth_error L pos with
  | None => mraise IndexError
  | Some it =>
      ws <- arr_wid (vec_itv (fQ it)) ;;
      match argmax (adata ws) with
      | None => mraise ValueError
      | Some (k, w) =>
          if num_le tol w then
            match fuel with
            | O => head_fl L
            | S f =>
                match nth_error (fQ it) k with
                | None => mraise IndexError
                | Some X =>
                    XX <- cut_fl X ;;
                    r1 <- add_half_fl fs (set_nth_itv k (fst XX) (fQ it)) omega (delete_fl pos L) ;;
                    r2 <- add_half_fl fs (set_nth_itv k (snd XX) (fQ it)) omega (fst r1) ;;
                    let eta := if num_le (snd r1) (snd r2) then snd r1 else snd r2 in
                    let (omega', L3) := update_fl omega eta (fst r2) in
                    match first_full_fl L3 with
                    | None => head_fl L3
                    | Some pos' => pss_loop_fl f fs L3 pos' omega'
                    end
                end
            end
          else head_fl L
      end
  end.
Definition algo_fl (maxiter : Z) : M pynum :=
  let Q := map (fun j => V (skip nu j)) (seq 0 (n - 1)) in
  fs <- classic_rows ;;
  rest_fl Q ;;;
  pss_loop_fl (Z.to_nat (maxiter + 1)) fs [mkfitem Q (lo (V nu)) false] 0 (hi (V nu)).
End Algo.
(** PSS.py:324-334: component [nu].  [b1], [b2]: [1 * b] and [-1 * (1 * b)]; [V1],
    [V2] and [eo1], [eo2]: the starting boxes and the answers of ExactOmega of the two passes. *)
Definition scale_rhs (c : Z) (m : nat) (b : nat -> itv) : M (nat -> itv) :=
  l <- mapM (fun i => rmul (b i) (PInt c)) (seq 0 m) ;; mret (fun i => nth i l (mkitv Classical pn0 pn0)).
Definition pss_fl (eo1 eo2 : list itv -> pynum) (m n nu : nat) (A : nat -> nat -> itv) (b V1 V2 : nat -> itv) (tol : pynum) (maxiter : Z) : M itv :=
  b1 <- scale_rhs 1 m b ;;
  q1 <- algo_fl eo1 m n nu A b1 V1 tol maxiter ;;
  b2 <- scale_rhs (-1) m b1 ;;
  q2 <- algo_fl eo2 m n nu A b2 V2 tol maxiter ;;
  s <- mul_ (PInt (-1)) q2 ;;
  single_interval q1 s false false.
