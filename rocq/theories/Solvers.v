(** Model of the outer estimation methods that run on interval arithmetic:
    linear/Gauss.py, linear/Gauss_Seidel.py, nonlinear/external_evaluation.py
    (one-dimensional case) and nonlinear/globopt.py.  Interval vectors and
    matrices are functions of the index; every element is computed with the
    kernel operations. *)
(** Gauss.py:6, Gauss_Seidel.py:8 *)
From Coq Require Import ZArith List Bool Lia.
From Verif Require Import Base PyNum Kernel Expr Arrays Construct.
Import ListNotations.
Open Scope nat_scope.

Definition ivec := nat -> itv.
Definition imat := nat -> nat -> itv.

(** [v[k:] = ...]: the elements k..n-1 are computed by [f], the others kept. (Gauss.py:31-51) *)
Definition tab (k n : nat) (f : nat -> M itv) (old : ivec) : M ivec :=
  l <- mapM f (seq k (n - k)) ;;
  mret (fun i => if i <? k then old i else nth (i - k) l (old i)).
(** [A[k:, k:] = ...] (Gauss.py:31-51) *)
Definition tab2 (k n : nat) (f : nat -> nat -> M itv) (old : imat) : M imat :=
  rows <- mapM (fun i => mapM (f i) (seq k (n - k))) (seq k (n - k)) ;;
  mret (fun i l => if (i <? k) || (l <? k) then old i l else nth (l - k) (nth (i - k) rows []) (old i l)).
Definition upd (x : ivec) (i : nat) (v : itv) : ivec := fun l => if l =? i then v else x l.

(** [np.argmax]: the first maximum; a NaN counts as maximal.  [best] is the
    index and value found so far, [i] the index of the head of the list.
    (for Gauss.py:33 and globopt.py:26) *)
Fixpoint argmax_from (best : nat * pynum) (i : nat) (l : list pynum) : nat * pynum :=
  match l with
  | [] => best
  | v :: l' =>
      argmax_from (if negb (is_nan_num (snd best)) && (is_nan_num v || num_lt (snd best) v) then (i, v) else best) (S i) l'
  end.
Definition argmax (l : list pynum) : option (nat * pynum) :=
  match l with [] => None | v :: l' => Some (argmax_from (0, v) 1 l') end.

(** The built-in [sum] of an iterable of intervals: starts from the int 0.
    (for Gauss.py:51 and Gauss_Seidel.py:64) *)
Fixpoint sum_from (acc : itv) (l : list itv) : M itv :=
  match l with [] => mret acc | e :: l' => s <- py_add (OItv acc) (OItv e) ;; sum_from s l' end.
Definition py_sum (l : list itv) : M operand :=
  match l with
  | [] => mret (ONum (PInt 0))
  | e :: l' => a <- py_add (ONum (PInt 0)) (OItv e) ;; s <- sum_from a l' ;; mret (OItv s)
  end.

Definition zero_itv : itv := mkitv Classical (PFlt f0) (PFlt f0).

(** ** Gauss.py:26-52 *)

(** Gauss.py:45, [A[j+1:, j] / A[j, j]]: an array divided by a scalar interval, see
    [arr_op_itv] in Arrays.v; the two reciprocals are computed once, before the
    elements. *)
Definition div_all (es : list itv) (s : itv) : M (list itv) :=
  i <- with_rounding FE_DOWNWARD (as_double (div_ (PInt 1) (hi s))) ;;
  v <- with_rounding FE_UPWARD (as_double (div_ (PInt 1) (lo s))) ;;
  mapM (fun e => rmul_any (mkitv (kd s) (PFlt i) (PFlt v)) (OItv e)) es.

(** Gauss.py:31-47: one forward step.  The row swap at Gauss.py:41 exchanges the
    columns from [j] on.  Gauss.py:45 multiplies the vector r[j+1:, j] by the vector
    A[j, j+1:] elementwise and numpy broadcasts the product over the rows: entry
    (i, l) of A is diminished by r[l] * A[j, l] - by r of the column index. *)
Definition gauss_step (n j : nat) (A : imat) (b : ivec) : M (imat * ivec) :=
  migs <- mapM (fun i => mig (A i j)) (seq j (n - j)) ;;
  match argmax (map PFlt migs) with
  | None => mraise ValueError
  | Some (d, mx) =>
      if num_lt (PInt 0) mx then
        let k := (d + j) in
        let A1 := if k =? j then A else
          fun i l => if l <? j then A i l else if i =? j then A k l else if i =? k then A j l else A i l in
        let b1 := if k =? j then b else fun i => if i =? j then b k else if i =? k then b j else b i in
        rs <- div_all (map (fun i => A1 i j) (seq (S j) (n - S j))) (A1 j j) ;;
        let r := fun i => nth (i - S j) rs zero_itv in
        A2 <- tab2 (S j) n (fun i l => p <- py_mul (OItv (r l)) (OItv (A1 j l)) ;; py_sub (OItv (A1 i l)) (OItv p)) A1 ;;
        b2 <- tab (S j) n (fun i => p <- rmul_any (b1 j) (OItv (r i)) ;; py_sub (OItv (b1 i)) (OItv p)) b1 ;;
        mret (A2, b2)
      else mraise AssertionError
  end.
(** Gauss.py:31-47: steps [j], [j+1], ...; [c] of them. *)
Fixpoint gauss_forward (n c j : nat) (A : imat) (b : ivec) : M (imat * ivec) :=
  match c with
  | O => mret (A, b)
  | S c' => s <- gauss_step n j A b ;; gauss_forward n c' (S j) (fst s) (snd s)
  end.
(** Gauss.py:51: [x[i] = (b[i] - sum(A[i, i:] * x[i:])) / A[i, i]]. *)
Definition gauss_back_row (n i : nat) (A : imat) (b x : ivec) : M itv :=
  ps <- mapM (fun l => py_mul (OItv (A i l)) (OItv (x l))) (seq i (n - i)) ;;
  s <- py_sum ps ;;
  d <- py_sub (OItv (b i)) s ;;
  py_div (OItv d) (OItv (A i i)).
(** Rows [c-1], ..., 0. (Gauss.py:50-51) *)
Fixpoint gauss_back (n c : nat) (A : imat) (b x : ivec) : M ivec :=
  match c with
  | O => mret x
  | S i => v <- gauss_back_row n i A b x ;; gauss_back n i A b (upd x i v)
  end.
(** Gauss.py:26-52, for a square matrix with n >= 1 rows. *)
Definition gauss (n : nat) (A : imat) (b : ivec) : M ivec :=
  s <- gauss_forward n (n - 1) 0 A b ;;
  gauss_back n n (fst s) (snd s) (fun _ => zero_itv).

(** ** Gauss_Seidel.py:41-73 *)

Section GaussSeidel.
(** [dist(result, pre_result)], any function; the H-matrix test of Gauss_Seidel.py:53-57
    (numpy inverse of the comparison matrix) is represented by its outcome. *)
Variable distance : nat -> ivec -> ivec -> pynum.

(** Gauss_Seidel.py:64 *)
Definition gs_bar (n k : nat) (A : imat) (b x pre : ivec) : M itv :=
  p1 <- mapM (fun l => py_mul (OItv (A k l)) (OItv (x l))) (seq 0 k) ;;
  s1 <- py_sum p1 ;;
  d1 <- py_sub (OItv (b k)) s1 ;;
  p2 <- mapM (fun l => py_mul (OItv (A k l)) (OItv (pre l))) (seq (S k) (n - S k)) ;;
  s2 <- py_sum p2 ;;
  d2 <- py_sub (OItv d1) s2 ;;
  py_div (OItv d2) (OItv (A k k)).
(** Gauss_Seidel.py:63-68: components [k], [k+1], ...; [c] of them. *)
Fixpoint gs_sweep (n c k : nat) (A : imat) (b x pre : ivec) : M ivec :=
  match c with
  | O => mret x
  | S c' =>
      bar <- gs_bar n k A b x pre ;;
      z <- intersect (pre k) bar ;;
      if isnan_itv z then mraise GenericException else gs_sweep n c' (S k) A b (upd x k z) pre
  end.
(** Gauss_Seidel.py:62-73; [fuel] is the number of iterations that [nit <= maxiter] still
    allows. *)
Fixpoint gs_loop (n fuel : nat) (tol : pynum) (d : pynum) (A : imat) (b x pre : ivec) : M ivec :=
  if num_le tol d then
    match fuel with
    | O => mret x
    | S f => x' <- gs_sweep n n 0 A b x pre ;; gs_loop n f tol (distance n x' pre) A b x' x'
    end
  else mret x.
(** One entry of [C @ A], [C @ b] (see Arrays.v, matmul).
    (Gauss_Seidel.py:44-52, external_evaluation.py:27-28 and 68-70) *)
Definition mat_entry (n : nat) (c : nat -> pynum) (v : nat -> itv) : M itv :=
  z <- dot (map (fun k => (ONum (c k), OItv (v k))) (seq 0 n)) ;;
  match z with OItv w => mret w | ONum _ => mraise TypeError end.
(** Gauss_Seidel.py:41-73.  [C] is the preconditioner, given or np.linalg.inv(A.mid): any
    matrix of numbers.  [x0 = None] means the default. *)
Definition gauss_seidel (n : nat) (A : imat) (b : ivec) (x0 : option ivec) (C : nat -> nat -> pynum) (hmat : bool) (tol : pynum) (maxiter : Z) : M ivec :=
  A' <- tab2 0 n (fun i l => mat_entry n (C i) (fun k => A k l)) A ;;
  b' <- tab 0 n (fun i => mat_entry n (C i) b) b ;;
  if hmat then
    let pre := match x0 with Some x => x | None => fun _ => mkitv Classical (PFlt (fl (-1000) 0)) (PFlt (fl 1000 0)) end in
    gs_loop n (Z.to_nat (maxiter + 1)) tol (PFlt finf) A' b' (fun _ => zero_itv) pre
  else mraise AssertionError.
End GaussSeidel.

(** ** external_evaluation.py, one-dimensional case *)

Section Scalar.
(** The user's function and derivative, and [dist]. *)
Variable func : itv -> M itv.
Variable J : itv -> M itv.
Variable distance : itv -> itv -> pynum.

(** [asinterval(X.mid)], external_evaluation.py:38, 46, 77, 85 *)
Definition mid_itv (X : itv) : M itv := v <- mid X ;; single_interval v v false false.
(** [1 / L.mid], external_evaluation.py:15, 59 *)
Definition slope_recip (L : itv) : M pynum := v <- mid L ;; div_ (PInt 1) v.
(** K, external_evaluation.py:55-62 *)
Definition kraw_op (X c : itv) : M itv :=
  L <- J X ;;
  la <- slope_recip L ;;
  t <- py_mul (ONum la) (OItv L) ;;
  B <- py_sub (ONum (PInt 1)) (OItv t) ;;
  fc <- func c ;;
  p <- py_mul (ONum la) (OItv fc) ;;
  q <- py_sub (OItv c) (OItv p) ;;
  d <- py_sub (OItv X) (OItv c) ;;
  s <- py_mul (OItv B) (OItv d) ;;
  py_add (OItv q) (OItv s).
(** HS, external_evaluation.py:11-23 *)
Definition hs_op (X c : itv) : M itv :=
  L <- J X ;;
  la <- slope_recip L ;;
  A <- py_mul (ONum la) (OItv L) ;;
  fc <- func c ;;
  b <- py_mul (ONum (num_neg la)) (OItv fc) ;;
  if py_contains A (ONum (PInt 0)) then mraise GenericException
  else g <- py_div (OItv b) (OItv A) ;; py_add (OItv c) (OItv g).
(** external_evaluation.py:42-50, 81-90: [fuel] is the number of iterations the counter still
    allows. *)
Fixpoint newton_loop (op : itv -> itv -> M itv) (fuel : nat) (tol err : pynum) (X c : itv) : M itv :=
  match fuel with
  | O => mret X
  | S f =>
      if num_lt tol err then
        z <- op X c ;;
        Y <- intersect X z ;;
        if isnan_itv Y then mret Y
        else c' <- mid_itv Y ;; newton_loop op f tol (distance Y X) Y c'
      else mret X
  end.
Definition newton (op : itv -> itv -> M itv) (fuel : nat) (tol : pynum) (x0 : itv) : M itv :=
  F <- func x0 ;;
  if py_contains F (ONum (PInt 0)) then
    c <- mid_itv x0 ;; newton_loop op fuel tol (PFlt finf) x0 c
  else mraise GenericException.
(** external_evaluation.py:53-90: [while nit <= maxiter]. *)
Definition krawczyk (x0 : itv) (maxiter : Z) (tol : pynum) : M itv := newton kraw_op (Z.to_nat (maxiter + 1)) tol x0.
(** external_evaluation.py:9-50: [while nit < maxiter]. *)
Definition hansen_sengupta (x0 : itv) (maxiter : Z) (tol : pynum) : M itv := newton hs_op (Z.to_nat maxiter) tol x0.
End Scalar.

(** ** globopt.py:19-44 *)

(** bisect.bisect_left(keys, x, lo, hi) (for globopt.py:35 and 39) *)
Fixpoint bisect_left (fuel : nat) (keys : list pynum) (x : pynum) (l h : nat) : nat :=
  match fuel with
  | O => l
  | S f =>
      if l <? h then
        let m := (l + h) / 2 in
        if num_lt (nth m keys (PInt 0)) x then bisect_left f keys x (S m) h else bisect_left f keys x l m
      else l
  end.
Definition insert_at {A} (i : nat) (v : A) (l : list A) : list A := firstn i l ++ v :: skipn i l.
Definition set_nth {A} (i : nat) (v : A) (l : list A) : list A := firstn i l ++ v :: skipn (S i) l.

Section GlobOpt.
Variable func : list itv -> M itv.
Definition box := (list itv * pynum)%type.
(** globopt.py:33-36, 38-40: [L.insert(bisect_left(...), (Y, v))]. *)
Definition insert_box (c : box) (L : list box) : list box :=
  insert_at (bisect_left (S (length L)) (map snd L) (snd c) 0 (length L)) c L.
(** globopt.py:25-42.  [L] is the work list, its head is the pair [(Y, _)]. *)
Fixpoint glob_loop (fuel : nat) (tol : pynum) (L : list box) : M (list box) :=
  match L with
  | [] => mraise IndexError
  | (Y, _) :: rest =>
      F <- func Y ;;
      w <- wid F ;;
      if num_le tol w then
        match fuel with
        | O => mret L
        | S f =>
            ws <- vectorize_num wid (mkarr [length Y] Y) ;;
            match argmax (adata ws) with
            | None => mraise ValueError
            | Some (l, _) =>
                match nth_error Y l with
                | None => mraise IndexError
                | Some e =>
                    c <- mid e ;;
                    e1 <- single_interval (lo e) c false false ;;
                    e2 <- single_interval c (hi e) false false ;;
                    let Y1 := set_nth l e1 Y in let Y2 := set_nth l e2 Y in
                    F1 <- func Y1 ;;
                    F2 <- func Y2 ;;
                    glob_loop f tol (insert_box (Y2, lo F2) (insert_box (Y1, lo F1) rest))
                end
            end
        end
      else mret L
  end.
Definition globopt (x0 : list itv) (tol : pynum) (maxiter : Z) : M (list itv * itv) :=
  F <- func x0 ;;
  L <- glob_loop (Z.to_nat (maxiter + 1)) tol [(x0, lo F)] ;;
  match L with
  | [] => mraise IndexError
  | (Y, _) :: _ => V <- func Y ;; mret (Y, V)
  end.
End GlobOpt.
