(** Model of kernel/ralgb5.py:3-193 over arbitrary number, vector and matrix
    operations, so that every theorem holds for binary64 (with NaN) as well as
    for exact reals.  calcfg is a total function: an exception raised by it, or
    the RuntimeWarnings of numpy on division by zero, are not modelled.  The
    evaluated points are logged ([trace], latest first); the log is not part of
    the program. *)
From Coq Require Import ZArith List Bool Arith Reals.
From Flocq Require Import IEEE754.BinarySingleNaN.
From Verif Require Import Exact Recog PyNum.
Import ListNotations.

Record ops : Type := mkops {
  num : Type; vct : Type; mtx : Type;
  n_lt : num -> num -> bool;                  (* a < b *)
  n_add : num -> num -> num; n_sub : num -> num -> num; n_mul : num -> num -> num; n_div : num -> num -> num;
  n_abs : num -> num; n_zero : num; n_one : num; n_inf : num;
  v_norm : vct -> num;                        (* np.linalg.norm *)
  v_dot : vct -> vct -> num;                  (* a @ b *)
  v_sub : vct -> vct -> vct; v_scale : num -> vct -> vct; v_div : vct -> num -> vct;
  m_eye : nat -> mtx; m_tv : mtx -> vct -> vct;  (* B.T @ g *)
  m_v : mtx -> vct -> vct;                    (* B @ g *)
  m_dilate : mtx -> num -> vct -> mtx         (* B + w * np.outer(B @ xi, xi) *)
}.

Section Ralgb5.
Variable OP : ops.
Notation N := (num OP). Notation V := (vct OP). Notation MT := (mtx OP).

(** The keyword arguments, ralgb5.py:3; [nsims] is one more than [k_sims]
    (with nsims = 0 ralgb5.py:116 raises IndexError). *)
Record params : Type := mkparams {
  tolx : N; tolg : N; tolf : N; maxiter : Z; alpha : N; k_sims : nat; h0 : N; nh : nat; q1 : N; q2 : N }.
Variable P : params.
Variable calcfg : V -> N * V.

(** Result: xr, fr, nit, ncalls, ccode. (ralgb5.py:193) *)
Record result : Type := mkresult { r_x : V; r_f : N; r_nit : nat; r_ncalls : nat; r_code : nat }.
(** What survives an inner step, ralgb5.py:129-152. *)
Record state : Type := mkstate { s_x : V; s_xr : V; s_fr : N; s_hs : N; s_ncalls : nat; s_trace : list V }.

(** np.mod(cal, nh) == 0; numpy gives 0 for nh = 0. (ralgb5.py:146) *)
Definition mod0 (cal h : nat) : bool := match h with O => true | _ => Nat.eqb (Nat.modulo cal h) 0 end.

(** The line search, ralgb5.py:128-157.  [inl]: return with code 2 at ralgb5.py:143.
    [inr]: state, last gradient, cal and deltax on leaving the loop.  [fuel]
    bounds the number of remaining tests of the loop condition; 502 is enough. *)
Fixpoint line_search (fuel : nat) (nit : nat) (dx : V) (normdx : N) (st : state) (g1 : V) (d : N) (cal : nat) (deltax : N)
  : (result * list V) + (state * V * nat * N) :=
  match fuel with
  | O => inr (st, g1, cal, deltax)
  | S fuel' =>
    if n_lt OP (n_zero OP) d && Nat.leb cal 500 then
      let x := v_sub OP (s_x st) (v_scale OP (s_hs st) dx) in
      let deltax := n_add OP deltax (n_mul OP (s_hs st) normdx) in
      let ncalls := S (s_ncalls st) in
      let (f, g1) := calcfg x in
      let trace := x :: s_trace st in
      let better := n_lt OP f (s_fr st) in
      let fr := if better then f else s_fr st in
      let xr := if better then x else s_xr st in
      if n_lt OP (v_norm OP g1) (tolg P) then inl (mkresult xr fr nit ncalls 2, trace)
      else
        let hs := if mod0 cal (nh P) then n_mul OP (s_hs st) (q2 P) else s_hs st in
        line_search fuel' nit dx normdx (mkstate x xr fr hs ncalls trace) g1 (v_dot OP dx g1) (S cal) deltax
    else inr (st, g1, cal, deltax)
  end.

(** vf[nsims-1] = fr; np.roll(vf, 1); vf[0] = abs(fr - vf[0]), ralgb5.py:116, 175-176. *)
Definition set_last (vf : list N) (fr : N) : list N := removelast vf ++ [fr].
Definition roll (vf : list N) : list N := match vf with [] => [] | _ => last vf (n_zero OP) :: removelast vf end.
Definition set_first (vf : list N) (fr : N) : list N := match vf with [] => [] | a :: t => n_abs OP (n_sub OP fr a) :: t end.
Definition n_sum (vf : list N) : N := fold_left (n_add OP) vf (n_zero OP).

(** The main loop, ralgb5.py:115-193. *)
Fixpoint main_loop (fuel : nat) (nit : nat) (st : state) (B : MT) (g0 : V) (vf : list N) : result * list V :=
  match fuel with
  | O => (mkresult (s_xr st) (s_fr st) nit (s_ncalls st) 4, s_trace st)
  | S fuel' =>
    if (Z.of_nat nit <=? maxiter P)%Z then
      let vf := set_last vf (s_fr st) in
      let g1 := m_tv OP B g0 in
      let dx := m_v OP B (v_div OP g1 (v_norm OP g1)) in
      let normdx := v_norm OP dx in
      match line_search 502 nit dx normdx st g1 (n_one OP) 0 (n_zero OP) with
      | inl r => r
      | inr (st, g1, cal, deltax) =>
        if Nat.ltb 500 cal then (mkresult (s_xr st) (s_fr st) nit (s_ncalls st) 5, s_trace st)
        else
          let hs := if Nat.eqb cal 1 then n_mul OP (s_hs st) (q1 P) else s_hs st in
          let st := mkstate (s_x st) (s_xr st) (s_fr st) hs (s_ncalls st) (s_trace st) in
          if n_lt OP deltax (tolx P) then (mkresult (s_xr st) (s_fr st) nit (s_ncalls st) 3, s_trace st)
          else
            let dg := m_tv OP B (v_sub OP g1 g0) in
            let xi := v_div OP dg (v_norm OP dg) in
            let w := n_sub OP (n_div OP (n_one OP) (alpha P)) (n_one OP) in
            let B := m_dilate OP B w xi in
            let vf := set_first (roll vf) (s_fr st) in
            let deltaf := if n_lt OP (n_one OP) (n_abs OP (s_fr st)) then n_div OP (n_sum vf) (n_abs OP (s_fr st)) else n_sum vf in
            if n_lt OP deltaf (tolf P) then (mkresult (s_xr st) (s_fr st) nit (s_ncalls st) 1, s_trace st)
            else main_loop fuel' (S nit) st B g1 vf
      end
    else (mkresult (s_xr st) (s_fr st) nit (s_ncalls st) 4, s_trace st)
  end.

(** ralgb5.py:96-112; [m] is len(x0). *)
Definition ralgb5 (m : nat) (x0 : V) : result * list V :=
  let vf := repeat (n_inf OP) (S (k_sims P)) in
  let (fr, g0) := calcfg x0 in
  let st := mkstate x0 x0 fr (h0 P) 1 [x0] in
  if n_lt OP (v_norm OP g0) (tolg P) then (mkresult x0 fr 0 1 2, [x0])
  else main_loop (Z.to_nat (maxiter P + 2)) 0 st (m_eye OP m) g0 vf.
End Ralgb5.

(** The operations in binary64, round to nearest; sums are taken from left to
    right (numpy may use another order; no theorem about arbitrary operations
    depends on it). (for ralgb5.py:100-193) *)
Definition l_map2 {A B C} (f : A -> B -> C) (x : list A) (y : list B) : list C := map (fun p => f (fst p) (snd p)) (combine x y).
Definition l_dot (x y : list flt) : flt := fold_left (fadd mode_NE) (l_map2 (fmul mode_NE) x y) f0.
Definition l_mv (B : list (list flt)) (x : list flt) : list flt := map (fun row => l_dot row x) B.
Definition l_tv (B : list (list flt)) (g : list flt) : list flt :=
  map (fun j => l_dot (map (fun row => nth j row f0) B) g) (seq 0 (length g)).
Definition flt_ops : ops :=
  mkops flt (list flt) (list (list flt)) flt_ltb (fadd mode_NE) (fsub mode_NE) (fmul mode_NE) (fdiv mode_NE) fabs f0 f1 finf
    (fun v => Bsqrt mode_NE (l_dot v v)) l_dot (l_map2 (fsub mode_NE)) (fun c v => map (fmul mode_NE c) v)
    (fun v c => map (fun a => fdiv mode_NE a c) v)
    (fun n => map (fun i => map (fun j => if Nat.eqb i j then f1 else f0) (seq 0 n)) (seq 0 n)) l_tv l_mv
    (fun B w xi => l_map2 (l_map2 (fadd mode_NE)) B (map (fun c => map (fun a => fmul mode_NE w (fmul mode_NE c a)) xi) (l_mv B xi))).

(** The operations over exact reals and vectors with [n] components (infinity is
    represented by a large number passed as [big]).  The two divisions are
    arguments so that it can be said that their values at 0 do not matter.
    (for ralgb5.py:100-193) *)
Open Scope R_scope.
Definition real_ops_with (n : nat) (big : R) (ndiv : R -> R -> R) (vdiv : vec -> R -> vec) : ops :=
  mkops R vec mat (fun a b => if Rlt_dec a b then true else false) Rplus Rminus Rmult ndiv Rabs 0 1 big
    (fun v => sqrt (vsum n (fun i => v i * v i)))
    (fun a b => vsum n (fun i => a i * b i))
    (fun a b i => a i - b i) (fun c v i => c * v i) vdiv
    (fun _ i j => if Nat.eq_dec i j then 1 else 0)
    (fun B g i => vsum n (fun j => B j i * g j)) (fun B g i => vsum n (fun j => B i j * g j))
    (fun B w xi i j => B i j + w * (vsum n (fun k => B i k * xi k) * xi j)).
Definition real_ops (n : nat) (big : R) : ops := real_ops_with n big Rdiv (fun v c i => v i / c).

(** Tol.maximize (Tol.py:48-58) with BaseRecFun.optimize (abstract.py:35-74) and a
    given starting point: the optimizer is run on calcfg and fr is negated.
    Without x0 the source starts at a least-squares or zero point, which is one
    of the possible values of [x0]. *)
Definition tol_maximize (k n : nat) (big : R) (P : params (real_ops n big)) (A : imat) (b : ivec) (w : vec) (x0 : vec) : vec * R :=
  let r := fst (ralgb5 (real_ops n big) P (tol_fg k n A b w) n x0) in
  (r_x _ r, - r_f _ r).
(** Uni.maximize, Uni.py:52-62 *)
Definition uni_maximize (k n : nat) (big : R) (P : params (real_ops n big)) (A : imat) (b : ivec) (w : vec) (x0 : vec) : vec * R :=
  let r := fst (ralgb5 (real_ops n big) P (uni_fg k n A b w) n x0) in
  (r_x _ r, - r_f _ r).
