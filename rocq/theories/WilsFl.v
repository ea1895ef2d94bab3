(** WILS.fit and WILS.predict in binary64. *)
From Coq Require Import ZArith List Bool Arith.
From Flocq Require Import Core IEEE754.BinarySingleNaN.
From Verif Require Models.
From Verif Require Import Base PyNum Kernel Expr Arrays Construct UssFl Ralgb5 RecogOpt RecogOptCon.
Import ListNotations.

Section Fit.
(** [A @ x] of numpy, [C[i] @ x] and [np.sum]: numpy may evaluate them in any order. *)
Variables (fdot : list (flt * flt) -> flt) (cdot : list flt -> list flt -> flt) (csum : list flt -> flt).
(** The two parameters of the class, as doubles (WILS.py:9-15) *)
Variables (alpha beta : flt).
(** WILS.py:114, one entry: [prev] is the new entry before it *)
Definition smooth_step (prev w : flt) : flt :=
  fmul mode_NE beta (fadd mode_NE (fmul mode_NE w (fsub mode_NE f1 alpha)) (fmul mode_NE alpha prev)).
(** WILS.py:113-114 *)
Fixpoint smooth_rest (prev : flt) (l : list flt) : list flt :=
  match l with [] => [] | w :: l' => let v := smooth_step prev w in v :: smooth_rest v l' end.
(** WILS.py:112-114, an array of doubles with one entry for each row of the data *)
Definition smooth_fl (weight : list flt) : res (list flt) :=
  match weight with
  | [] => Err IndexError
  | w :: l => let v := fmul mode_NE (fmul mode_NE beta w) (fsub mode_NE f1 alpha) in Ok (v :: smooth_rest v l)
  end.

Variables (o : Models.objective) (nm : Models.norm).
(** The residuals: WILS.py:34-42 (Uni), 55-57 (Uss), 68-72 (Tol) *)
Definition residual_fl (X y : aitv) (w x : arr pynum) : M (arr pynum) :=
  match o with
  | Models.OTol => tol_calc fdot X y x w
  | Models.OUni => uni_calc fdot X y x w
  | Models.OUss => uss_calc fdot X y x w
  end.
(** The vector [diff] of one row: WILS.py:46-50, 61-62, 76-80 *)
Definition diff_fl (X y : aitv) (w : arr pynum) (mc : nat) (x : list flt) : M (list flt) :=
  match o with
  | Models.OTol => ends_grad fdot true X y w mc x
  | Models.OUni => ends_grad fdot false X y w mc x
  | Models.OUss => uss_grad fdot X y w mc x
  end.
(** WILS.py:18-27 *)
Definition wrap_norm_fl (T : arr pynum) : res (flt * list nat) :=
  match nm with
  | Models.NInf => mc <~ np_argmin T ;;
      t <~ (match nth_error (adata T) mc with Some v => to_double v | None => Err IndexError end) ;; Ok (t, [mc])
  | Models.NL1 => l <~ res_map to_double (adata T) ;; Ok (csum l, seq 0 (length l))
  end.
(** WILS.py:45-51, 60-63, 75-81 *)
Fixpoint sum_diffs (diff : nat -> M (list flt)) (acc : list flt) (mcs : list nat) : M (list flt) :=
  match mcs with [] => mret acc | mc :: l => d <- diff mc ;; sum_diffs diff (l_map2 (fadd mode_NE) acc d) l end.
(** WILS.py:31-82 and 118-126.  Where the source raises an exception this
    returns NaN. *)
Definition wils_calc_fl (X y : aitv) (w : arr pynum) (x : list flt) : flt * list flt :=
  match fst ((T <- residual_fl X y w (mkarr [length x] (map PFlt x)) ;; p <- mlift (wrap_norm_fl T) ;;
              s <- sum_diffs (fun mc => diff_fl X y w mc x) (repeat f0 (length x)) (snd p) ;; mret (fst p, s)) mode_NE) with
  | Ok (t, g) => (fneg t, map fneg g)
  | Err _ => (fnan, [])
  end.
(** A LinearConstraint with its mu, if there is one *)
Variable constraint : option (flt * list (list flt * flt)).
(** WILS.py:118-133 *)
Definition wils_objective (X y : aitv) (w : arr pynum) (x : list flt) : flt * list flt :=
  let (f, g) := wils_calc_fl X y w x in
  match constraint with
  | None => (fadd mode_NE f f0, map (fun a => fadd mode_NE a f0) g)
  | Some (mu, rows) => let (p, dp) := penalty_fl cdot csum mu rows x in (fadd mode_NE f p, l_map2 (fadd mode_NE) g dp)
  end.
(** WILS.py:85-143 from the starting point [x0], which may be any point: xr, fr
    and the smoothed weights.  Midpoints and radii are taken at every call, in
    the source once. *)
Definition wils_fit_fl (W : vops) (P : params (ops_of W)) (X y : aitv) (weight : list flt) (x0 : list flt) : res (list flt * flt * list flt) :=
  match shp X, shp y with
  | [n; _], [k] =>
      if negb (n =? k) then Err AssertionError else
      w <~ smooth_fl weight ;;
      let r := fst (ralgb5 (ops_of W) P (wils_objective X y (mkarr [length w] (map PFlt w))) (length x0) x0) in
      Ok (r_x _ r, fneg (r_f _ r), w)
  | _, _ => Err ValueError
  end.
End Fit.
(** WILS.py:109-110 *)
Definition default_weight (n : nat) : list flt := repeat f1 n.
(** WILS.py:146-147 *)
Definition wils_predict_fl (X : aitv) (xr : list flt) : M (arr operand) :=
  matmul (op_arr X) (mkarr [length xr] (map (fun a => ONum (PFlt a)) xr)).
