(** Model of linear/PPS.py over exact reals, for [n] equations and [n] unknowns.
    The external estimates [HBR(Q, r)] (PPS.py:82, 185), the interval inverses
    computed column by column with Gauss (PPS.py:166-171, 369-373) and
    [np.linalg.solve], [np.linalg.det] are arguments; [None] is an exception they
    raise.  The entries of W, s and t are the numbers -1, 0, 1, kept as integers;
    quotients of such numbers are exact, and a divisor is never 0. *)
From Coq Require Import Reals List Arith Bool ZArith.
From Verif Require Import Exact Estim Pss.
Import ListNotations.
Open Scope R_scope.

Definition smat := nat -> nat -> Z.
Definition svec := nat -> Z.
Definition upd2 {A : Type} (M : nat -> nat -> A) (i j : nat) (a : A) : nat -> nat -> A := fun i' j' => if ((i' =? i) && (j' =? j))%nat%bool then a else M i' j'.
Definition upd1 {A : Type} (v : nat -> A) (i : nat) (a : A) : nat -> A := fun i' => if (i' =? i)%nat then a else v i'.

(** PPSLstEl, PPS.py:66-75 *)
Record pitem : Type := mkp { pg : R; pQ : imat; pr : ivec; pY : imat; px : ivec; pW : smat; ps : svec; pt : svec }.

(** How a run ends: with a value, with an exception of HBR, Gauss, solve or of an
    assertion, with NameError (PPS.py:333: [rt] is not defined), with
    UnboundLocalError (PPS.py:353: [ocenka] was never assigned), or not at all
    (the loop of PPS.py:90). *)
Inductive pres (A : Type) : Type := POk (a : A) | PRaise | PNameError | PUnbound | PHang.
Arguments POk {A} a. Arguments PRaise {A}. Arguments PNameError {A}. Arguments PUnbound {A}. Arguments PHang {A}.
Definition pbind {A B : Type} (x : pres A) (f : A -> pres B) : pres B :=
  match x with POk a => f a | PRaise => PRaise | PNameError => PNameError | PUnbound => PUnbound | PHang => PHang end.
Definition por {A : Type} (x : option A) : pres A := match x with Some a => POk a | None => PRaise end.

(** ** The propagation of signs, PPS.py:90-159 *)
Record signs : Type := mksg { gW : smat; gs : svec; gt : svec; gOm : list (nat * nat); gK : list nat; gLa : list nat; gc : bool }.
Definition nonzero (n : nat) (v : svec) : list nat := filter (fun j => negb (v j =? 0)%Z) (seq 0 n).
(** [if W[i, j] != a: Wc = True; Omega.append([i, j])] and [W[i, j] = a] (PPS.py:98-154) *)
Definition setW (i j : nat) (a : Z) (g : signs) : signs :=
  let c := negb (gW g i j =? a)%Z in
  mksg (upd2 (gW g) i j a) (gs g) (gt g) (if c then gOm g ++ [(i, j)] else gOm g) (gK g) (gLa g) (gc g || c).
Definition sets (i : nat) (a : Z) (g : signs) : signs :=
  let c := negb (gs g i =? a)%Z in
  mksg (gW g) (upd1 (gs g) i a) (gt g) (gOm g) (if c then gK g ++ [i] else gK g) (gLa g) (gc g || c).
Definition sett (j : nat) (a : Z) (g : signs) : signs :=
  let c := negb (gt g j =? a)%Z in
  mksg (gW g) (gs g) (upd1 (gt g) j a) (gOm g) (gK g) (if c then gLa g ++ [j] else gLa g) (gc g || c).
Definition unflag (g : signs) : signs := mksg (gW g) (gs g) (gt g) (gOm g) (gK g) (gLa g) false.
(** PPS.py:96-104, 106-114 *)
Definition w_by_s (n : nat) (g : signs) : signs :=
  fold_left (fun g p => setW (fst p) (snd p) (gs g (fst p) * gt g (snd p))%Z g) (list_prod (gK g) (nonzero n (gt g))) g.
Definition w_by_t (n : nat) (g : signs) : signs :=
  fold_left (fun g p => setW (snd p) (fst p) (gs g (snd p) * gt g (fst p))%Z g) (list_prod (gLa g) (nonzero n (gs g))) g.
(** PPS.py:117-124, 126-134 *)
Definition s_by_W (g : signs) : signs :=
  fold_left (fun g p => if (gt g (snd p) =? 0)%Z then g else sets (fst p) (Z.quot (gW g (fst p) (snd p)) (gt g (snd p))) g) (gOm g) g.
Definition s_by_t (n : nat) (g : signs) : signs :=
  fold_left (fun g p => if ((gs g (snd p) =? 0) && negb (gW g (snd p) (fst p) =? 0))%Z%bool
                        then sets (snd p) (Z.quot (gW g (snd p) (fst p)) (gt g (fst p))) g else g)
    (list_prod (gLa g) (seq 0 n)) g.
(** PPS.py:137-144, 146-154 *)
Definition t_by_W (g : signs) : signs :=
  fold_left (fun g p => if (gs g (fst p) =? 0)%Z then g else sett (snd p) (Z.quot (gW g (fst p) (snd p)) (gs g (fst p))) g) (gOm g) g.
Definition t_by_s (n : nat) (g : signs) : signs :=
  fold_left (fun g p => if ((gt g (snd p) =? 0) && negb (gW g (fst p) (snd p) =? 0))%Z%bool
                        then sett (snd p) (Z.quot (gW g (fst p) (snd p)) (gs g (fst p))) g else g)
    (list_prod (gK g) (seq 0 n)) g.
(** PPS.py:90-159; [fuel] bounds the passes the model follows *)
Fixpoint propagate (fuel n : nat) (Wch sch tch : bool) (g : signs) : option signs :=
  if Wch || sch || tch then
    match fuel with
    | O => None
    | S f =>
        let g := unflag g in
        let g := if sch then w_by_s n g else g in
        let g := if tch then w_by_t n g else g in
        let Wc := gc g in let g := unflag g in
        let g := if Wch then s_by_W g else g in
        let g := if tch then s_by_t n g else g in
        let sc := gc g in let g := unflag g in
        let g := if Wch then t_by_W g else g in
        let g := if sch then t_by_s n g else g in
        let tc := gc g in
        propagate f n Wc sc tc g
    end
  else Some g.

(** ** The monotony test, PPS.py:200-212 *)
Definition ge0 (x : rit) : bool := if Rle_dec 0 (rl x) then if Rle_dec 0 (rh x) then true else false else false.
Definition le0 (x : rit) : bool := if Rle_dec (rl x) 0 then if Rle_dec (rh x) 0 then true else false else false.
(** dQ, PPS.py:200 *)
Definition deriv (nu : nat) (Y : imat) (x : ivec) : imat := fun i j => r_neg (r_mul (Y nu i) (x j)).
(** One entry: [v] the value assigned when dQ >= 0 and [v'] when dQ <= 0 (the
    second assignment comes last and reads the entry as the first one left it) (PPS.py:198-245) *)
Definition mono_entry (d q : rit) : rit :=
  let q := if ge0 d then r_point (rl q) else q in if le0 d then r_point (rh q) else q.
Definition mono_sign (d : rit) (v v' w : Z) : Z :=
  let w := if ge0 d then v else w in if le0 d then v' else w.
Definition monotony (nu : nat) (p : pitem) : pitem :=
  let d := deriv nu (pY p) (px p) in
  mkp (pg p) (fun i j => mono_entry (d i j) (pQ p i j)) (fun i => mono_entry (pY p nu i) (pr p i)) (pY p) (px p)
      (fun i j => mono_sign (d i j) 1%Z (-1)%Z (pW p i j)) (fun i => mono_sign (pY p nu i) (-1)%Z 1%Z (ps p i)) (pt p).

(** ** The entry to split, PPS.py:217-223: the first largest one *)
Fixpoint argmax (k : nat) (f : nat -> R) : nat :=
  match k with O => O | S j => if Rlt_dec (f (argmax j f)) (f (S j)) then S j else argmax j f end.
Definition mat_size (nu : nat) (p : pitem) (i j : nat) : R := r_mag (deriv nu (pY p) (px p) i j) * wid (pQ p i j).
Definition vec_size (nu : nat) (p : pitem) (i : nat) : R := r_mag (pY p nu i) * wid (pr p i).
Definition mat_arg (n : nat) (f : nat -> nat -> R) : nat * nat :=
  let k := argmax (n * n - 1) (fun k => f (k / n)%nat (k mod n)%nat) in (k / n, k mod n)%nat.
Definition vec_arg (n : nat) (f : nat -> R) : nat := argmax (n - 1) f.

(** ** Refining W, PPS.py:228-237: the first submatrix found *)
Definition refines (W : smat) (im jm : nat) (kl : nat * nat) : bool :=
  let (k, l) := kl in
  negb ((k =? im) && (l =? jm))%nat && negb (W k l =? 0)%Z && negb (W k jm =? 0)%Z && negb (W im l =? 0)%Z.
Definition refine (n im jm : nat) (W : smat) : smat :=
  match find (refines W im jm) (list_prod (seq 0 n) (seq 0 n)) with
  | Some (k, l) => upd2 W im jm (W k l * W k jm * W im l)%Z
  | None => W
  end.

(** ** bisect_left and insert, PPS.py:176-178 *)
Fixpoint bisect (fuel : nat) (l : list R) (x : R) (lo hi : nat) : nat :=
  match fuel with
  | O => lo
  | S f => if (lo <? hi)%nat then
             let mid := ((lo + hi) / 2)%nat in
             if Rlt_dec (nth mid l 0) x then bisect f l x (S mid) hi else bisect f l x lo mid
           else lo
  end.
Fixpoint insert_at {A : Type} (k : nat) (x : A) (l : list A) : list A :=
  match k, l with O, _ => x :: l | S k', [] => [x] | S k', y :: l' => y :: insert_at k' x l' end.
Definition insert_item (x : pitem) (L : list pitem) : list pitem :=
  let k := bisect (length L) (map pg L) (pg x) 0 (length L) in
  insert_at (if (0 <? k)%nat then k else 1%nat) x L.

(** A float that may be [inf] (PPS.py:187, 193 and 196) *)
Definition lt_inf (x : R) (y : option R) : bool := match y with None => true | Some y => if Rlt_dec x y then true else false end.

Section Algo.
(** [hbr], [inverse], [solve]: what HBR, the columns of Gauss and
    np.linalg.solve return; [hang]: passes of the loop of PPS.py:90 that the model
    follows before it gives up *)
Variables (hbr : imat -> ivec -> option ivec) (inverse : imat -> option imat) (solve : mat -> vec -> option vec).
Variables (n nu : nat) (tol : R) (hang : nat).

(** The lists L and Lk (PPS.py:188-192) *)
Definition lists : Type := (list pitem * list pitem)%type.
(** split, PPS.py:80-182.  [Y0]: the inverse held by L[0]; [cst]: cstL. *)
Definition split (ind fl : bool) (Q : imat) (r : ivec) (Y0 : imat) (g : signs) (Wch sch : bool)
  (omega cst : option R) (LL : lists) : pres (lists * vec) :=
  pbind (por (hbr Q r)) (fun vx =>
  pbind (por (solve (mids Q) (fun i => r_mid (r i)))) (fun Mn =>
  let gamma := rl (vx nu) in
  pbind (if lt_inf gamma omega && ind then match propagate hang n Wch sch false g with Some g' => POk g' | None => PHang end else POk g) (fun g =>
  if lt_inf gamma omega then
    pbind (if fl then por (inverse Q) else POk Y0) (fun Y =>
    let new := mkp gamma Q r Y vx (gW g) (gs g) (gt g) in
    let (L, Lk) := LL in
    POk ((if lt_inf gamma cst then (insert_item new L, Lk) else (L, Lk ++ [new])), Mn))
  else POk (LL, Mn)))).

Definition start (W : smat) (s t : svec) (Om : list (nat * nat)) (K : list nat) : signs := mksg W s t Om K [] false.
Definition vnu (v : vec) : R := v nu.
(** PPS.py:196-316: one element is removed from L, its descendants are added; the
    second component is mu *)
Definition descend (p : pitem) (omega cst : option R) (LL : lists) : pres (lists * R) :=
  let p := monotony nu p in
  let (im1, jm1) := mat_arg n (mat_size nu p) in
  let z1 := mat_size nu p im1 jm1 in
  let im2 := vec_arg n (vec_size nu p) in
  let z2 := vec_size nu p im2 in
  let W := refine n im1 jm1 (pW p) in
  let LL := (p :: fst LL, snd LL) in
  if Rlt_dec z2 z1 then
    let q := pQ p im1 jm1 in
    let lower := upd2 (pQ p) im1 jm1 (r_point (rl q)) in
    let upper := upd2 (pQ p) im1 jm1 (r_point (rh q)) in
    if (W im1 jm1 =? 0)%Z then
      pbind (split true true lower (pr p) (pY p) (start (upd2 W im1 jm1 1%Z) (ps p) (pt p) [(im1, jm1)] []) true false omega cst LL) (fun r1 =>
      pbind (split true true upper (pr p) (pY p) (start (upd2 W im1 jm1 (-1)%Z) (ps p) (pt p) [(im1, jm1)] []) true false omega cst (fst r1)) (fun r2 =>
      POk (fst r2, Rmin (vnu (snd r1)) (vnu (snd r2)))))
    else if (W im1 jm1 =? 1)%Z then
      pbind (split false true lower (pr p) (pY p) (start W (ps p) (pt p) [] []) false false omega cst LL) (fun r1 => POk (fst r1, vnu (snd r1)))
    else
      pbind (split false true upper (pr p) (pY p) (start W (ps p) (pt p) [] []) false false omega cst LL) (fun r1 => POk (fst r1, vnu (snd r1)))
  else
    let q := pr p im2 in
    let lower := upd1 (pr p) im2 (r_point (rl q)) in
    let upper := upd1 (pr p) im2 (r_point (rh q)) in
    if (ps p im2 =? 0)%Z then
      pbind (split true false (pQ p) lower (pY p) (start W (upd1 (ps p) im2 (-1)%Z) (pt p) [] [im2]) false true omega cst LL) (fun r1 =>
      pbind (split true false (pQ p) upper (pY p) (start W (upd1 (ps p) im2 1%Z) (pt p) [] [im2]) false true omega cst (fst r1)) (fun r2 =>
      POk (fst r2, Rmin (vnu (snd r1)) (vnu (snd r2)))))
    else if (ps p im2 =? 1)%Z then
      pbind (split false false (pQ p) upper (pY p) (start W (ps p) (pt p) [] []) false false omega cst LL) (fun r1 => POk (fst r1, vnu (snd r1)))
    else
      pbind (split false false (pQ p) lower (pY p) (start W (ps p) (pt p) [] []) false false omega cst LL) (fun r1 => POk (fst r1, vnu (snd r1))).

(** exactQ, PPS.py:195, 350 *)
Definition exact_mat (Q : imat) : bool :=
  forallb (fun ij => if Req_EM_T (r_rad (Q (fst ij) (snd ij))) 0 then true else false) (list_prod (seq 0 n) (seq 0 n)).
(** [abs(omega - gamma) > tol] (PPS.py:196) *)
Definition far (omega : option R) (gamma : R) : bool := match omega with None => true | Some w => if Rlt_dec tol (Rabs (w - gamma)) then true else false end.
Definition lower_mu (omega : option R) (mu : R) : option R := match omega with None => Some mu | Some w => Some (if Rlt_dec mu w then mu else w) end.
Definition not_above (omega : option R) (p : pitem) : bool := match omega with None => true | Some w => if Rle_dec (pg p) w then true else false end.
Definition result (ocenka : option R) : pres R := match ocenka with Some x => POk x | None => PUnbound end.
(** The loop of PPS.py:196-353; [fuel] bounds the iterations left *)
Fixpoint pps_loop (fuel : nat) (LL : lists) (omega cst ocenka : option R) : pres R :=
  match fst LL with
  | [] => PRaise
  | p :: rest =>
      if exact_mat (pQ p) then result ocenka
      else if far omega (pg p) then
        match fuel with
        | O => result ocenka
        | S f =>
            pbind (descend p omega cst (rest, snd LL)) (fun r =>
            let (L, Lk) := fst r in
            let L := tl L in
            let omega := lower_mu omega (snd r) in
            (** PPS.py:324-339: [rt] is read as soon as Lk keeps an element *)
            match L, filter (not_above omega) Lk with
            | [], _ :: _ => PNameError
            | _, _ =>
                let Lk := match L with [] => filter (not_above omega) Lk | _ :: _ => Lk end in
                let L := match Lk with [] => filter (not_above omega) L | _ :: _ => L end in
                match L, Lk with
                | [], [] => result omega
                | [], _ => PRaise
                | p' :: _, _ => pps_loop f (L, Lk) omega cst (Some (pg p'))
                end
            end)
        end
      else result ocenka
  end.
(** algo, PPS.py:185-197: [inv_A] is invA *)
Definition pps_algo (A : imat) (b : ivec) (inv_A : imat) (maxiter : Z) : pres R :=
  pbind (por (hbr A b)) (fun vx =>
  pps_loop (Z.to_nat (maxiter + 1)) ([mkp (rl (vx nu)) A b inv_A vx (fun _ _ => 0%Z) (fun _ => 0%Z) (fun _ => 0%Z)], []) None None None).
End Algo.

(** PPS, PPS.py:356-395, component [nu] of the result *)
Definition pps (hbr : imat -> ivec -> option ivec) (inverse : imat -> option imat) (solve : mat -> vec -> option vec) (det : mat -> R)
  (hang n : nat) (A : imat) (b : ivec) (tol : R) (maxiter : Z) (nu : nat) : pres rit :=
  if Req_EM_T (det (mids A)) 0 then PRaise
  else
    pbind (por (inverse A)) (fun inv_A =>
    pbind (pps_algo hbr inverse solve n nu tol hang A b inv_A maxiter) (fun lo =>
    pbind (pps_algo hbr inverse solve n nu tol hang A (fun i => r_neg (b i)) inv_A maxiter) (fun hi =>
    POk (mkr lo (- hi))))).
