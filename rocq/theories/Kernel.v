(** Model of kernel/interval_arithmetics.pyx: the interval classes
    [BaseTools], [ClassicalArithmetic], [KaucherArithmetic].
    Every definition cites the lines it models.  Operations run in the monad
    [M] so that the rounding mode and exceptions are explicit. *)
From Coq Require Import ZArith List Bool.
From Flocq Require Import Core IEEE754.BinarySingleNaN.
From Verif Require Import Base PyNum.

(** pyx:391, pyx:529 - the two concrete classes. *)
Inductive kind : Set := Classical | Kaucher.

(** pyx:62-81 - an object of one of the classes with its two endpoints.  The
    pair (_a_int/_a_double, _a_doubleQ) is the tagged value [pynum]; an object
    that is not an [int] is converted to double by the caller of the model. *)
Record itv : Type := mkitv { kd : kind; lo : pynum; hi : pynum }.

(** Right operands the modelled methods distinguish: a Python number or an
    interval object (arrays are treated elementwise in Arrays.v). (pyx:392-530) *)
Inductive operand : Type :=
| ONum (c : pynum)
| OItv (x : itv).

(** Python arithmetic in the current rounding mode. (used from pyx:392 on) *)
Definition add_ (x y : pynum) : M pynum := mprim (fun m => num_add m x y).
Definition sub_ (x y : pynum) : M pynum := mprim (fun m => num_sub m x y).
Definition mul_ (x y : pynum) : M pynum := mprim (fun m => num_mul m x y).
Definition div_ (x y : pynum) : M pynum := mprim (fun m => num_div m x y).
(** C double arithmetic in the current rounding mode. (pyx:68-187) *)
Definition dadd_ (x y : flt) : M flt := mprim (fun m => Ok (fadd m x y)).
Definition dsub_ (x y : flt) : M flt := mprim (fun m => Ok (fsub m x y)).
Definition dmul_ (x y : flt) : M flt := mprim (fun m => Ok (fmul m x y)).
(** Assignment of an object to a [cdef double_t] variable. (pyx:62-81) *)
Definition as_double (c : M pynum) : M flt := v <- c ;; mlift (to_double v).
(** [fabs(obj)]: conversion to double, then libc fabs. (pyx:142, 147 and 184) *)
Definition fabs_ (x : pynum) : M flt := d <- mlift (to_double x) ;; mret (fabs d).

(** ** BaseTools *)

(** pyx:121-124 *)
Definition wid (s : itv) : M pynum := sub_ (hi s) (lo s).
(** pyx:126-129 *)
Definition rad (s : itv) : M pynum := w <- wid s ;; mul_ (PFlt fhalf) w.
(** pyx:131-134 *)
Definition mid (s : itv) : M pynum := w <- add_ (hi s) (lo s) ;; mul_ (PFlt fhalf) w.

(** pyx:199-205; the [else] branch builds a TypeError without raising it and so
    returns None, see [contains_other]. *)
Definition contains_num (s : itv) (c : pynum) : bool := num_le (lo s) c && num_le c (hi s).
Definition contains_itv (s o : itv) : bool := num_le (lo s) (lo o) && num_le (hi o) (hi s).
Definition py_contains (s : itv) (o : operand) : bool :=
  match o with ONum c => contains_num s c | OItv y => contains_itv s y end.

(** pyx:136-142 *)
Definition mig (s : itv) : M flt :=
  if contains_num s (PInt 0) then mret f0
  else a <- fabs_ (lo s) ;; b <- fabs_ (hi s) ;; mret (flt_min2 a b).
(** pyx:144-147 *)
Definition mag (s : itv) : M flt :=
  a <- fabs_ (lo s) ;; b <- fabs_ (hi s) ;; mret (flt_max2 a b).

(** pyx:149-154 *)
Definition dual (s : itv) : itv :=
  if num_le (hi s) (lo s) then mkitv Classical (hi s) (lo s) else mkitv Kaucher (hi s) (lo s).
(** pyx:156-161 *)
Definition pro (s : itv) : itv :=
  match kd s with
  | Classical => mkitv Classical (lo s) (hi s)
  | Kaucher => mkitv Classical (num_min2 (lo s) (hi s)) (num_max2 (lo s) (hi s))
  end.
(** pyx:163-168 *)
Definition opp (s : itv) : itv :=
  if num_le (hi s) (lo s) then mkitv Classical (num_neg (lo s)) (num_neg (hi s))
  else mkitv Kaucher (num_neg (lo s)) (num_neg (hi s)).
(** pyx:170-180 *)
Definition inv (s : itv) : M itv :=
  i <- with_rounding FE_DOWNWARD (as_double (div_ pn1 (lo s))) ;;
  u <- with_rounding FE_UPWARD (as_double (div_ pn1 (hi s))) ;;
  if num_le (hi s) (lo s) then mret (mkitv Classical (PFlt i) (PFlt u))
  else mret (mkitv Kaucher (PFlt i) (PFlt u)).
(** pyx:182-187 *)
Definition khi (s : itv) : M pynum :=
  a <- fabs_ (lo s) ;; b <- fabs_ (hi s) ;;
  if flt_leb a b then div_ (lo s) (hi s) else div_ (hi s) (lo s).
(** pyx:115-119 *)
Definition copy (s : itv) : itv := mkitv (kd s) (lo s) (hi s).
(** pyx:193-194 *)
Definition neg (s : itv) : itv := mkitv (kd s) (num_neg (hi s)) (num_neg (lo s)).
(** pyx:196-197 *)
Definition abs_itv (s : itv) : M itv :=
  i <- mig s ;; u <- mag s ;; mret (mkitv (kd s) (PFlt i) (PFlt u)).

(** pyx:207-253 - comparisons with a number or an interval. *)
Definition cmp_both (r : pynum -> pynum -> bool) (s : itv) (o : operand) : bool :=
  match o with
  | ONum c => r (lo s) c && r (hi s) c
  | OItv y => r (lo s) (lo y) && r (hi s) (hi y)
  end.
Definition py_lt := cmp_both num_lt.
Definition py_le := cmp_both num_le.
Definition py_eq := cmp_both num_eq.
Definition py_gt := cmp_both num_gt.
Definition py_ge := cmp_both num_ge.
(** pyx:231-237 *)
Definition py_ne (s : itv) (o : operand) : bool :=
  match o with
  | ONum c => num_ne (lo s) c || num_ne (hi s) c
  | OItv y => num_ne (lo s) (lo y) || num_ne (hi s) (hi y)
  end.

(** The [else] branches for operands that are neither numbers nor intervals
    (an abstract value of type [T]): comparisons raise TypeError
    (pyx:213,221,229,237,245,253) whereas [in] falls through and returns None,
    which is falsy (pyx:204-205). *)
Definition cmp_other {T : Type} (_ : itv) (_ : T) : res bool := Err TypeError.
Definition contains_other {T : Type} (_ : itv) (_ : T) : res bool := Ok false.

(** ** Reflected operations with a number on the left *)

(** pyx:484-491 (Classical), pyx:641-648 (Kaucher): identical but for the
    class of the result. *)
Definition radd (s : itv) (c : pynum) : M itv :=
  i <- with_rounding FE_DOWNWARD (as_double (add_ (lo s) c)) ;;
  u <- with_rounding FE_UPWARD (as_double (add_ (hi s) c)) ;;
  mret (mkitv (kd s) (PFlt i) (PFlt u)).

(** pyx:496-503, 652-659 *)
Definition rsub (s : itv) (c : pynum) : M itv :=
  i <- with_rounding FE_DOWNWARD (as_double (sub_ c (hi s))) ;;
  u <- with_rounding FE_UPWARD (as_double (sub_ c (lo s))) ;;
  mret (mkitv (kd s) (PFlt i) (PFlt u)).

(** pyx:507-514 *)
Definition classical_rmul (s : itv) (c : pynum) : M itv :=
  i <- with_rounding FE_DOWNWARD (as_double (p <- mul_ c (lo s) ;; q <- mul_ c (hi s) ;; mret (num_min2 p q))) ;;
  u <- with_rounding FE_UPWARD (as_double (p <- mul_ c (lo s) ;; q <- mul_ c (hi s) ;; mret (num_max2 p q))) ;;
  mret (mkitv Classical (PFlt i) (PFlt u)).

(** The decomposition x = x+ - x- of an endpoint into double variables,
    e.g. pyx:427-430: [xPlus = max(x, 0.0)], [xMinus = xPlus - x]. *)
Definition plus_part (x : pynum) : M flt := mlift (to_double (num_max2 x pn0)).
Definition minus_part (p : flt) (x : pynum) : M flt := as_double (sub_ (PFlt p) x).

(** [a*b + c*d - e*f - g*h] on C doubles, e.g. pyx:438. *)
Definition sum_formula (a b c d e f g h : flt) : M flt :=
  ab <- dmul_ a b ;; cd <- dmul_ c d ;; s1 <- dadd_ ab cd ;;
  ef <- dmul_ e f ;; s2 <- dsub_ s1 ef ;;
  gh <- dmul_ g h ;; dsub_ s2 gh.
(** [max(a*b, c*d) - max(e*f, g*h)] on C doubles, e.g. pyx:569. *)
Definition max_formula (a b c d e f g h : flt) : M flt :=
  ab <- dmul_ a b ;; cd <- dmul_ c d ;;
  ef <- dmul_ e f ;; gh <- dmul_ g h ;;
  dsub_ (flt_max2 ab cd) (flt_max2 ef gh).

(** pyx:427-441 and 592-606: Kaucher product by the sum formula. *)
Definition mul_sum (x y : itv) : M itv :=
  xip <- plus_part (lo x) ;; xsp <- plus_part (hi x) ;;
  xim <- minus_part xip (lo x) ;; xsm <- minus_part xsp (hi x) ;;
  yip <- plus_part (lo y) ;; ysp <- plus_part (hi y) ;;
  yim <- minus_part yip (lo y) ;; ysm <- minus_part ysp (hi y) ;;
  i <- with_rounding FE_DOWNWARD (sum_formula xip yip xsm ysm xsp yim xim ysp) ;;
  u <- with_rounding FE_UPWARD (sum_formula xsp ysp xim yim xip ysm xsm yip) ;;
  mret (mkitv Kaucher (PFlt i) (PFlt u)).

(** pyx:558-572: Kaucher product by the max formula. *)
Definition mul_max (x y : itv) : M itv :=
  xip <- plus_part (lo x) ;; xsp <- plus_part (hi x) ;;
  xim <- minus_part xip (lo x) ;; xsm <- minus_part xsp (hi x) ;;
  yip <- plus_part (lo y) ;; ysp <- plus_part (hi y) ;;
  yim <- minus_part yip (lo y) ;; ysm <- minus_part ysp (hi y) ;;
  i <- with_rounding FE_DOWNWARD (max_formula xip yip xsm ysm xsp yim xim ysp) ;;
  u <- with_rounding FE_UPWARD (max_formula xsp ysp xim yim xip ysm xsm yip) ;;
  mret (mkitv Kaucher (PFlt i) (PFlt u)).

(** pyx:663-683 *)
Definition kaucher_rmul (s : itv) (c : pynum) : M itv :=
  xip <- plus_part (lo s) ;; xsp <- plus_part (hi s) ;;
  xim <- minus_part xip (lo s) ;; xsm <- minus_part xsp (hi s) ;;
  yip <- plus_part c ;;
  let ysp := yip in
  yim <- minus_part yip c ;; ysm <- minus_part ysp c ;;
  i <- with_rounding FE_DOWNWARD (sum_formula xip yip xsm ysm xsp yim xim ysp) ;;
  u <- with_rounding FE_UPWARD (sum_formula xsp ysp xim yim xip ysm xsm yip) ;;
  mret (mkitv Kaucher (PFlt i) (PFlt u)).

Definition rmul (s : itv) (c : pynum) : M itv :=
  match kd s with Classical => classical_rmul s c | Kaucher => kaucher_rmul s c end.

(** pyx:518-526, 687-695 *)
Definition rtruediv (s : itv) (c : pynum) : M itv :=
  if contains_num s pn0 then mraise ValueError
  else
    i <- with_rounding FE_DOWNWARD (as_double (div_ pn1 (hi s))) ;;
    u <- with_rounding FE_UPWARD (as_double (div_ pn1 (lo s))) ;;
    rmul (mkitv (kd s) (PFlt i) (PFlt u)) c.

(** ** Binary operations *)

(** pyx:392-401 and 530-539. The Classical method gives the class of [other],
    the Kaucher method always Kaucher. *)
Definition itv_add (s : itv) (other : operand) : M itv :=
  match other with
  | OItv o =>
      i <- with_rounding FE_DOWNWARD (as_double (add_ (lo s) (lo o))) ;;
      u <- with_rounding FE_UPWARD (as_double (add_ (hi s) (hi o))) ;;
      mret (mkitv (match kd s with Classical => kd o | Kaucher => Kaucher end) (PFlt i) (PFlt u))
  | ONum c => radd s c
  end.

(** pyx:403-412 and 541-550 *)
Definition itv_sub (s : itv) (other : operand) : M itv :=
  match other with
  | OItv o =>
      i <- with_rounding FE_DOWNWARD (as_double (sub_ (lo s) (hi o))) ;;
      u <- with_rounding FE_UPWARD (as_double (sub_ (hi s) (lo o))) ;;
      mret (mkitv (match kd s with Classical => kd o | Kaucher => Kaucher end) (PFlt i) (PFlt u))
  | ONum c => radd s (num_neg c)
  end.

(** The four endpoint products in the order of pyx:421/423. *)
Definition four_products (x y : itv) : M (pynum * pynum * pynum * pynum) :=
  p <- mul_ (lo x) (lo y) ;; q <- mul_ (lo x) (hi y) ;;
  r <- mul_ (hi x) (lo y) ;; t <- mul_ (hi x) (hi y) ;; mret (p, q, r, t).
Definition min_of (v : pynum * pynum * pynum * pynum) : pynum :=
  let '(p, q, r, t) := v in num_min4 p q r t.
Definition max_of (v : pynum * pynum * pynum * pynum) : pynum :=
  let '(p, q, r, t) := v in num_max4 p q r t.

(** pyx:419-424 *)
Definition mul_classical (x y : itv) : M itv :=
  i <- with_rounding FE_DOWNWARD (as_double (v <- four_products x y ;; mret (min_of v))) ;;
  u <- with_rounding FE_UPWARD (as_double (v <- four_products x y ;; mret (max_of v))) ;;
  mret (mkitv Classical (PFlt i) (PFlt u)).

(** pyx:414-444 and 552-575 *)
Definition itv_mul (s : itv) (other : operand) : M itv :=
  match other with
  | OItv o =>
      match kd s, kd o with
      | Classical, Classical => mul_classical s o
      | Classical, Kaucher => mul_sum s o
      | Kaucher, _ => mul_max s o
      end
  | ONum c => rmul s c
  end.

(** The four endpoint quotients in the order of pyx:452/454. *)
Definition four_quotients (x y : itv) : M (pynum * pynum * pynum * pynum) :=
  p <- div_ (lo x) (lo y) ;; q <- div_ (lo x) (hi y) ;;
  r <- div_ (hi x) (lo y) ;; t <- div_ (hi x) (hi y) ;; mret (p, q, r, t).

(** pyx:448-455 *)
Definition div_classical (x y : itv) : M itv :=
  i <- with_rounding FE_DOWNWARD (as_double (v <- four_quotients x y ;; mret (min_of v))) ;;
  u <- with_rounding FE_UPWARD (as_double (v <- four_quotients x y ;; mret (max_of v))) ;;
  mret (mkitv Classical (PFlt i) (PFlt u)).

(** [1.0/other.b] rounded down, [1.0/other.a] rounded up, pyx:460-463, 586-589,
    611-614. *)
Definition recip (o : itv) : M (flt * flt) :=
  i <- with_rounding FE_DOWNWARD (as_double (div_ pn1 (hi o))) ;;
  u <- with_rounding FE_UPWARD (as_double (div_ pn1 (lo o))) ;;
  mret (i, u).

(** pyx:446-467 and 577-618 *)
Definition itv_div (s : itv) (other : operand) : M itv :=
  match other with
  | OItv o =>
      if contains_num o pn0 then mraise ValueError
      else
        match kd s, kd o with
        | Classical, Classical => div_classical s o
        | Classical, Kaucher =>
            iu <- recip o ;; mul_sum s (mkitv Kaucher (PFlt (fst iu)) (PFlt (snd iu)))
        | Kaucher, Classical =>
            iu <- recip o ;; mul_sum s (mkitv Classical (PFlt (fst iu)) (PFlt (snd iu)))
        | Kaucher, Kaucher =>
            iu <- recip o ;; mul_max s (mkitv Kaucher (PFlt (fst iu)) (PFlt (snd iu)))
        end
  | ONum c =>
      (* Classical: [1.0/other * self]; Kaucher: [1/other * self] *)
      r <- div_ (match kd s with Classical => pn1 | Kaucher => PInt 1 end) c ;; rmul s r
  end.

(** ** Elementary functions; C library functions are an explicit oracle *)

(** libc functions the kernel calls, as functions of rounding mode and
    argument.  [c_pow] may also report a range error (errno). (pyx:6 and 261-350) *)
Record libm : Type := {
  c_exp : rmode -> flt -> flt;
  c_log : rmode -> flt -> flt;
  c_sin : rmode -> flt -> flt;
  c_cos : rmode -> flt -> flt;
  c_pow : rmode -> flt -> flt -> res flt
}.

Section Elementary.
Variable L : libm.

(** CPython [math.exp]: OverflowError when a finite argument gives infinity.
    (called at pyx:261-262) *)
Definition math_exp (x : pynum) : M flt :=
  d <- mlift (to_double x) ;;
  mprim (fun m => let r := c_exp L m d in
    if negb (is_nan r) && negb (is_finite r) && is_finite d then Err OverflowError
    else if is_nan r && negb (is_nan d) then Err ValueError
    else Ok r).

(** CPython [math.log] of a positive number; ValueError for arguments <= 0.
    (Ints too large for a double take a different route in CPython; the model
    raises OverflowError for them.) (called at pyx:274-282) *)
Definition math_log (x : pynum) : M flt :=
  if num_le x (PInt 0) then mraise ValueError
  else d <- mlift (to_double x) ;; mprim (fun m => Ok (c_log L m d)).

Definition math_trig (f : rmode -> flt -> flt) (x : pynum) : M flt :=
  d <- mlift (to_double x) ;;
  mprim (fun m => let r := f m d in
    if is_nan r && negb (is_nan d) then Err ValueError else Ok r).
Definition math_sin := math_trig (c_sin L).
Definition math_cos := math_trig (c_cos L).

(** pyx:258-265 *)
Definition itv_exp (s : itv) : M itv :=
  fun m =>
    match (i <- math_exp (lo s) ;; u <- math_exp (hi s) ;;
           mret (mkitv (kd s) (PFlt (round_down i)) (PFlt (round_up u)))) m with
    | (Err OverflowError, m1) => (Ok (mkitv (kd s) (PFlt finf) (PFlt finf)), m1)
    | r => r
    end.

(** [NEGINF if v == 0.0 else math.log(v)], pyx:274,276,280,282 *)
Definition log_or_neginf (v : pynum) : M flt :=
  if num_eq v pn0 then mret fninf else math_log v.

(** pyx:267-285 *)
Definition itv_log (s : itv) : M itv :=
  let p := pro s in
  let mx := num_max2 (lo p) pn0 in
  let mn := hi p in
  if num_le mx mn then
    if num_le (lo s) (hi s) then
      i <- with_rounding FE_DOWNWARD (log_or_neginf mx) ;;
      u <- with_rounding FE_UPWARD (log_or_neginf mn) ;;
      mret (mkitv (kd s) (PFlt i) (PFlt u))
    else
      u <- with_rounding FE_DOWNWARD (log_or_neginf mn) ;;
      i <- with_rounding FE_UPWARD (log_or_neginf mx) ;;
      mret (mkitv (kd s) (PFlt u) (PFlt i))
  else mret (mkitv (kd s) (PFlt fnan) (PFlt fnan)).

(** pyx:22: the double nearest to pi; [PI/2] and [2*PI] are exact. *)
Definition PI_flt : flt := fl 7074237752028440 (-51).
Definition PI_half : flt := fl 7074237752028440 (-52).
Definition PI_two : flt := fl 7074237752028440 (-50).

(** libc ceil / floor (called at pyx:295-350) *)
Definition c_ceil (x : flt) : flt := Bnearbyint mode_UP x.
Definition c_floor (x : flt) : flt := Bnearbyint mode_DN x.

(** [ceil((xa + sh) / (2*PI)) <= floor((xb + sh) / (2*PI))] where the shift is
    added or subtracted, e.g. pyx:295; [None] stands for the unshifted test of
    pyx:334. *)
Definition shift_div (sh : M pynum) : M flt := t <- sh ;; as_double (div_ t (PFlt PI_two)).
Definition extremum_test (sa sb : M pynum) : M bool :=
  p <- shift_div sa ;; q <- shift_div sb ;; mret (flt_leb (c_ceil p) (c_floor q)).

(** The common shape of pyx:288-318 (sin) and pyx:321-351 (cos): [fi], [fs]
    are the function values at the ends of pro(self), [tmin]/[tmax] the tests
    for an interior minimum/maximum. *)
Definition trig_range (s : itv) (fi fs : flt) (tmin tmax : M bool) : M itv :=
  let minv := flt_min2 fi fs in
  let maxv := flt_max2 fi fs in
  if num_le (lo s) (hi s) then
    i <- with_rounding FE_DOWNWARD (t <- tmin ;; mret (if t then fneg f1 else round_down minv)) ;;
    u <- with_rounding FE_UPWARD (t <- tmax ;; mret (if t then f1 else round_up maxv)) ;;
    mret (mkitv (kd s) (PFlt i) (PFlt u))
  else
    u <- with_rounding FE_DOWNWARD (t <- tmax ;; mret (if t then f1 else round_down maxv)) ;;
    i <- with_rounding FE_UPWARD (t <- tmin ;; mret (if t then fneg f1 else round_up minv)) ;;
    mret (mkitv (kd s) (PFlt u) (PFlt i)).

(** pyx:288-318 *)
Definition itv_sin (s : itv) : M itv :=
  let x := pro s in
  fi <- math_sin (lo x) ;; fs <- math_sin (hi x) ;;
  trig_range s fi fs
    (extremum_test (add_ (lo x) (PFlt PI_half)) (add_ (hi x) (PFlt PI_half)))
    (extremum_test (sub_ (lo x) (PFlt PI_half)) (sub_ (hi x) (PFlt PI_half))).

(** pyx:321-351 *)
Definition itv_cos (s : itv) : M itv :=
  let x := pro s in
  fi <- math_cos (lo x) ;; fs <- math_cos (hi x) ;;
  trig_range s fi fs
    (extremum_test (sub_ (lo x) (PFlt PI_flt)) (sub_ (hi x) (PFlt PI_flt)))
    (extremum_test (mret (lo x)) (mret (hi x))).

(** pyx:255-256: np.exp(0.5 * np.log(self)) *)
Definition itv_sqrt (s : itv) : M itv :=
  l <- itv_log s ;; h <- rmul l (PFlt fhalf) ;; itv_exp h.

(** CPython float ** int (float_pow) for a natural exponent: exponent 0 gives
    1.0; NaN and infinities and zero are handled before the C call; a negative
    base is replaced by its absolute value and the C result is negated when the
    exponent is odd. (for pyx:472-474 and 624-626) *)
Definition float_pow (m : rmode) (x : flt) (n : Z) : res flt :=
  w <~ int_to_double n ;;
  if (n =? 0)%Z then Ok f1
  else match x with
  | B754_nan => Ok x
  | B754_infinity s => Ok (if Z.odd n then x else finf)
  | B754_zero s => Ok (if Z.odd n then x else f0)
  | B754_finite s _ _ _ =>
      r <~ c_pow L m (fabs x) w ;;
      Ok (if s && Z.odd n then fneg r else r)
  end.

(** [x ** n] for [n >= 0]. (for pyx:472-474 and 624-626) *)
Definition num_pow (m : rmode) (x : pynum) (n : Z) : res pynum :=
  match x with
  | PInt z => Ok (PInt (z ^ n))
  | PFlt f => r <~ float_pow m f n ;; Ok (PFlt r)
  end.
Definition pow_ (x : pynum) (n : Z) : M pynum := mprim (fun m => num_pow m x n).

(** pyx:469-482.  [n] is the exponent; an int exponent >= 0 takes the first
    branch, anything else needs [self >= 0].  The endpoint variables are not
    typed, so integer powers stay ints. *)
Definition classical_pow (s : itv) (e : pynum) : M itv :=
  let general :=
    if py_ge s (ONum (PInt 0)) then l <- itv_log s ;; h <- rmul l e ;; itv_exp h
    else mraise ValueError in
  match e with
  | PInt n =>
      if (0 <=? n)%Z then
        i <- with_rounding FE_DOWNWARD (p <- pow_ (lo s) n ;; q <- pow_ (hi s) n ;; mret (num_min2 p q)) ;;
        u <- with_rounding FE_UPWARD (p <- pow_ (lo s) n ;; q <- pow_ (hi s) n ;; mret (num_max2 p q)) ;;
        if Z.even n && contains_num s (PInt 0) then mret (mkitv Classical pn0 u)
        else mret (mkitv Classical i u)
      else general
  | PFlt _ => general
  end.

(** pyx:620-639 *)
Definition kaucher_pow (s : itv) (e : pynum) : M itv :=
  let general :=
    if py_ge s (ONum (PInt 0)) then l <- itv_log s ;; h <- rmul l e ;; itv_exp h
    else mraise ValueError in
  match e with
  | PInt n =>
      if (0 <=? n)%Z then
        i <- with_rounding FE_DOWNWARD (as_double (pow_ (lo s) n)) ;;
        u <- with_rounding FE_UPWARD (as_double (pow_ (hi s) n)) ;;
        if Z.even n && contains_num s (PInt 0) then mret (mkitv Classical pn0 (PFlt (flt_max2 i u)))
        else if Z.even n && contains_num (pro s) (PInt 0) then mret (mkitv Kaucher (PFlt (flt_max2 i u)) pn0)
        else if flt_ltb u i then mret (mkitv Kaucher (PFlt i) (PFlt u))
        else mret (mkitv Classical (PFlt i) (PFlt u))
      else general
  | PFlt _ => general
  end.

Definition itv_pow (s : itv) (e : pynum) : M itv :=
  match kd s with Classical => classical_pow s e | Kaucher => kaucher_pow s e end.

(** ** numpy ufunc entry point, pyx:354-388 *)
Inductive ufunc : Set :=
| U_add | U_subtract | U_multiply | U_divide | U_sqrt | U_exp | U_log | U_sin | U_cos | U_other.

(** [__radd__]/[__rmul__] given an interval as [other]: not a Number, so
    [np.vectorize(lambda o: o + self)(other)] (pyx:492-494, 515-516) applied to
    a 0-d object, i.e. [o + self]. *)
Definition radd_any (s : itv) (other : operand) : M itv :=
  match other with ONum c => radd s c | OItv o => itv_add o (OItv s) end.
Definition rmul_any (s : itv) (other : operand) : M itv :=
  match other with ONum c => rmul s c | OItv o => itv_mul o (OItv s) end.

(** [arg2] is [args[2]], the first input of the ufunc, which is [self] itself
    when the interval is the first input. (pyx:354-388) *)
Definition array_ufunc (s : itv) (u : ufunc) (arg2 : operand) : M itv :=
  match u with
  | U_add => radd_any s arg2
  | U_subtract => radd_any (mkitv (kd s) (num_neg (hi s)) (num_neg (lo s))) arg2
  | U_multiply => rmul_any s arg2
  | U_divide =>
      i <- with_rounding FE_DOWNWARD (as_double (div_ (PInt 1) (hi s))) ;;
      v <- with_rounding FE_UPWARD (as_double (div_ (PInt 1) (lo s))) ;;
      rmul_any (mkitv (kd s) (PFlt i) (PFlt v)) arg2
  | U_sqrt => itv_sqrt s
  | U_exp => itv_exp s
  | U_log => itv_log s
  | U_sin => itv_sin s
  | U_cos => itv_cos s
  | U_other => mraise NotImplementedError
  end.
End Elementary.

(** ** Python-level dispatch *)

(** A numpy ufunc called with inputs [x], [y]: numpy calls
    [__array_ufunc__(ufunc, '__call__', x, y)] of the first input that defines
    it, so [args[2]] is always [x]. (pyx:354-388) *)
Definition np_binary (L : libm) (u : ufunc) (x y : operand) : M itv :=
  match x, y with
  | OItv s, _ => array_ufunc L s u x
  | ONum _, OItv s => array_ufunc L s u x
  | ONum _, ONum _ => mraise TypeError (* no interval involved: not modelled *)
  end.

(** Python binary operators with at least one interval operand.
    (dispatch to pyx:392-527 and 530-695) *)
Definition py_add (x y : operand) : M itv :=
  match x, y with
  | OItv s, _ => itv_add s y
  | ONum c, OItv s => radd s c
  | ONum _, ONum _ => mraise TypeError
  end.
Definition py_sub (x y : operand) : M itv :=
  match x, y with
  | OItv s, _ => itv_sub s y
  | ONum c, OItv s => rsub s c
  | ONum _, ONum _ => mraise TypeError
  end.
Definition py_mul (x y : operand) : M itv :=
  match x, y with
  | OItv s, _ => itv_mul s y
  | ONum c, OItv s => rmul s c
  | ONum _, ONum _ => mraise TypeError
  end.
Definition py_div (x y : operand) : M itv :=
  match x, y with
  | OItv s, _ => itv_div s y
  | ONum c, OItv s => rtruediv s c
  | ONum _, ONum _ => mraise TypeError
  end.
