(** A check of the model against the library itself.  /repo contains a test
    suite (test/unittests_ITF1788) together with the log of a run of it on this
    code (test_results.txt: passed, failed with the value computed, or raised).
    Here the model is run on the same inputs; these are tests, not proofs.
    The lists below are generated by /verif/tools/mkrecorded.py. *)
From Coq Require Import ZArith List Bool.
From Flocq Require Import IEEE754.BinarySingleNaN.
From Verif Require Import Base PyNum Kernel Construct.
Import ListNotations.
Open Scope Z_scope.

Definition F (m e : Z) : pynum := PFlt (fl m e).
Definition Z0 : pynum := PFlt f0.
Definition NZ0 : pynum := PFlt (fneg f0).
Definition NaN : pynum := PFlt fnan.
Definition Inf : pynum := PFlt finf.
Definition NInf : pynum := PFlt fninf.
(** [Interval(l, r)] *)
Inductive ends : Type := J (l r : pynum).
Inductive field : Set := Ga | Gb | Gmid | Gwid | Grad | Gmag | Gmig.
Inductive func : Set := Fsin | Fcos | Fexp | Flog | Fsqrt.
Inductive expr : Type :=
| Add (x y : ends) | Sub (x y : ends) | Mul (x y : ends) | Div (x y : ends) | Cap (x y : ends)
| Neg (x : ends) | Abs (x : ends) | Get (g : field) (x : ends) | Fun (f : func) (x : ends).
Inductive value : Type := VI (e : itv) | VN (v : pynum).
Definition build (x : ends) : M itv := match x with J l r => single_interval l r true false end.
Definition two (f : operand -> operand -> M itv) (x y : ends) : M value :=
  a <- build x ;; b <- build y ;; r <- f (OItv a) (OItv b) ;; mret (VI r).
Definition field_of (g : field) (s : itv) : M pynum :=
  match g with
  | Ga => mret (lo s) | Gb => mret (hi s) | Gmid => mid s | Gwid => wid s | Grad => rad s
  | Gmag => v <- mag s ;; mret (PFlt v) | Gmig => v <- mig s ;; mret (PFlt v)
  end.
Definition func_of (L : libm) (f : func) : itv -> M itv :=
  match f with Fsin => itv_sin L | Fcos => itv_cos L | Fexp => itv_exp L | Flog => itv_log L | Fsqrt => itv_sqrt L end.
Definition eval (L : libm) (c : expr) : M value :=
  match c with
  | Add x y => two py_add x y | Sub x y => two py_sub x y | Mul x y => two py_mul x y | Div x y => two py_div x y
  | Cap x y => a <- build x ;; b <- build y ;; r <- intersect a b ;; mret (VI r)
  | Neg x => a <- build x ;; mret (VI (neg a))
  | Abs x => a <- build x ;; r <- abs_itv a ;; mret (VI r)
  | Get g x => a <- build x ;; v <- field_of g a ;; mret (VN v)
  | Fun f x => a <- build x ;; r <- func_of L f a ;; mret (VI r)
  end.

(** The right-hand side of [assertEqual], and what the log says. *)
Inductive wanted : Type := WI (x : ends) | WN (v : pynum).
Inductive outcome : Type := Passed | Shown (l r : pynum) | Valued (v : pynum) | Raised (e : exn).
Record test : Type := T { left_side : expr; right_side : wanted; recorded : outcome }.

Definition same (x y : pynum) : bool := num_eq x y || (is_nan_num x && is_nan_num y).
(** Intervals are printed with six digits. *)
Definition near (x y : pynum) : bool :=
  same x y ||
  match x, y with
  | PFlt a, PFlt b => is_finite a && is_finite b &&
      flt_leb (fabs (fsub mode_NE a b)) (fmul mode_NE (fdiv mode_NE (fl 1 0) (fl 100000 0)) (fabs b))
  | _, _ => false
  end.
Definition equal (v : value) (w : wanted) : M bool :=
  match v, w with
  | VI e, WI x => f <- build x ;; mret (py_eq e (OItv f))
  | VN u, WN v => mret (num_eq u v)
  | _, _ => mraise TypeError
  end.
Definition exn_same (a b : exn) : bool :=
  match a, b with
  | ValueError, ValueError | AttributeError, AttributeError | TypeError, TypeError | OverflowError, OverflowError => true
  | _, _ => false
  end.
(** The model does what the log says. *)
Definition agrees (L : libm) (t : test) : bool :=
  match fst ((v <- eval L (left_side t) ;; e <- equal v (right_side t) ;; mret (v, e)) mode_NE) with
  | Err x => match recorded t with Raised y => exn_same x y | _ => false end
  | Ok (v, e) =>
      match recorded t, v with
      | Passed, _ => e
      | Shown l r, VI s => negb e && near (lo s) l && near (hi s) r
      | Valued u, VN w => negb e && same w u
      | _, _ => false
      end
  end.
Definition t_sin : list (pynum * pynum) := [
  (NInf, NaN);
  ((F (-3602879701896397) (-50)), (F 4206300329416345 (-56)));
  ((F (-7074237752028441) (-51)), (F 6523320454730237 (-104)));
  ((F (-884279719003555) (-48)), (F (-4967757600021511) (-105)));
  ((F (-6530219459687219) (-51)), (F (-8619865519173859) (-55)));
  ((F (-7074237752028441) (-52)), (F (-1) 0));
  ((F (-884279719003555) (-49)), (F (-1) 0));
  ((F (-3152519739159347) (-52)), (F (-725324634047287) (-50)));
  (Z0, Z0);
  ((F 3602879701896397 (-55)), (F 1798438952039115 (-54)));
  ((F 1 0), (F 3789648413623927 (-52)));
  ((F 884279719003555 (-49)), (F 1 0));
  ((F 7074237752028441 (-52)), (F 1 0));
  ((F 1 1), (F 4095111552621091 (-52)));
  ((F 3 0), (F 5084384125703515 (-55)));
  ((F 884279719003555 (-48)), (F 4967757600021511 (-105)));
  ((F 7074237752028441 (-51)), (F (-6523320454730237) (-104)));
  (Inf, NaN)].
Definition t_cos : list (pynum * pynum) := [
  (NInf, NaN);
  ((F (-3602879701896397) (-50)), (F (-4495919980275163) (-52)));
  ((F (-7074237752028441) (-51)), (F (-1) 0));
  ((F (-884279719003555) (-48)), (F (-1) 0));
  ((F (-6530219459687219) (-51)), (F (-8745613661520073) (-53)));
  ((F (-7074237752028441) (-52)), (F (-6523320454730237) (-105)));
  ((F (-884279719003555) (-49)), (F 4967757600021511 (-106)));
  ((F (-3152519739159347) (-52)), (F 6889085979303315 (-53)));
  (Z0, (F 1 0));
  ((F 3602879701896397 (-55)), (F 8962200775956417 (-53)));
  ((F 1 0), (F 1216652631687587 (-51)));
  ((F 884279719003555 (-49)), (F 4967757600021511 (-106)));
  ((F 7074237752028441 (-52)), (F (-6523320454730237) (-105)));
  ((F 1 1), (F (-7496634952020485) (-54)));
  ((F 3 0), (F (-4458529838789353) (-52)));
  ((F 884279719003555 (-48)), (F (-1) 0));
  ((F 7074237752028441 (-51)), (F (-1) 0));
  (Inf, NaN)].
Definition t_exp : list (pynum * pynum) := [
  (NInf, Z0);
  ((F (-6231120794008787) (-43)), (F 1125899906842527 (-1072)));
  ((F (-6231120794008787) (-44)), (F 2251799813685151 (-562)));
  ((F (-3740158532571577) (-50)), (F 162504253742035 (-52)));
  ((F (-2592480341699211) (-51)), (F 2848326498395271 (-53)));
  ((F (-5184960683398421) (-52)), (F 356040812299409 (-50)));
  (Z0, (F 1 0));
  ((F 195103586505167 (-49)), (F 6369051672525767 (-52)));
  ((F 390207173010335 (-49)), (F 1 1));
  ((F 1723830999229735 (-51)), (F 2420846759166101 (-50)));
  ((F 1 0), (F 6121026514868073 (-51)));
  ((F 1812065995678541 (-50)), (F 5629499534213121 (-50)));
  ((F 4069801476752429 (-51)), (F 1715394689901937 (-48)));
  ((F 5 0), (F 5221823812744079 (-45)));
  ((F 6614824233729337 (-49)), (F 2178237390177363 (-34)));
  ((F 7315664758876059 (-48)), (F 1588196682678307 (-13)));
  ((F 6954774044934185 (-46)), (F 6761609032638901 90));
  ((F 195103586505167 (-38)), (F 4503599627362709 972));
  ((F 390207173010335 (-39)), Inf);
  (Inf, Inf)].
Definition t_log : list (pynum * (pynum * pynum)) := [
  ((F 1 (-1074)), ((F (-1637041030519921) (-41)), (F (-6548164122079683) (-43))));
  ((F 3602879701896397 (-55)), ((F (-2592480341699211) (-50)), (F (-5184960683398421) (-51))));
  ((F 1 0), (Z0, Z0));
  ((F 7656119366529843 (-52)), ((F 298717149219481 (-49)), (F 4779474387511697 (-53))));
  ((F 562949953421311 (-48)), ((F 6243314768165343 (-53)), (F 195103586505167 (-48))));
  ((F 6121026514868073 (-51)), ((F 9007199254740991 (-53)), (F 1 0)));
  ((F 3060513257434037 (-50)), ((F 1 0), (F 4503599627370497 (-52))));
  ((F 7 (-1)), ((F 5641942838099295 (-52)), (F 176310713690603 (-47))));
  ((F 1 2), ((F 6243314768165359 (-52)), (F 390207173010335 (-48))));
  ((F 25 0), ((F 7248263982714163 (-51)), (F 1812065995678541 (-49))));
  ((F 1 5), ((F 7804143460206699 (-51)), (F 1951035865051675 (-49))));
  ((F 7575635122853985 (-41)), ((F 4585046767509091 (-49)), (F 1146261691877273 (-47))));
  ((F 2236962133333331 (-25)), ((F 1267708100384173 (-46)), (F 5070832401536693 (-48))));
  ((F 8024225258572591 46), ((F 301292626292351 (-42)), (F 4820682020677617 (-46))));
  ((F 9007199254740991 971), ((F 6243314768165359 (-43)), (F 390207173010335 (-39))));
  (Inf, (Inf, Inf))].
(** fi_lib.py, TestCase_FI_LIB_addii *)
Definition fi_lib_FI_LIB_addii : list test := [
  T (Add (J Z0 Z0) (J Z0 Z0)) (WI (J Z0 Z0)) Passed;
  T (Add (J (F 1 0) (F 1 0)) (J (F 1 1) (F 1 1))) (WI (J (F 3 0) (F 3 0))) Passed;
  T (Add (J (F (-1) 0) (F (-1) 0)) (J (F (-1) 1) (F (-1) 1))) (WI (J (F (-3) 0) (F (-3) 0))) Passed;
  T (Add (J (F 1 0) (F 1 0)) (J (F (-1) 0) (F (-1) 0))) (WI (J Z0 Z0)) Passed;
  T (Add (J (F (-1) 0) (F (-1) 0)) (J (F 1 0) (F 1 0))) (WI (J Z0 Z0)) Passed;
  T (Add (J (F 253 (-1071)) (F 253 (-1071))) (J (F 253 (-1071)) (F 253 (-1071)))) (WI (J (F 253 (-1070)) (F 253 (-1070)))) Passed;
  T (Add (J (F 253 (-1071)) (F 253 (-1071))) (J (F 1 0) (F 1 0))) (WI (J (F 1 0) (F 4503599627370497 (-52)))) Passed;
  T (Add (J (F (-253) (-1071)) (F (-253) (-1071))) (J (F (-253) (-1071)) (F (-253) (-1071)))) (WI (J (F (-253) (-1070)) (F (-253) (-1070)))) Passed;
  T (Add (J (F (-253) (-1071)) (F (-253) (-1071))) (J (F 1 0) (F 1 0))) (WI (J (F 9007199254740991 (-53)) (F 1 0))) Passed;
  T (Add (J (F 9007199254740991 971) (F 9007199254740991 971)) (J (F (-1) 0) (F (-1) 0))) (WI (J (F 4503599627370495 972) (F 9007199254740991 971))) Passed;
  T (Add (J (F (-9007199254740991) 971) (F (-9007199254740991) 971)) (J (F 1 0) (F 1 0))) (WI (J (F (-9007199254740991) 971) (F (-4503599627370495) 972))) Passed;
  T (Add (J Z0 (F 1 0)) (J (F 1 0) (F 1 1))) (WI (J (F 1 0) (F 3 0))) Passed;
  T (Add (J (F 1 0) (F 1 1)) (J Z0 (F 1 0))) (WI (J (F 1 0) (F 3 0))) Passed;
  T (Add (J (F 1 0) (F 1 1)) (J (F 3 0) (F 1 2))) (WI (J (F 1 2) (F 3 1))) Passed;
  T (Add (J (F 3 0) (F 1 2)) (J (F 1 0) (F 1 1))) (WI (J (F 1 2) (F 3 1))) Passed;
  T (Add (J (F (-1) 0) Z0) (J (F (-1) 2) (F (-3) 0))) (WI (J (F (-5) 0) (F (-3) 0))) Passed;
  T (Add (J (F (-1) 2) (F (-3) 0)) (J (F (-1) 0) Z0)) (WI (J (F (-5) 0) (F (-3) 0))) Passed;
  T (Add (J (F (-5) 0) (F (-1) 2)) (J (F 1 2) (F 5 0))) (WI (J (F (-1) 0) (F 1 0))) Passed;
  T (Add (J (F 1 2) (F 5 0)) (J (F (-5) 0) (F (-1) 2))) (WI (J (F (-1) 0) (F 1 0))) Passed].
(** fi_lib.py, TestCase_FI_LIB_subii *)
Definition fi_lib_FI_LIB_subii : list test := [
  T (Sub (J Z0 Z0) (J Z0 Z0)) (WI (J Z0 Z0)) Passed;
  T (Sub (J (F 1 0) (F 1 0)) (J (F 1 1) (F 1 1))) (WI (J (F (-1) 0) (F (-1) 0))) Passed;
  T (Sub (J (F (-1) 0) (F (-1) 0)) (J (F (-1) 1) (F (-1) 1))) (WI (J (F 1 0) (F 1 0))) Passed;
  T (Sub (J (F 1 0) (F 1 0)) (J (F (-1) 0) (F (-1) 0))) (WI (J (F 1 1) (F 1 1))) Passed;
  T (Sub (J (F (-1) 0) (F (-1) 0)) (J (F 1 0) (F 1 0))) (WI (J (F (-1) 1) (F (-1) 1))) Passed;
  T (Sub (J (F 253 (-1071)) (F 253 (-1071))) (J (F 253 (-1071)) (F 253 (-1071)))) (WI (J Z0 Z0)) Passed;
  T (Sub (J (F 253 (-1071)) (F 253 (-1071))) (J (F 1 0) (F 1 0))) (WI (J (F (-1) 0) (F (-9007199254740991) (-53)))) Passed;
  T (Sub (J (F (-253) (-1071)) (F (-253) (-1071))) (J (F (-253) (-1071)) (F (-253) (-1071)))) (WI (J Z0 Z0)) Passed;
  T (Sub (J (F (-253) (-1071)) (F (-253) (-1071))) (J (F 1 0) (F 1 0))) (WI (J (F (-4503599627370497) (-52)) (F (-1) 0))) Passed;
  T (Sub (J (F 9007199254740991 971) (F 9007199254740991 971)) (J (F 1 0) (F 1 0))) (WI (J (F 4503599627370495 972) (F 9007199254740991 971))) Passed;
  T (Sub (J (F (-9007199254740991) 971) (F (-9007199254740991) 971)) (J (F (-1) 0) (F (-1) 0))) (WI (J (F (-9007199254740991) 971) (F (-4503599627370495) 972))) Passed;
  T (Sub (J Z0 (F 1 0)) (J (F 1 0) (F 1 1))) (WI (J (F (-1) 1) Z0)) Passed;
  T (Sub (J (F 1 0) (F 1 1)) (J Z0 (F 1 0))) (WI (J Z0 (F 1 1))) Passed;
  T (Sub (J (F 1 0) (F 1 1)) (J (F 3 0) (F 1 2))) (WI (J (F (-3) 0) (F (-1) 0))) Passed;
  T (Sub (J (F 3 0) (F 1 2)) (J (F 1 0) (F 1 1))) (WI (J (F 1 0) (F 3 0))) Passed;
  T (Sub (J (F (-1) 0) Z0) (J (F (-1) 2) (F (-3) 0))) (WI (J (F 1 1) (F 1 2))) Passed;
  T (Sub (J (F (-1) 2) (F (-3) 0)) (J (F (-1) 0) Z0)) (WI (J (F (-1) 2) (F (-1) 1))) Passed;
  T (Sub (J (F (-5) 0) (F (-1) 2)) (J (F 1 2) (F 5 0))) (WI (J (F (-5) 1) (F (-1) 3))) Passed;
  T (Sub (J (F 1 2) (F 5 0)) (J (F (-5) 0) (F (-1) 2))) (WI (J (F 1 3) (F 5 1))) Passed].
(** fi_lib.py, TestCase_FI_LIB_mulii *)
Definition fi_lib_FI_LIB_mulii : list test := [
  T (Mul (J Z0 Z0) (J Z0 Z0)) (WI (J Z0 Z0)) Passed;
  T (Mul (J (F (-1) 0) (F (-1) 0)) (J (F (-1) 0) (F (-1) 0))) (WI (J (F 1 0) (F 1 0))) Passed;
  T (Mul (J (F (-1) 0) (F (-1) 0)) (J Z0 Z0)) (WI (J Z0 Z0)) Passed;
  T (Mul (J (F (-1) 0) (F (-1) 0)) (J (F 1 0) (F 1 0))) (WI (J (F (-1) 0) (F (-1) 0))) Passed;
  T (Mul (J Z0 Z0) (J (F (-1) 0) (F (-1) 0))) (WI (J Z0 Z0)) Passed;
  T (Mul (J Z0 Z0) (J (F 1 0) (F 1 0))) (WI (J Z0 Z0)) Passed;
  T (Mul (J (F 1 0) (F 1 0)) (J (F (-1) 0) (F (-1) 0))) (WI (J (F (-1) 0) (F (-1) 0))) Passed;
  T (Mul (J (F 1 0) (F 1 0)) (J Z0 Z0)) (WI (J Z0 Z0)) Passed;
  T (Mul (J (F 1 0) (F 1 0)) (J (F 1 0) (F 1 0))) (WI (J (F 1 0) (F 1 0))) Passed;
  T (Mul (J (F 9007199254740991 971) (F 9007199254740991 971)) (J (F 1 (-1)) (F 1 (-1)))) (WI (J (F 9007199254740991 970) (F 9007199254740991 970))) Passed;
  T (Mul (J (F (-9007199254740991) 971) (F (-9007199254740991) 971)) (J (F 1 (-1)) (F 1 (-1)))) (WI (J (F (-9007199254740991) 970) (F (-9007199254740991) 970))) Passed;
  T (Mul (J (F 253 (-1071)) (F 253 (-1071))) (J (F 253 (-1071)) (F 253 (-1071)))) (WI (J Z0 (F 1 (-1074)))) Passed;
  T (Mul (J (F 253 (-1071)) (F 253 (-1071))) (J (F 1 0) (F 1 0))) (WI (J (F 253 (-1071)) (F 253 (-1071)))) Passed;
  T (Mul (J (F 253 (-1071)) (F 253 (-1071))) (J (F (-1) 0) (F (-1) 0))) (WI (J (F (-253) (-1071)) (F (-253) (-1071)))) Passed;
  T (Mul (J (F (-3) 0) (F (-1) 1)) (J (F (-3) 0) (F (-1) 1))) (WI (J (F 1 2) (F 9 0))) Passed;
  T (Mul (J (F (-3) 0) (F (-1) 1)) (J (F (-1) 0) (F 1 0))) (WI (J (F (-3) 0) (F 3 0))) Passed;
  T (Mul (J (F (-3) 0) (F (-1) 1)) (J (F 1 1) (F 3 0))) (WI (J (F (-9) 0) (F (-1) 2))) Passed;
  T (Mul (J (F (-1) 0) (F 1 0)) (J (F (-3) 0) (F (-1) 1))) (WI (J (F (-3) 0) (F 3 0))) Passed;
  T (Mul (J (F (-1) 0) (F 1 0)) (J (F (-1) 0) (F 1 0))) (WI (J (F (-1) 0) (F 1 0))) Passed;
  T (Mul (J (F (-1) 0) (F 1 0)) (J (F 1 1) (F 3 0))) (WI (J (F (-3) 0) (F 3 0))) Passed;
  T (Mul (J (F 1 1) (F 3 0)) (J (F (-3) 0) (F (-1) 1))) (WI (J (F (-9) 0) (F (-1) 2))) Passed;
  T (Mul (J (F 1 1) (F 3 0)) (J (F (-1) 0) (F 1 0))) (WI (J (F (-3) 0) (F 3 0))) Passed;
  T (Mul (J (F 1 1) (F 3 0)) (J (F 1 1) (F 3 0))) (WI (J (F 1 2) (F 9 0))) Passed;
  T (Mul (J (F (-5) 0) (F 1 1)) (J (F (-1) 2) (F 3 0))) (WI (J (F (-15) 0) (F 5 2))) Passed;
  T (Mul (J (F (-5) 0) (F 1 1)) (J (F (-3) 0) (F 1 3))) (WI (J (F (-5) 3) (F 1 4))) Passed;
  T (Mul (J (F (-1) 1) (F 5 0)) (J (F (-1) 2) (F 3 0))) (WI (J (F (-5) 2) (F 15 0))) Passed;
  T (Mul (J (F (-1) 2) (F 5 0)) (J (F (-1) 2) (F 3 0))) (WI (J (F (-5) 2) (F 1 4))) Passed;
  T (Mul (J (F (-3) 0) Z0) (J (F (-3) 0) (F (-1) 1))) (WI (J Z0 (F 9 0))) Passed;
  T (Mul (J (F (-3) 0) Z0) (J (F (-1) 0) (F 1 0))) (WI (J (F (-3) 0) (F 3 0))) Passed;
  T (Mul (J (F (-3) 0) Z0) (J (F 1 1) (F 3 0))) (WI (J (F (-9) 0) Z0)) Passed;
  T (Mul (J (F (-3) 0) (F (-1) 1)) (J (F (-3) 0) Z0)) (WI (J Z0 (F 9 0))) Passed;
  T (Mul (J (F (-3) 0) (F (-1) 1)) (J Z0 (F 3 0))) (WI (J (F (-9) 0) Z0)) Passed;
  T (Mul (J (F (-1) 0) (F 1 0)) (J (F (-3) 0) Z0)) (WI (J (F (-3) 0) (F 3 0))) Passed;
  T (Mul (J (F (-1) 0) (F 1 0)) (J Z0 (F 3 0))) (WI (J (F (-3) 0) (F 3 0))) Passed;
  T (Mul (J Z0 (F 3 0)) (J (F (-3) 0) (F (-1) 1))) (WI (J (F (-9) 0) Z0)) Passed;
  T (Mul (J Z0 (F 3 0)) (J (F (-1) 0) (F 1 0))) (WI (J (F (-3) 0) (F 3 0))) Passed;
  T (Mul (J Z0 (F 3 0)) (J (F 1 1) (F 3 0))) (WI (J Z0 (F 9 0))) Passed;
  T (Mul (J (F 1 1) (F 3 0)) (J (F (-3) 0) Z0)) (WI (J (F (-9) 0) Z0)) Passed;
  T (Mul (J (F 1 1) (F 3 0)) (J (F (-3) 0) Z0)) (WI (J (F (-9) 0) Z0)) Passed;
  T (Mul (J Z0 (F 1 1)) (J (F (-3) 0) Z0)) (WI (J (F (-3) 1) Z0)) Passed;
  T (Mul (J (F (-253) (-1071)) (F (-253) (-1071))) (J (F (-253) (-1071)) (F (-253) (-1071)))) (WI (J Z0 (F 1 (-1074)))) Passed;
  T (Mul (J (F (-253) (-1071)) (F (-253) (-1071))) (J (F 1 0) (F 1 0))) (WI (J (F (-253) (-1071)) (F (-253) (-1071)))) Passed;
  T (Mul (J (F (-253) (-1071)) (F (-253) (-1071))) (J (F (-1) 0) (F (-1) 0))) (WI (J (F 253 (-1071)) (F 253 (-1071)))) Passed;
  T (Mul (J (F (-253) (-1071)) (F (-253) (-1071))) (J (F 253 (-1071)) (F 253 (-1071)))) (WI (J (F (-1) (-1074)) Z0)) Passed;
  T (Mul (J (F (-253) (-1071)) (F (-253) (-1071))) (J Z0 Z0)) (WI (J Z0 Z0)) Passed;
  T (Mul (J (F 253 (-1071)) (F 253 (-1071))) (J Z0 Z0)) (WI (J Z0 Z0)) Passed].
(** fi_lib.py, TestCase_FI_LIB_divii *)
Definition fi_lib_FI_LIB_divii : list test := [
  T (Div (J (F (-1) 0) (F (-1) 0)) (J (F (-1) 0) (F (-1) 0))) (WI (J (F 1 0) (F 1 0))) Passed;
  T (Div (J (F (-1) 0) (F (-1) 0)) (J (F 1 0) (F 1 0))) (WI (J (F (-1) 0) (F (-1) 0))) Passed;
  T (Div (J Z0 Z0) (J (F (-1) 0) (F (-1) 0))) (WI (J Z0 Z0)) Passed;
  T (Div (J Z0 Z0) (J (F 1 0) (F 1 0))) (WI (J Z0 Z0)) Passed;
  T (Div (J (F 1 0) (F 1 0)) (J (F (-1) 0) (F (-1) 0))) (WI (J (F (-1) 0) (F (-1) 0))) Passed;
  T (Div (J (F 1 0) (F 1 0)) (J (F 1 0) (F 1 0))) (WI (J (F 1 0) (F 1 0))) Passed;
  T (Div (J (F 9007199254740991 971) (F 9007199254740991 971)) (J (F 1 1) (F 1 1))) (WI (J (F 9007199254740991 970) (F 9007199254740991 970))) Passed;
  T (Div (J (F (-9007199254740991) 971) (F (-9007199254740991) 971)) (J (F 1 1) (F 1 1))) (WI (J (F (-9007199254740991) 970) (F (-9007199254740991) 970))) Passed;
  T (Div (J (F 253 (-1071)) (F 253 (-1071))) (J (F 253 (-1071)) (F 253 (-1071)))) (WI (J (F 1 0) (F 1 0))) Passed;
  T (Div (J (F 253 (-1071)) (F 253 (-1071))) (J (F 1 0) (F 1 0))) (WI (J (F 253 (-1071)) (F 253 (-1071)))) Passed;
  T (Div (J (F 253 (-1071)) (F 253 (-1071))) (J (F (-1) 0) (F (-1) 0))) (WI (J (F (-253) (-1071)) (F (-253) (-1071)))) Passed;
  T (Div (J (F (-3) 0) (F (-1) 1)) (J (F (-3) 0) (F (-1) 1))) (WI (J (F 6004799503160661 (-53)) (F 3 (-1)))) Passed;
  T (Div (J (F (-3) 0) (F (-1) 1)) (J (F 1 1) (F 3 0))) (WI (J (F (-3) (-1)) (F (-6004799503160661) (-53)))) Passed;
  T (Div (J (F (-1) 0) (F 1 0)) (J (F (-3) 0) (F (-1) 1))) (WI (J (F (-1) (-1)) (F 1 (-1)))) Passed;
  T (Div (J (F (-1) 0) (F 1 0)) (J (F 1 1) (F 3 0))) (WI (J (F (-1) (-1)) (F 1 (-1)))) Passed;
  T (Div (J (F 1 1) (F 3 0)) (J (F (-3) 0) (F (-1) 1))) (WI (J (F (-3) (-1)) (F (-6004799503160661) (-53)))) Passed;
  T (Div (J (F 1 1) (F 3 0)) (J (F 1 1) (F 3 0))) (WI (J (F 6004799503160661 (-53)) (F 3 (-1)))) Passed;
  T (Div (J (F (-3) 0) Z0) (J (F (-3) 0) (F (-1) 1))) (WI (J Z0 (F 3 (-1)))) Passed;
  T (Div (J (F (-3) 0) Z0) (J (F 1 1) (F 3 0))) (WI (J (F (-3) (-1)) Z0)) Passed;
  T (Div (J Z0 (F 3 0)) (J (F (-3) 0) (F (-1) 1))) (WI (J (F (-3) (-1)) Z0)) Passed;
  T (Div (J Z0 (F 3 0)) (J (F 1 1) (F 3 0))) (WI (J Z0 (F 3 (-1)))) Passed].
(** libieeep1788_elem.py, TestCase_minimal_neg_test *)
Definition libieeep1788_elem_minimal_neg_test : list test := [
  T (Neg (J (F 1 0) (F 1 1))) (WI (J (F (-1) 1) (F (-1) 0))) Passed;
  T (Neg (J NaN NaN)) (WI (J NaN NaN)) (Shown NaN NaN);
  T (Neg (J NInf Inf)) (WI (J NInf Inf)) Passed;
  T (Neg (J (F 1 0) Inf)) (WI (J NInf (F (-1) 0))) Passed;
  T (Neg (J NInf (F 1 0))) (WI (J (F (-1) 0) Inf)) Passed;
  T (Neg (J Z0 (F 1 1))) (WI (J (F (-1) 1) Z0)) Passed;
  T (Neg (J NZ0 (F 1 1))) (WI (J (F (-1) 1) Z0)) Passed;
  T (Neg (J (F (-1) 1) Z0)) (WI (J Z0 (F 1 1))) Passed;
  T (Neg (J (F (-1) 1) NZ0)) (WI (J Z0 (F 1 1))) Passed;
  T (Neg (J Z0 NZ0)) (WI (J Z0 Z0)) Passed;
  T (Neg (J NZ0 NZ0)) (WI (J Z0 Z0)) Passed].
(** libieeep1788_elem.py, TestCase_minimal_add_test *)
Definition libieeep1788_elem_minimal_add_test : list test := [
  T (Add (J NaN NaN) (J NaN NaN)) (WI (J NaN NaN)) (Shown NaN NaN);
  T (Add (J (F (-1) 0) (F 1 0)) (J NaN NaN)) (WI (J NaN NaN)) (Shown NaN NaN);
  T (Add (J NaN NaN) (J (F (-1) 0) (F 1 0))) (WI (J NaN NaN)) (Shown NaN NaN);
  T (Add (J NaN NaN) (J NInf Inf)) (WI (J NaN NaN)) (Shown NaN NaN);
  T (Add (J NInf Inf) (J NaN NaN)) (WI (J NaN NaN)) (Shown NaN NaN);
  T (Add (J NInf Inf) (J NInf (F 1 0))) (WI (J NInf Inf)) Passed;
  T (Add (J NInf Inf) (J (F (-1) 0) (F 1 0))) (WI (J NInf Inf)) Passed;
  T (Add (J NInf Inf) (J (F (-1) 0) Inf)) (WI (J NInf Inf)) Passed;
  T (Add (J NInf Inf) (J NInf Inf)) (WI (J NInf Inf)) Passed;
  T (Add (J NInf (F 1 0)) (J NInf Inf)) (WI (J NInf Inf)) Passed;
  T (Add (J (F (-1) 0) (F 1 0)) (J NInf Inf)) (WI (J NInf Inf)) Passed;
  T (Add (J (F (-1) 0) Inf) (J NInf Inf)) (WI (J NInf Inf)) Passed;
  T (Add (J NInf (F 1 1)) (J NInf (F 1 2))) (WI (J NInf (F 3 1))) Passed;
  T (Add (J NInf (F 1 1)) (J (F 3 0) (F 1 2))) (WI (J NInf (F 3 1))) Passed;
  T (Add (J NInf (F 1 1)) (J (F 3 0) Inf)) (WI (J NInf Inf)) Passed;
  T (Add (J (F 1 0) (F 1 1)) (J NInf (F 1 2))) (WI (J NInf (F 3 1))) Passed;
  T (Add (J (F 1 0) (F 1 1)) (J (F 3 0) (F 1 2))) (WI (J (F 1 2) (F 3 1))) Passed;
  T (Add (J (F 1 0) (F 1 1)) (J (F 3 0) Inf)) (WI (J (F 1 2) Inf)) Passed;
  T (Add (J (F 1 0) Inf) (J NInf (F 1 2))) (WI (J NInf Inf)) Passed;
  T (Add (J (F 1 0) Inf) (J (F 3 0) (F 1 2))) (WI (J (F 1 2) Inf)) Passed;
  T (Add (J (F 1 0) Inf) (J (F 3 0) Inf)) (WI (J (F 1 2) Inf)) Passed;
  T (Add (J (F 1 0) (F 9007199254740991 971)) (J (F 3 0) (F 1 2))) (WI (J (F 1 2) Inf)) Passed;
  T (Add (J (F (-9007199254740991) 971) (F 1 1)) (J (F (-3) 0) (F 1 2))) (WI (J NInf (F 3 1))) Passed;
  T (Add (J (F (-9007199254740991) 971) (F 1 1)) (J (F (-3) 0) (F 9007199254740991 971))) (WI (J NInf Inf)) Passed;
  T (Add (J (F 1 0) (F 9007199254740991 971)) (J Z0 Z0)) (WI (J (F 1 0) (F 9007199254740991 971))) Passed;
  T (Add (J (F 1 0) (F 9007199254740991 971)) (J NZ0 NZ0)) (WI (J (F 1 0) (F 9007199254740991 971))) Passed;
  T (Add (J Z0 Z0) (J (F (-3) 0) (F 1 2))) (WI (J (F (-3) 0) (F 1 2))) Passed;
  T (Add (J NZ0 NZ0) (J (F (-3) 0) (F 9007199254740991 971))) (WI (J (F (-3) 0) (F 9007199254740991 971))) Passed;
  T (Add (J (F 562949953421311 (-48)) (F 562949953421311 (-48))) (J (F 3602879701896397 (-55)) (F 3602879701896397 (-55)))) (WI (J (F 1182194902184753 (-49)) (F 4728779608739013 (-51)))) Passed;
  T (Add (J (F 562949953421311 (-48)) (F 562949953421311 (-48))) (J (F (-3602879701896397) (-55)) (F (-3602879701896397) (-55)))) (WI (J (F 4278419646001963 (-51)) (F 8556839292003927 (-52)))) Passed;
  T (Add (J (F (-562949953421311) (-48)) (F 562949953421311 (-48))) (J (F 3602879701896397 (-55)) (F 3602879701896397 (-55)))) (WI (J (F (-8556839292003927) (-52)) (F 4728779608739013 (-51)))) Passed].
(** libieeep1788_elem.py, TestCase_minimal_sub_test *)
Definition libieeep1788_elem_minimal_sub_test : list test := [
  T (Sub (J NaN NaN) (J NaN NaN)) (WI (J NaN NaN)) (Shown NaN NaN);
  T (Sub (J (F (-1) 0) (F 1 0)) (J NaN NaN)) (WI (J NaN NaN)) (Shown NaN NaN);
  T (Sub (J NaN NaN) (J (F (-1) 0) (F 1 0))) (WI (J NaN NaN)) (Shown NaN NaN);
  T (Sub (J NaN NaN) (J NInf Inf)) (WI (J NaN NaN)) (Shown NaN NaN);
  T (Sub (J NInf Inf) (J NaN NaN)) (WI (J NaN NaN)) (Shown NaN NaN);
  T (Sub (J NInf Inf) (J NInf (F 1 0))) (WI (J NInf Inf)) Passed;
  T (Sub (J NInf Inf) (J (F (-1) 0) (F 1 0))) (WI (J NInf Inf)) Passed;
  T (Sub (J NInf Inf) (J (F (-1) 0) Inf)) (WI (J NInf Inf)) Passed;
  T (Sub (J NInf Inf) (J NInf Inf)) (WI (J NInf Inf)) Passed;
  T (Sub (J NInf (F 1 0)) (J NInf Inf)) (WI (J NInf Inf)) Passed;
  T (Sub (J (F (-1) 0) (F 1 0)) (J NInf Inf)) (WI (J NInf Inf)) Passed;
  T (Sub (J (F (-1) 0) Inf) (J NInf Inf)) (WI (J NInf Inf)) Passed;
  T (Sub (J NInf (F 1 1)) (J NInf (F 1 2))) (WI (J NInf Inf)) Passed;
  T (Sub (J NInf (F 1 1)) (J (F 3 0) (F 1 2))) (WI (J NInf (F (-1) 0))) Passed;
  T (Sub (J NInf (F 1 1)) (J (F 3 0) Inf)) (WI (J NInf (F (-1) 0))) Passed;
  T (Sub (J (F 1 0) (F 1 1)) (J NInf (F 1 2))) (WI (J (F (-3) 0) Inf)) Passed;
  T (Sub (J (F 1 0) (F 1 1)) (J (F 3 0) (F 1 2))) (WI (J (F (-3) 0) (F (-1) 0))) Passed;
  T (Sub (J (F 1 0) (F 1 1)) (J (F 3 0) Inf)) (WI (J NInf (F (-1) 0))) Passed;
  T (Sub (J (F 1 0) Inf) (J NInf (F 1 2))) (WI (J (F (-3) 0) Inf)) Passed;
  T (Sub (J (F 1 0) Inf) (J (F 3 0) (F 1 2))) (WI (J (F (-3) 0) Inf)) Passed;
  T (Sub (J (F 1 0) Inf) (J (F 3 0) Inf)) (WI (J NInf Inf)) Passed;
  T (Sub (J (F 1 0) (F 9007199254740991 971)) (J (F (-3) 0) (F 1 2))) (WI (J (F (-3) 0) Inf)) Passed;
  T (Sub (J (F (-9007199254740991) 971) (F 1 1)) (J (F 3 0) (F 1 2))) (WI (J NInf (F (-1) 0))) Passed;
  T (Sub (J (F (-9007199254740991) 971) (F 1 1)) (J (F (-9007199254740991) 971) (F 1 2))) (WI (J NInf Inf)) Passed;
  T (Sub (J (F 1 0) (F 9007199254740991 971)) (J Z0 Z0)) (WI (J (F 1 0) (F 9007199254740991 971))) Passed;
  T (Sub (J (F 1 0) (F 9007199254740991 971)) (J NZ0 NZ0)) (WI (J (F 1 0) (F 9007199254740991 971))) Passed;
  T (Sub (J Z0 Z0) (J (F (-3) 0) (F 1 2))) (WI (J (F (-1) 2) (F 3 0))) Passed;
  T (Sub (J NZ0 NZ0) (J (F (-3) 0) (F 9007199254740991 971))) (WI (J (F (-9007199254740991) 971) (F 3 0))) Passed;
  T (Sub (J (F 562949953421311 (-48)) (F 562949953421311 (-48))) (J (F 3602879701896397 (-55)) (F 3602879701896397 (-55)))) (WI (J (F 4278419646001963 (-51)) (F 8556839292003927 (-52)))) Passed;
  T (Sub (J (F 562949953421311 (-48)) (F 562949953421311 (-48))) (J (F (-3602879701896397) (-55)) (F (-3602879701896397) (-55)))) (WI (J (F 1182194902184753 (-49)) (F 4728779608739013 (-51)))) Passed;
  T (Sub (J (F (-562949953421311) (-48)) (F 562949953421311 (-48))) (J (F 3602879701896397 (-55)) (F 3602879701896397 (-55)))) (WI (J (F (-4728779608739013) (-51)) (F 8556839292003927 (-52)))) Passed].
(** libieeep1788_elem.py, TestCase_minimal_mul_test *)
Definition libieeep1788_elem_minimal_mul_test : list test := [
  T (Mul (J NaN NaN) (J NaN NaN)) (WI (J NaN NaN)) (Shown NaN NaN);
  T (Mul (J (F (-1) 0) (F 1 0)) (J NaN NaN)) (WI (J NaN NaN)) (Shown NaN NaN);
  T (Mul (J NaN NaN) (J (F (-1) 0) (F 1 0))) (WI (J NaN NaN)) (Shown NaN NaN);
  T (Mul (J NaN NaN) (J NInf Inf)) (WI (J NaN NaN)) (Shown NaN NaN);
  T (Mul (J NInf Inf) (J NaN NaN)) (WI (J NaN NaN)) (Shown NaN NaN);
  T (Mul (J Z0 Z0) (J NaN NaN)) (WI (J NaN NaN)) (Shown NaN NaN);
  T (Mul (J NaN NaN) (J Z0 Z0)) (WI (J NaN NaN)) (Shown NaN NaN);
  T (Mul (J NZ0 NZ0) (J NaN NaN)) (WI (J NaN NaN)) (Shown NaN NaN);
  T (Mul (J NaN NaN) (J NZ0 NZ0)) (WI (J NaN NaN)) (Shown NaN NaN);
  T (Mul (J NInf Inf) (J Z0 Z0)) (WI (J Z0 Z0)) (Shown NaN NaN);
  T (Mul (J NInf Inf) (J NZ0 NZ0)) (WI (J Z0 Z0)) (Shown NaN NaN);
  T (Mul (J NInf Inf) (J (F (-5) 0) (F (-1) 0))) (WI (J NInf Inf)) Passed;
  T (Mul (J NInf Inf) (J (F (-5) 0) (F 3 0))) (WI (J NInf Inf)) Passed;
  T (Mul (J NInf Inf) (J (F 1 0) (F 3 0))) (WI (J NInf Inf)) Passed;
  T (Mul (J NInf Inf) (J NInf (F (-1) 0))) (WI (J NInf Inf)) Passed;
  T (Mul (J NInf Inf) (J NInf (F 3 0))) (WI (J NInf Inf)) Passed;
  T (Mul (J NInf Inf) (J (F (-5) 0) Inf)) (WI (J NInf Inf)) Passed;
  T (Mul (J NInf Inf) (J (F 1 0) Inf)) (WI (J NInf Inf)) Passed;
  T (Mul (J NInf Inf) (J NInf Inf)) (WI (J NInf Inf)) Passed;
  T (Mul (J (F 1 0) Inf) (J Z0 Z0)) (WI (J Z0 Z0)) Passed;
  T (Mul (J (F 1 0) Inf) (J NZ0 NZ0)) (WI (J Z0 Z0)) Passed;
  T (Mul (J (F 1 0) Inf) (J (F (-5) 0) (F (-1) 0))) (WI (J NInf (F (-1) 0))) Passed;
  T (Mul (J (F 1 0) Inf) (J (F (-5) 0) (F 3 0))) (WI (J NInf Inf)) Passed;
  T (Mul (J (F 1 0) Inf) (J (F 1 0) (F 3 0))) (WI (J (F 1 0) Inf)) Passed;
  T (Mul (J (F 1 0) Inf) (J NInf (F (-1) 0))) (WI (J NInf (F (-1) 0))) Passed;
  T (Mul (J (F 1 0) Inf) (J NInf (F 3 0))) (WI (J NInf Inf)) Passed;
  T (Mul (J (F 1 0) Inf) (J (F (-5) 0) Inf)) (WI (J NInf Inf)) Passed;
  T (Mul (J (F 1 0) Inf) (J (F 1 0) Inf)) (WI (J (F 1 0) Inf)) Passed;
  T (Mul (J (F 1 0) Inf) (J NInf Inf)) (WI (J NInf Inf)) Passed;
  T (Mul (J (F (-1) 0) Inf) (J Z0 Z0)) (WI (J Z0 Z0)) Passed;
  T (Mul (J (F (-1) 0) Inf) (J NZ0 NZ0)) (WI (J Z0 Z0)) Passed;
  T (Mul (J (F (-1) 0) Inf) (J (F (-5) 0) (F (-1) 0))) (WI (J NInf (F 5 0))) Passed;
  T (Mul (J (F (-1) 0) Inf) (J (F (-5) 0) (F 3 0))) (WI (J NInf Inf)) Passed;
  T (Mul (J (F (-1) 0) Inf) (J (F 1 0) (F 3 0))) (WI (J (F (-3) 0) Inf)) Passed;
  T (Mul (J (F (-1) 0) Inf) (J NInf (F (-1) 0))) (WI (J NInf Inf)) Passed;
  T (Mul (J (F (-1) 0) Inf) (J NInf (F 3 0))) (WI (J NInf Inf)) Passed;
  T (Mul (J (F (-1) 0) Inf) (J (F (-5) 0) Inf)) (WI (J NInf Inf)) Passed;
  T (Mul (J (F (-1) 0) Inf) (J (F 1 0) Inf)) (WI (J NInf Inf)) Passed;
  T (Mul (J (F (-1) 0) Inf) (J NInf Inf)) (WI (J NInf Inf)) Passed;
  T (Mul (J NInf (F 3 0)) (J Z0 Z0)) (WI (J Z0 Z0)) (Shown NaN NaN);
  T (Mul (J NInf (F 3 0)) (J NZ0 NZ0)) (WI (J Z0 Z0)) (Shown NaN NaN);
  T (Mul (J NInf (F 3 0)) (J (F (-5) 0) (F (-1) 0))) (WI (J (F (-15) 0) Inf)) Passed;
  T (Mul (J NInf (F 3 0)) (J (F (-5) 0) (F 3 0))) (WI (J NInf Inf)) Passed;
  T (Mul (J NInf (F 3 0)) (J (F 1 0) (F 3 0))) (WI (J NInf (F 9 0))) Passed;
  T (Mul (J NInf (F 3 0)) (J NInf (F (-1) 0))) (WI (J NInf Inf)) Passed;
  T (Mul (J NInf (F 3 0)) (J NInf (F 3 0))) (WI (J NInf Inf)) Passed;
  T (Mul (J NInf (F 3 0)) (J (F (-5) 0) Inf)) (WI (J NInf Inf)) Passed;
  T (Mul (J NInf (F 3 0)) (J (F 1 0) Inf)) (WI (J NInf Inf)) Passed;
  T (Mul (J NInf (F 3 0)) (J NInf Inf)) (WI (J NInf Inf)) Passed;
  T (Mul (J NInf (F (-3) 0)) (J Z0 Z0)) (WI (J Z0 Z0)) (Shown NaN NaN);
  T (Mul (J NInf (F (-3) 0)) (J NZ0 NZ0)) (WI (J Z0 Z0)) (Shown NaN NaN);
  T (Mul (J NInf (F (-3) 0)) (J (F (-5) 0) (F (-1) 0))) (WI (J (F 3 0) Inf)) Passed;
  T (Mul (J NInf (F (-3) 0)) (J (F (-5) 0) (F 3 0))) (WI (J NInf Inf)) Passed;
  T (Mul (J NInf (F (-3) 0)) (J (F 1 0) (F 3 0))) (WI (J NInf (F (-3) 0))) Passed;
  T (Mul (J NInf (F (-3) 0)) (J NInf (F (-1) 0))) (WI (J (F 3 0) Inf)) Passed;
  T (Mul (J NInf (F (-3) 0)) (J NInf (F 3 0))) (WI (J NInf Inf)) Passed;
  T (Mul (J NInf (F (-3) 0)) (J (F (-5) 0) Inf)) (WI (J NInf Inf)) Passed;
  T (Mul (J NInf (F (-3) 0)) (J (F 1 0) Inf)) (WI (J NInf (F (-3) 0))) Passed;
  T (Mul (J NInf (F (-3) 0)) (J NInf Inf)) (WI (J NInf Inf)) Passed;
  T (Mul (J Z0 Z0) (J Z0 Z0)) (WI (J Z0 Z0)) Passed;
  T (Mul (J Z0 Z0) (J NZ0 NZ0)) (WI (J Z0 Z0)) Passed;
  T (Mul (J Z0 Z0) (J (F (-5) 0) (F (-1) 0))) (WI (J Z0 Z0)) Passed;
  T (Mul (J Z0 Z0) (J (F (-5) 0) (F 3 0))) (WI (J Z0 Z0)) Passed;
  T (Mul (J Z0 Z0) (J (F 1 0) (F 3 0))) (WI (J Z0 Z0)) Passed;
  T (Mul (J Z0 Z0) (J NInf (F (-1) 0))) (WI (J Z0 Z0)) (Shown NaN NaN);
  T (Mul (J Z0 Z0) (J NInf (F 3 0))) (WI (J Z0 Z0)) (Shown NaN NaN);
  T (Mul (J Z0 Z0) (J (F (-5) 0) Inf)) (WI (J Z0 Z0)) Passed;
  T (Mul (J Z0 Z0) (J (F 1 0) Inf)) (WI (J Z0 Z0)) Passed;
  T (Mul (J Z0 Z0) (J NInf Inf)) (WI (J Z0 Z0)) (Shown NaN NaN);
  T (Mul (J NZ0 NZ0) (J Z0 Z0)) (WI (J Z0 Z0)) Passed;
  T (Mul (J NZ0 NZ0) (J NZ0 NZ0)) (WI (J Z0 Z0)) Passed;
  T (Mul (J NZ0 NZ0) (J (F (-5) 0) (F (-1) 0))) (WI (J Z0 Z0)) Passed;
  T (Mul (J NZ0 NZ0) (J (F (-5) 0) (F 3 0))) (WI (J Z0 Z0)) Passed;
  T (Mul (J NZ0 NZ0) (J (F 1 0) (F 3 0))) (WI (J Z0 Z0)) Passed;
  T (Mul (J NZ0 NZ0) (J NInf (F (-1) 0))) (WI (J Z0 Z0)) (Shown NaN NaN);
  T (Mul (J NZ0 NZ0) (J NInf (F 3 0))) (WI (J Z0 Z0)) (Shown NaN NaN);
  T (Mul (J NZ0 NZ0) (J (F (-5) 0) Inf)) (WI (J Z0 Z0)) Passed;
  T (Mul (J NZ0 NZ0) (J (F 1 0) Inf)) (WI (J Z0 Z0)) Passed;
  T (Mul (J NZ0 NZ0) (J NInf Inf)) (WI (J Z0 Z0)) (Shown NaN NaN);
  T (Mul (J (F 1 0) (F 5 0)) (J Z0 Z0)) (WI (J Z0 Z0)) Passed;
  T (Mul (J (F 1 0) (F 5 0)) (J NZ0 NZ0)) (WI (J Z0 Z0)) Passed;
  T (Mul (J (F 1 0) (F 5 0)) (J (F (-5) 0) (F (-1) 0))) (WI (J (F (-25) 0) (F (-1) 0))) Passed;
  T (Mul (J (F 1 0) (F 5 0)) (J (F (-5) 0) (F 3 0))) (WI (J (F (-25) 0) (F 15 0))) Passed;
  T (Mul (J (F 1 0) (F 5 0)) (J (F 1 0) (F 3 0))) (WI (J (F 1 0) (F 15 0))) Passed;
  T (Mul (J (F 1 0) (F 5 0)) (J NInf (F (-1) 0))) (WI (J NInf (F (-1) 0))) Passed;
  T (Mul (J (F 1 0) (F 5 0)) (J NInf (F 3 0))) (WI (J NInf (F 15 0))) Passed;
  T (Mul (J (F 1 0) (F 5 0)) (J (F (-5) 0) Inf)) (WI (J (F (-25) 0) Inf)) Passed;
  T (Mul (J (F 1 0) (F 5 0)) (J (F 1 0) Inf)) (WI (J (F 1 0) Inf)) Passed;
  T (Mul (J (F 1 0) (F 5 0)) (J NInf Inf)) (WI (J NInf Inf)) Passed;
  T (Mul (J (F (-1) 0) (F 5 0)) (J Z0 Z0)) (WI (J Z0 Z0)) Passed;
  T (Mul (J (F (-1) 0) (F 5 0)) (J NZ0 NZ0)) (WI (J Z0 Z0)) Passed;
  T (Mul (J (F (-1) 0) (F 5 0)) (J (F (-5) 0) (F (-1) 0))) (WI (J (F (-25) 0) (F 5 0))) Passed;
  T (Mul (J (F (-1) 0) (F 5 0)) (J (F (-5) 0) (F 3 0))) (WI (J (F (-25) 0) (F 15 0))) Passed;
  T (Mul (J (F (-5) 1) (F 1 1)) (J (F (-5) 0) (F 3 0))) (WI (J (F (-15) 1) (F 25 1))) Passed;
  T (Mul (J (F (-1) 0) (F 5 0)) (J (F (-1) 0) (F 5 1))) (WI (J (F (-5) 1) (F 25 1))) Passed;
  T (Mul (J (F (-1) 1) (F 1 1)) (J (F (-5) 0) (F 3 0))) (WI (J (F (-5) 1) (F 5 1))) Passed;
  T (Mul (J (F (-1) 0) (F 5 0)) (J (F 1 0) (F 3 0))) (WI (J (F (-3) 0) (F 15 0))) Passed;
  T (Mul (J (F (-1) 0) (F 5 0)) (J NInf (F (-1) 0))) (WI (J NInf Inf)) Passed;
  T (Mul (J (F (-1) 0) (F 5 0)) (J NInf (F 3 0))) (WI (J NInf Inf)) Passed;
  T (Mul (J (F (-1) 0) (F 5 0)) (J (F (-5) 0) Inf)) (WI (J NInf Inf)) Passed;
  T (Mul (J (F (-1) 0) (F 5 0)) (J (F 1 0) Inf)) (WI (J NInf Inf)) Passed;
  T (Mul (J (F (-1) 0) (F 5 0)) (J NInf Inf)) (WI (J NInf Inf)) Passed;
  T (Mul (J (F (-5) 1) (F (-5) 0)) (J Z0 Z0)) (WI (J Z0 Z0)) Passed;
  T (Mul (J (F (-5) 1) (F (-5) 0)) (J NZ0 NZ0)) (WI (J Z0 Z0)) Passed;
  T (Mul (J (F (-5) 1) (F (-5) 0)) (J (F (-5) 0) (F (-1) 0))) (WI (J (F 5 0) (F 25 1))) Passed;
  T (Mul (J (F (-5) 1) (F (-5) 0)) (J (F (-5) 0) (F 3 0))) (WI (J (F (-15) 1) (F 25 1))) Passed;
  T (Mul (J (F (-5) 1) (F (-5) 0)) (J (F 1 0) (F 3 0))) (WI (J (F (-15) 1) (F (-5) 0))) Passed;
  T (Mul (J (F (-5) 1) (F (-5) 0)) (J NInf (F (-1) 0))) (WI (J (F 5 0) Inf)) Passed;
  T (Mul (J (F (-5) 1) (F (-5) 0)) (J NInf (F 3 0))) (WI (J (F (-15) 1) Inf)) Passed;
  T (Mul (J (F (-5) 1) (F (-5) 0)) (J (F (-5) 0) Inf)) (WI (J NInf (F 25 1))) Passed;
  T (Mul (J (F (-5) 1) (F (-5) 0)) (J (F 1 0) Inf)) (WI (J NInf (F (-5) 0))) Passed;
  T (Mul (J (F (-5) 1) (F (-5) 0)) (J NInf Inf)) (WI (J NInf Inf)) Passed;
  T (Mul (J (F 3602879701896397 (-55)) (F 562949953421311 (-48))) (J (F (-562949953421311) (-48)) Inf)) (WI (J (F (-9007199254740961) (-51)) Inf)) Passed;
  T (Mul (J (F (-3602879701896397) (-55)) (F 562949953421311 (-48))) (J (F (-562949953421311) (-48)) (F (-3602879701896397) (-55)))) (WI (J (F (-9007199254740961) (-51)) (F 3602879701896391 (-54)))) Passed;
  T (Mul (J (F (-3602879701896397) (-55)) (F 3602879701896397 (-55))) (J (F (-562949953421311) (-48)) (F 3602879701896397 (-55)))) (WI (J (F (-3602879701896391) (-54)) (F 3602879701896391 (-54)))) Passed;
  T (Mul (J (F (-562949953421311) (-48)) (F (-3602879701896397) (-55))) (J (F 3602879701896397 (-55)) (F 562949953421311 (-48)))) (WI (J (F (-9007199254740961) (-51)) (F (-5764607523034235) (-59)))) Passed].
(** libieeep1788_elem.py, TestCase_minimal_div_test *)
Definition libieeep1788_elem_minimal_div_test : list test := [
  T (Div (J NaN NaN) (J NaN NaN)) (WI (J NaN NaN)) (Shown NaN NaN);
  T (Div (J (F (-1) 0) (F 1 0)) (J NaN NaN)) (WI (J NaN NaN)) (Shown NaN NaN);
  T (Div (J NaN NaN) (J (F (-1) 0) (F 1 0))) (WI (J NaN NaN)) (Raised ValueError);
  T (Div (J NaN NaN) (J (F 3602879701896397 (-55)) (F 1 0))) (WI (J NaN NaN)) (Shown NaN NaN);
  T (Div (J NaN NaN) (J (F (-1) 0) (F (-3602879701896397) (-55)))) (WI (J NaN NaN)) (Shown NaN NaN);
  T (Div (J NaN NaN) (J NInf Inf)) (WI (J NaN NaN)) (Raised ValueError);
  T (Div (J NInf Inf) (J NaN NaN)) (WI (J NaN NaN)) (Shown NaN NaN);
  T (Div (J Z0 Z0) (J NaN NaN)) (WI (J NaN NaN)) (Shown NaN NaN);
  T (Div (J NaN NaN) (J Z0 Z0)) (WI (J NaN NaN)) (Raised ValueError);
  T (Div (J NZ0 NZ0) (J NaN NaN)) (WI (J NaN NaN)) (Shown NaN NaN);
  T (Div (J NaN NaN) (J NZ0 NZ0)) (WI (J NaN NaN)) (Raised ValueError);
  T (Div (J NInf Inf) (J (F (-5) 0) (F (-3) 0))) (WI (J NInf Inf)) Passed;
  T (Div (J NInf Inf) (J (F 3 0) (F 5 0))) (WI (J NInf Inf)) Passed;
  T (Div (J NInf Inf) (J NInf (F (-3) 0))) (WI (J NInf Inf)) (Shown NaN NaN);
  T (Div (J NInf Inf) (J (F 3 0) Inf)) (WI (J NInf Inf)) Passed;
  T (Div (J NInf Inf) (J Z0 Z0)) (WI (J NaN NaN)) (Raised ValueError);
  T (Div (J NInf Inf) (J NZ0 NZ0)) (WI (J NaN NaN)) (Raised ValueError);
  T (Div (J NInf Inf) (J (F (-3) 0) Z0)) (WI (J NInf Inf)) (Raised ValueError);
  T (Div (J NInf Inf) (J (F (-3) 0) NZ0)) (WI (J NInf Inf)) (Raised ValueError);
  T (Div (J NInf Inf) (J (F (-3) 0) (F 3 0))) (WI (J NInf Inf)) (Raised ValueError);
  T (Div (J NInf Inf) (J Z0 (F 3 0))) (WI (J NInf Inf)) (Raised ValueError);
  T (Div (J NInf Inf) (J NInf Z0)) (WI (J NInf Inf)) (Raised ValueError);
  T (Div (J NInf Inf) (J NZ0 (F 3 0))) (WI (J NInf Inf)) (Raised ValueError);
  T (Div (J NInf Inf) (J NInf NZ0)) (WI (J NInf Inf)) (Raised ValueError);
  T (Div (J NInf Inf) (J NInf (F 3 0))) (WI (J NInf Inf)) (Raised ValueError);
  T (Div (J NInf Inf) (J (F (-3) 0) Inf)) (WI (J NInf Inf)) (Raised ValueError);
  T (Div (J NInf Inf) (J Z0 Inf)) (WI (J NInf Inf)) (Raised ValueError);
  T (Div (J NInf Inf) (J NZ0 Inf)) (WI (J NInf Inf)) (Raised ValueError);
  T (Div (J NInf Inf) (J NInf Inf)) (WI (J NInf Inf)) (Raised ValueError);
  T (Div (J (F (-15) 1) (F (-15) 0)) (J (F (-5) 0) (F (-3) 0))) (WI (J (F 3 0) (F 5 1))) Passed;
  T (Div (J (F (-15) 1) (F (-15) 0)) (J (F 3 0) (F 5 0))) (WI (J (F (-5) 1) (F (-3) 0))) Passed;
  T (Div (J (F (-15) 1) (F (-15) 0)) (J NInf (F (-3) 0))) (WI (J Z0 (F 5 1))) Passed;
  T (Div (J (F (-15) 1) (F (-15) 0)) (J (F 3 0) Inf)) (WI (J (F (-5) 1) Z0)) Passed;
  T (Div (J (F (-15) 1) (F (-15) 0)) (J Z0 Z0)) (WI (J NaN NaN)) (Raised ValueError);
  T (Div (J (F (-15) 1) (F (-15) 0)) (J (F (-3) 0) Z0)) (WI (J (F 5 0) Inf)) (Raised ValueError);
  T (Div (J (F (-15) 1) (F (-15) 0)) (J NZ0 NZ0)) (WI (J NaN NaN)) (Raised ValueError);
  T (Div (J (F (-15) 1) (F (-15) 0)) (J (F (-3) 0) NZ0)) (WI (J (F 5 0) Inf)) (Raised ValueError);
  T (Div (J (F (-15) 1) (F (-15) 0)) (J (F (-3) 0) (F 3 0))) (WI (J NInf Inf)) (Raised ValueError);
  T (Div (J (F (-15) 1) (F (-15) 0)) (J Z0 (F 3 0))) (WI (J NInf (F (-5) 0))) (Raised ValueError);
  T (Div (J (F (-15) 1) (F (-15) 0)) (J NInf Z0)) (WI (J Z0 Inf)) (Raised ValueError);
  T (Div (J (F (-15) 1) (F (-15) 0)) (J NZ0 (F 3 0))) (WI (J NInf (F (-5) 0))) (Raised ValueError);
  T (Div (J (F (-15) 1) (F (-15) 0)) (J NInf NZ0)) (WI (J Z0 Inf)) (Raised ValueError);
  T (Div (J (F (-15) 1) (F (-15) 0)) (J NInf (F 3 0))) (WI (J NInf Inf)) (Raised ValueError);
  T (Div (J (F (-15) 1) (F (-15) 0)) (J (F (-3) 0) Inf)) (WI (J NInf Inf)) (Raised ValueError);
  T (Div (J (F (-15) 1) (F (-15) 0)) (J Z0 Inf)) (WI (J NInf Z0)) (Raised ValueError);
  T (Div (J (F (-15) 1) (F (-15) 0)) (J NZ0 Inf)) (WI (J NInf Z0)) (Raised ValueError);
  T (Div (J (F (-15) 1) (F (-15) 0)) (J NInf Inf)) (WI (J NInf Inf)) (Raised ValueError);
  T (Div (J (F (-15) 1) (F 15 0)) (J (F (-5) 0) (F (-3) 0))) (WI (J (F (-5) 0) (F 5 1))) Passed;
  T (Div (J (F (-15) 1) (F 15 0)) (J (F 3 0) (F 5 0))) (WI (J (F (-5) 1) (F 5 0))) Passed;
  T (Div (J (F (-15) 1) (F 15 0)) (J NInf (F (-3) 0))) (WI (J (F (-5) 0) (F 5 1))) Passed;
  T (Div (J (F (-15) 1) (F 15 0)) (J (F 3 0) Inf)) (WI (J (F (-5) 1) (F 5 0))) Passed;
  T (Div (J (F (-15) 1) (F 15 0)) (J Z0 Z0)) (WI (J NaN NaN)) (Raised ValueError);
  T (Div (J (F (-15) 1) (F 15 0)) (J NZ0 NZ0)) (WI (J NaN NaN)) (Raised ValueError);
  T (Div (J (F (-15) 1) (F 15 0)) (J (F (-3) 0) Z0)) (WI (J NInf Inf)) (Raised ValueError);
  T (Div (J (F (-15) 1) (F 15 0)) (J (F (-3) 0) NZ0)) (WI (J NInf Inf)) (Raised ValueError);
  T (Div (J (F (-15) 1) (F 15 0)) (J (F (-3) 0) (F 3 0))) (WI (J NInf Inf)) (Raised ValueError);
  T (Div (J (F (-15) 1) (F 15 0)) (J Z0 (F 3 0))) (WI (J NInf Inf)) (Raised ValueError);
  T (Div (J (F (-15) 1) (F 15 0)) (J NInf Z0)) (WI (J NInf Inf)) (Raised ValueError);
  T (Div (J (F (-15) 1) (F 15 0)) (J NZ0 (F 3 0))) (WI (J NInf Inf)) (Raised ValueError);
  T (Div (J (F (-15) 1) (F 15 0)) (J NInf NZ0)) (WI (J NInf Inf)) (Raised ValueError);
  T (Div (J (F (-15) 1) (F 15 0)) (J NInf (F 3 0))) (WI (J NInf Inf)) (Raised ValueError);
  T (Div (J (F (-15) 1) (F 15 0)) (J (F (-3) 0) Inf)) (WI (J NInf Inf)) (Raised ValueError);
  T (Div (J (F (-15) 1) (F 15 0)) (J Z0 Inf)) (WI (J NInf Inf)) (Raised ValueError);
  T (Div (J (F (-15) 1) (F 15 0)) (J NZ0 Inf)) (WI (J NInf Inf)) (Raised ValueError);
  T (Div (J (F (-15) 1) (F 15 0)) (J NInf Inf)) (WI (J NInf Inf)) (Raised ValueError);
  T (Div (J (F 15 0) (F 15 1)) (J (F (-5) 0) (F (-3) 0))) (WI (J (F (-5) 1) (F (-3) 0))) Passed;
  T (Div (J (F 15 0) (F 15 1)) (J (F 3 0) (F 5 0))) (WI (J (F 3 0) (F 5 1))) Passed;
  T (Div (J (F 15 0) (F 15 1)) (J NInf (F (-3) 0))) (WI (J (F (-5) 1) Z0)) Passed;
  T (Div (J (F 15 0) (F 15 1)) (J (F 3 0) Inf)) (WI (J Z0 (F 5 1))) Passed;
  T (Div (J (F 15 0) (F 15 1)) (J Z0 Z0)) (WI (J NaN NaN)) (Raised ValueError);
  T (Div (J (F 15 0) (F 15 1)) (J (F (-3) 0) Z0)) (WI (J NInf (F (-5) 0))) (Raised ValueError);
  T (Div (J (F 15 0) (F 15 1)) (J NZ0 NZ0)) (WI (J NaN NaN)) (Raised ValueError);
  T (Div (J (F 15 0) (F 15 1)) (J (F (-3) 0) NZ0)) (WI (J NInf (F (-5) 0))) (Raised ValueError);
  T (Div (J (F 15 0) (F 15 1)) (J (F (-3) 0) (F 3 0))) (WI (J NInf Inf)) (Raised ValueError);
  T (Div (J (F 15 0) (F 15 1)) (J Z0 (F 3 0))) (WI (J (F 5 0) Inf)) (Raised ValueError);
  T (Div (J (F 15 0) (F 15 1)) (J NInf Z0)) (WI (J NInf Z0)) (Raised ValueError);
  T (Div (J (F 15 0) (F 15 1)) (J NZ0 (F 3 0))) (WI (J (F 5 0) Inf)) (Raised ValueError);
  T (Div (J (F 15 0) (F 15 1)) (J NInf NZ0)) (WI (J NInf Z0)) (Raised ValueError);
  T (Div (J (F 15 0) (F 15 1)) (J NInf (F 3 0))) (WI (J NInf Inf)) (Raised ValueError);
  T (Div (J (F 15 0) (F 15 1)) (J (F (-3) 0) Inf)) (WI (J NInf Inf)) (Raised ValueError);
  T (Div (J (F 15 0) (F 15 1)) (J Z0 Inf)) (WI (J Z0 Inf)) (Raised ValueError);
  T (Div (J (F 15 0) (F 15 1)) (J NZ0 Inf)) (WI (J Z0 Inf)) (Raised ValueError);
  T (Div (J (F 15 0) (F 15 1)) (J NInf Inf)) (WI (J NInf Inf)) (Raised ValueError);
  T (Div (J Z0 Z0) (J (F (-5) 0) (F (-3) 0))) (WI (J Z0 Z0)) Passed;
  T (Div (J Z0 Z0) (J (F 3 0) (F 5 0))) (WI (J Z0 Z0)) Passed;
  T (Div (J Z0 Z0) (J NInf (F (-3) 0))) (WI (J Z0 Z0)) Passed;
  T (Div (J Z0 Z0) (J (F 3 0) Inf)) (WI (J Z0 Z0)) Passed;
  T (Div (J Z0 Z0) (J Z0 Z0)) (WI (J NaN NaN)) (Raised ValueError);
  T (Div (J Z0 Z0) (J (F (-3) 0) Z0)) (WI (J Z0 Z0)) (Raised ValueError);
  T (Div (J Z0 Z0) (J NZ0 NZ0)) (WI (J NaN NaN)) (Raised ValueError);
  T (Div (J Z0 Z0) (J (F (-3) 0) NZ0)) (WI (J Z0 Z0)) (Raised ValueError);
  T (Div (J Z0 Z0) (J (F (-3) 0) (F 3 0))) (WI (J Z0 Z0)) (Raised ValueError);
  T (Div (J Z0 Z0) (J Z0 (F 3 0))) (WI (J Z0 Z0)) (Raised ValueError);
  T (Div (J Z0 Z0) (J NInf Z0)) (WI (J Z0 Z0)) (Raised ValueError);
  T (Div (J Z0 Z0) (J NZ0 (F 3 0))) (WI (J Z0 Z0)) (Raised ValueError);
  T (Div (J Z0 Z0) (J NInf NZ0)) (WI (J Z0 Z0)) (Raised ValueError);
  T (Div (J Z0 Z0) (J NInf (F 3 0))) (WI (J Z0 Z0)) (Raised ValueError);
  T (Div (J Z0 Z0) (J (F (-3) 0) Inf)) (WI (J Z0 Z0)) (Raised ValueError);
  T (Div (J Z0 Z0) (J Z0 Inf)) (WI (J Z0 Z0)) (Raised ValueError);
  T (Div (J Z0 Z0) (J NZ0 Inf)) (WI (J Z0 Z0)) (Raised ValueError);
  T (Div (J Z0 Z0) (J NInf Inf)) (WI (J Z0 Z0)) (Raised ValueError);
  T (Div (J NZ0 NZ0) (J (F (-5) 0) (F (-3) 0))) (WI (J Z0 Z0)) Passed;
  T (Div (J NZ0 NZ0) (J (F 3 0) (F 5 0))) (WI (J Z0 Z0)) Passed;
  T (Div (J NZ0 NZ0) (J NInf (F (-3) 0))) (WI (J Z0 Z0)) Passed;
  T (Div (J NZ0 NZ0) (J (F 3 0) Inf)) (WI (J Z0 Z0)) Passed;
  T (Div (J NZ0 NZ0) (J Z0 Z0)) (WI (J NaN NaN)) (Raised ValueError);
  T (Div (J NZ0 NZ0) (J (F (-3) 0) Z0)) (WI (J Z0 Z0)) (Raised ValueError);
  T (Div (J NZ0 NZ0) (J NZ0 NZ0)) (WI (J NaN NaN)) (Raised ValueError);
  T (Div (J NZ0 NZ0) (J (F (-3) 0) NZ0)) (WI (J Z0 Z0)) (Raised ValueError);
  T (Div (J NZ0 NZ0) (J (F (-3) 0) (F 3 0))) (WI (J Z0 Z0)) (Raised ValueError);
  T (Div (J NZ0 NZ0) (J Z0 (F 3 0))) (WI (J Z0 Z0)) (Raised ValueError);
  T (Div (J NZ0 NZ0) (J NInf Z0)) (WI (J Z0 Z0)) (Raised ValueError);
  T (Div (J NZ0 NZ0) (J NZ0 (F 3 0))) (WI (J Z0 Z0)) (Raised ValueError);
  T (Div (J NZ0 NZ0) (J NInf NZ0)) (WI (J Z0 Z0)) (Raised ValueError);
  T (Div (J NZ0 NZ0) (J NInf (F 3 0))) (WI (J Z0 Z0)) (Raised ValueError);
  T (Div (J NZ0 NZ0) (J (F (-3) 0) Inf)) (WI (J Z0 Z0)) (Raised ValueError);
  T (Div (J NZ0 NZ0) (J Z0 Inf)) (WI (J Z0 Z0)) (Raised ValueError);
  T (Div (J NZ0 NZ0) (J NZ0 Inf)) (WI (J Z0 Z0)) (Raised ValueError);
  T (Div (J NZ0 NZ0) (J NInf Inf)) (WI (J Z0 Z0)) (Raised ValueError);
  T (Div (J NInf (F (-15) 0)) (J (F (-5) 0) (F (-3) 0))) (WI (J (F 3 0) Inf)) Passed;
  T (Div (J NInf (F (-15) 0)) (J (F 3 0) (F 5 0))) (WI (J NInf (F (-3) 0))) Passed;
  T (Div (J NInf (F (-15) 0)) (J NInf (F (-3) 0))) (WI (J Z0 Inf)) (Shown NaN NaN);
  T (Div (J NInf (F (-15) 0)) (J (F 3 0) Inf)) (WI (J NInf Z0)) Passed;
  T (Div (J NInf (F (-15) 0)) (J Z0 Z0)) (WI (J NaN NaN)) (Raised ValueError);
  T (Div (J NInf (F (-15) 0)) (J (F (-3) 0) Z0)) (WI (J (F 5 0) Inf)) (Raised ValueError);
  T (Div (J NInf (F (-15) 0)) (J NZ0 NZ0)) (WI (J NaN NaN)) (Raised ValueError);
  T (Div (J NInf (F (-15) 0)) (J (F (-3) 0) NZ0)) (WI (J (F 5 0) Inf)) (Raised ValueError);
  T (Div (J NInf (F (-15) 0)) (J (F (-3) 0) (F 3 0))) (WI (J NInf Inf)) (Raised ValueError);
  T (Div (J NInf (F (-15) 0)) (J Z0 (F 3 0))) (WI (J NInf (F (-5) 0))) (Raised ValueError);
  T (Div (J NInf (F (-15) 0)) (J NInf Z0)) (WI (J Z0 Inf)) (Raised ValueError);
  T (Div (J NInf (F (-15) 0)) (J NZ0 (F 3 0))) (WI (J NInf (F (-5) 0))) (Raised ValueError);
  T (Div (J NInf (F (-15) 0)) (J NInf NZ0)) (WI (J Z0 Inf)) (Raised ValueError);
  T (Div (J NInf (F (-15) 0)) (J NInf (F 3 0))) (WI (J NInf Inf)) (Raised ValueError);
  T (Div (J NInf (F (-15) 0)) (J (F (-3) 0) Inf)) (WI (J NInf Inf)) (Raised ValueError);
  T (Div (J NInf (F (-15) 0)) (J Z0 Inf)) (WI (J NInf Z0)) (Raised ValueError);
  T (Div (J NInf (F (-15) 0)) (J NZ0 Inf)) (WI (J NInf Z0)) (Raised ValueError);
  T (Div (J NInf (F (-15) 0)) (J NInf Inf)) (WI (J NInf Inf)) (Raised ValueError);
  T (Div (J NInf (F 15 0)) (J (F (-5) 0) (F (-3) 0))) (WI (J (F (-5) 0) Inf)) Passed;
  T (Div (J NInf (F 15 0)) (J (F 3 0) (F 5 0))) (WI (J NInf (F 5 0))) Passed;
  T (Div (J NInf (F 15 0)) (J NInf (F (-3) 0))) (WI (J (F (-5) 0) Inf)) (Shown NaN NaN);
  T (Div (J NInf (F 15 0)) (J (F 3 0) Inf)) (WI (J NInf (F 5 0))) Passed;
  T (Div (J NInf (F 15 0)) (J Z0 Z0)) (WI (J NaN NaN)) (Raised ValueError);
  T (Div (J NInf (F 15 0)) (J (F (-3) 0) Z0)) (WI (J NInf Inf)) (Raised ValueError);
  T (Div (J NInf (F 15 0)) (J NZ0 NZ0)) (WI (J NaN NaN)) (Raised ValueError);
  T (Div (J NInf (F 15 0)) (J (F (-3) 0) NZ0)) (WI (J NInf Inf)) (Raised ValueError);
  T (Div (J NInf (F 15 0)) (J (F (-3) 0) (F 3 0))) (WI (J NInf Inf)) (Raised ValueError);
  T (Div (J NInf (F 15 0)) (J Z0 (F 3 0))) (WI (J NInf Inf)) (Raised ValueError);
  T (Div (J NInf (F 15 0)) (J NInf Z0)) (WI (J NInf Inf)) (Raised ValueError);
  T (Div (J NInf (F 15 0)) (J NZ0 (F 3 0))) (WI (J NInf Inf)) (Raised ValueError);
  T (Div (J NInf (F 15 0)) (J NInf NZ0)) (WI (J NInf Inf)) (Raised ValueError);
  T (Div (J NInf (F 15 0)) (J NInf (F 3 0))) (WI (J NInf Inf)) (Raised ValueError);
  T (Div (J NInf (F 15 0)) (J (F (-3) 0) Inf)) (WI (J NInf Inf)) (Raised ValueError);
  T (Div (J NInf (F 15 0)) (J Z0 Inf)) (WI (J NInf Inf)) (Raised ValueError);
  T (Div (J NInf (F 15 0)) (J NZ0 Inf)) (WI (J NInf Inf)) (Raised ValueError);
  T (Div (J NInf (F 15 0)) (J NInf Inf)) (WI (J NInf Inf)) (Raised ValueError);
  T (Div (J (F (-15) 0) Inf) (J (F (-5) 0) (F (-3) 0))) (WI (J NInf (F 5 0))) Passed;
  T (Div (J (F (-15) 0) Inf) (J (F 3 0) (F 5 0))) (WI (J (F (-5) 0) Inf)) Passed;
  T (Div (J (F (-15) 0) Inf) (J NInf (F (-3) 0))) (WI (J NInf (F 5 0))) Passed;
  T (Div (J (F (-15) 0) Inf) (J (F 3 0) Inf)) (WI (J (F (-5) 0) Inf)) Passed;
  T (Div (J (F (-15) 0) Inf) (J Z0 Z0)) (WI (J NaN NaN)) (Raised ValueError);
  T (Div (J (F (-15) 0) Inf) (J (F (-3) 0) Z0)) (WI (J NInf Inf)) (Raised ValueError);
  T (Div (J (F (-15) 0) Inf) (J NZ0 NZ0)) (WI (J NaN NaN)) (Raised ValueError);
  T (Div (J (F (-15) 0) Inf) (J (F (-3) 0) NZ0)) (WI (J NInf Inf)) (Raised ValueError);
  T (Div (J (F (-15) 0) Inf) (J (F (-3) 0) (F 3 0))) (WI (J NInf Inf)) (Raised ValueError);
  T (Div (J (F (-15) 0) Inf) (J Z0 (F 3 0))) (WI (J NInf Inf)) (Raised ValueError);
  T (Div (J (F (-15) 0) Inf) (J NInf Z0)) (WI (J NInf Inf)) (Raised ValueError);
  T (Div (J (F (-15) 0) Inf) (J NZ0 (F 3 0))) (WI (J NInf Inf)) (Raised ValueError);
  T (Div (J (F (-15) 0) Inf) (J NInf NZ0)) (WI (J NInf Inf)) (Raised ValueError);
  T (Div (J (F (-15) 0) Inf) (J NInf (F 3 0))) (WI (J NInf Inf)) (Raised ValueError);
  T (Div (J (F (-15) 0) Inf) (J (F (-3) 0) Inf)) (WI (J NInf Inf)) (Raised ValueError);
  T (Div (J (F (-15) 0) Inf) (J Z0 Inf)) (WI (J NInf Inf)) (Raised ValueError);
  T (Div (J (F (-15) 0) Inf) (J NZ0 Inf)) (WI (J NInf Inf)) (Raised ValueError);
  T (Div (J (F (-15) 0) Inf) (J NInf Inf)) (WI (J NInf Inf)) (Raised ValueError);
  T (Div (J (F 15 0) Inf) (J (F (-5) 0) (F (-3) 0))) (WI (J NInf (F (-3) 0))) Passed;
  T (Div (J (F 15 0) Inf) (J (F 3 0) (F 5 0))) (WI (J (F 3 0) Inf)) Passed;
  T (Div (J (F 15 0) Inf) (J NInf (F (-3) 0))) (WI (J NInf Z0)) Passed;
  T (Div (J (F 15 0) Inf) (J (F 3 0) Inf)) (WI (J Z0 Inf)) Passed;
  T (Div (J (F 15 0) Inf) (J Z0 Z0)) (WI (J NaN NaN)) (Raised ValueError);
  T (Div (J (F 15 0) Inf) (J (F (-3) 0) Z0)) (WI (J NInf (F (-5) 0))) (Raised ValueError);
  T (Div (J (F 15 0) Inf) (J NZ0 NZ0)) (WI (J NaN NaN)) (Raised ValueError);
  T (Div (J (F 15 0) Inf) (J (F (-3) 0) NZ0)) (WI (J NInf (F (-5) 0))) (Raised ValueError);
  T (Div (J (F 15 0) Inf) (J (F (-3) 0) (F 3 0))) (WI (J NInf Inf)) (Raised ValueError);
  T (Div (J (F 15 0) Inf) (J Z0 (F 3 0))) (WI (J (F 5 0) Inf)) (Raised ValueError);
  T (Div (J (F 15 0) Inf) (J NInf Z0)) (WI (J NInf Z0)) (Raised ValueError);
  T (Div (J (F 15 0) Inf) (J NZ0 (F 3 0))) (WI (J (F 5 0) Inf)) (Raised ValueError);
  T (Div (J (F 15 0) Inf) (J NInf NZ0)) (WI (J NInf Z0)) (Raised ValueError);
  T (Div (J (F 15 0) Inf) (J NInf (F 3 0))) (WI (J NInf Inf)) (Raised ValueError);
  T (Div (J (F 15 0) Inf) (J (F (-3) 0) Inf)) (WI (J NInf Inf)) (Raised ValueError);
  T (Div (J (F 15 0) Inf) (J Z0 Inf)) (WI (J Z0 Inf)) (Raised ValueError);
  T (Div (J (F 15 0) Inf) (J NZ0 Inf)) (WI (J Z0 Inf)) (Raised ValueError);
  T (Div (J (F 15 0) Inf) (J NInf Inf)) (WI (J NInf Inf)) (Raised ValueError);
  T (Div (J (F (-15) 1) Z0) (J (F (-5) 0) (F (-3) 0))) (WI (J Z0 (F 5 1))) Passed;
  T (Div (J (F (-15) 1) Z0) (J (F 3 0) (F 5 0))) (WI (J (F (-5) 1) Z0)) Passed;
  T (Div (J (F (-15) 1) Z0) (J NInf (F (-3) 0))) (WI (J Z0 (F 5 1))) Passed;
  T (Div (J (F (-15) 1) Z0) (J (F 3 0) Inf)) (WI (J (F (-5) 1) Z0)) Passed;
  T (Div (J (F (-15) 1) Z0) (J Z0 Z0)) (WI (J NaN NaN)) (Raised ValueError);
  T (Div (J (F (-15) 1) Z0) (J (F (-3) 0) Z0)) (WI (J Z0 Inf)) (Raised ValueError);
  T (Div (J (F (-15) 1) Z0) (J NZ0 NZ0)) (WI (J NaN NaN)) (Raised ValueError);
  T (Div (J (F (-15) 1) Z0) (J (F (-3) 0) NZ0)) (WI (J Z0 Inf)) (Raised ValueError);
  T (Div (J (F (-15) 1) Z0) (J (F (-3) 0) (F 3 0))) (WI (J NInf Inf)) (Raised ValueError);
  T (Div (J (F (-15) 1) Z0) (J Z0 (F 3 0))) (WI (J NInf Z0)) (Raised ValueError);
  T (Div (J (F (-15) 1) Z0) (J NInf Z0)) (WI (J Z0 Inf)) (Raised ValueError);
  T (Div (J (F (-15) 1) Z0) (J NZ0 (F 3 0))) (WI (J NInf Z0)) (Raised ValueError);
  T (Div (J (F (-15) 1) Z0) (J NInf NZ0)) (WI (J Z0 Inf)) (Raised ValueError);
  T (Div (J (F (-15) 1) Z0) (J NInf (F 3 0))) (WI (J NInf Inf)) (Raised ValueError);
  T (Div (J (F (-15) 1) Z0) (J (F (-3) 0) Inf)) (WI (J NInf Inf)) (Raised ValueError);
  T (Div (J (F (-15) 1) Z0) (J Z0 Inf)) (WI (J NInf Z0)) (Raised ValueError);
  T (Div (J (F (-15) 1) Z0) (J NZ0 Inf)) (WI (J NInf Z0)) (Raised ValueError);
  T (Div (J (F (-15) 1) Z0) (J NInf Inf)) (WI (J NInf Inf)) (Raised ValueError);
  T (Div (J (F (-15) 1) NZ0) (J (F (-5) 0) (F (-3) 0))) (WI (J Z0 (F 5 1))) Passed;
  T (Div (J (F (-15) 1) NZ0) (J (F 3 0) (F 5 0))) (WI (J (F (-5) 1) Z0)) Passed;
  T (Div (J (F (-15) 1) NZ0) (J NInf (F (-3) 0))) (WI (J Z0 (F 5 1))) Passed;
  T (Div (J (F (-15) 1) NZ0) (J (F 3 0) Inf)) (WI (J (F (-5) 1) Z0)) Passed;
  T (Div (J (F (-15) 1) NZ0) (J Z0 Z0)) (WI (J NaN NaN)) (Raised ValueError);
  T (Div (J (F (-15) 1) NZ0) (J (F (-3) 0) Z0)) (WI (J Z0 Inf)) (Raised ValueError);
  T (Div (J (F (-15) 1) NZ0) (J NZ0 NZ0)) (WI (J NaN NaN)) (Raised ValueError);
  T (Div (J (F (-15) 1) NZ0) (J (F (-3) 0) NZ0)) (WI (J Z0 Inf)) (Raised ValueError);
  T (Div (J (F (-15) 1) NZ0) (J (F (-3) 0) (F 3 0))) (WI (J NInf Inf)) (Raised ValueError);
  T (Div (J (F (-15) 1) NZ0) (J Z0 (F 3 0))) (WI (J NInf Z0)) (Raised ValueError);
  T (Div (J (F (-15) 1) NZ0) (J NInf Z0)) (WI (J Z0 Inf)) (Raised ValueError);
  T (Div (J (F (-15) 1) NZ0) (J NZ0 (F 3 0))) (WI (J NInf Z0)) (Raised ValueError);
  T (Div (J (F (-15) 1) NZ0) (J NInf NZ0)) (WI (J Z0 Inf)) (Raised ValueError);
  T (Div (J (F (-15) 1) NZ0) (J NInf (F 3 0))) (WI (J NInf Inf)) (Raised ValueError);
  T (Div (J (F (-15) 1) NZ0) (J (F (-3) 0) Inf)) (WI (J NInf Inf)) (Raised ValueError);
  T (Div (J (F (-15) 1) NZ0) (J Z0 Inf)) (WI (J NInf Z0)) (Raised ValueError);
  T (Div (J (F (-15) 1) NZ0) (J NZ0 Inf)) (WI (J NInf Z0)) (Raised ValueError);
  T (Div (J (F (-15) 1) NZ0) (J NInf Inf)) (WI (J NInf Inf)) (Raised ValueError);
  T (Div (J Z0 (F 15 1)) (J (F (-5) 0) (F (-3) 0))) (WI (J (F (-5) 1) Z0)) Passed;
  T (Div (J Z0 (F 15 1)) (J (F 3 0) (F 5 0))) (WI (J Z0 (F 5 1))) Passed;
  T (Div (J Z0 (F 15 1)) (J NInf (F (-3) 0))) (WI (J (F (-5) 1) Z0)) Passed;
  T (Div (J Z0 (F 15 1)) (J (F 3 0) Inf)) (WI (J Z0 (F 5 1))) Passed;
  T (Div (J Z0 (F 15 1)) (J Z0 Z0)) (WI (J NaN NaN)) (Raised ValueError);
  T (Div (J Z0 (F 15 1)) (J (F (-3) 0) Z0)) (WI (J NInf Z0)) (Raised ValueError);
  T (Div (J Z0 (F 15 1)) (J NZ0 NZ0)) (WI (J NaN NaN)) (Raised ValueError);
  T (Div (J Z0 (F 15 1)) (J (F (-3) 0) NZ0)) (WI (J NInf Z0)) (Raised ValueError);
  T (Div (J Z0 (F 15 1)) (J (F (-3) 0) (F 3 0))) (WI (J NInf Inf)) (Raised ValueError);
  T (Div (J Z0 (F 15 1)) (J Z0 (F 3 0))) (WI (J Z0 Inf)) (Raised ValueError);
  T (Div (J Z0 (F 15 1)) (J NInf Z0)) (WI (J NInf Z0)) (Raised ValueError);
  T (Div (J Z0 (F 15 1)) (J NZ0 (F 3 0))) (WI (J Z0 Inf)) (Raised ValueError);
  T (Div (J Z0 (F 15 1)) (J NInf NZ0)) (WI (J NInf Z0)) (Raised ValueError);
  T (Div (J Z0 (F 15 1)) (J NInf (F 3 0))) (WI (J NInf Inf)) (Raised ValueError);
  T (Div (J Z0 (F 15 1)) (J (F (-3) 0) Inf)) (WI (J NInf Inf)) (Raised ValueError);
  T (Div (J Z0 (F 15 1)) (J Z0 Inf)) (WI (J Z0 Inf)) (Raised ValueError);
  T (Div (J Z0 (F 15 1)) (J NZ0 Inf)) (WI (J Z0 Inf)) (Raised ValueError);
  T (Div (J Z0 (F 15 1)) (J NInf Inf)) (WI (J NInf Inf)) (Raised ValueError);
  T (Div (J NZ0 (F 15 1)) (J (F (-5) 0) (F (-3) 0))) (WI (J (F (-5) 1) Z0)) Passed;
  T (Div (J NZ0 (F 15 1)) (J (F 3 0) (F 5 0))) (WI (J Z0 (F 5 1))) Passed;
  T (Div (J NZ0 (F 15 1)) (J NInf (F (-3) 0))) (WI (J (F (-5) 1) Z0)) Passed;
  T (Div (J NZ0 (F 15 1)) (J (F 3 0) Inf)) (WI (J Z0 (F 5 1))) Passed;
  T (Div (J NZ0 (F 15 1)) (J Z0 Z0)) (WI (J NaN NaN)) (Raised ValueError);
  T (Div (J NZ0 (F 15 1)) (J (F (-3) 0) Z0)) (WI (J NInf Z0)) (Raised ValueError);
  T (Div (J NZ0 (F 15 1)) (J NZ0 NZ0)) (WI (J NaN NaN)) (Raised ValueError);
  T (Div (J NZ0 (F 15 1)) (J (F (-3) 0) NZ0)) (WI (J NInf Z0)) (Raised ValueError);
  T (Div (J NZ0 (F 15 1)) (J (F (-3) 0) (F 3 0))) (WI (J NInf Inf)) (Raised ValueError);
  T (Div (J NZ0 (F 15 1)) (J Z0 (F 3 0))) (WI (J Z0 Inf)) (Raised ValueError);
  T (Div (J NZ0 (F 15 1)) (J NInf Z0)) (WI (J NInf Z0)) (Raised ValueError);
  T (Div (J NZ0 (F 15 1)) (J NZ0 (F 3 0))) (WI (J Z0 Inf)) (Raised ValueError);
  T (Div (J NZ0 (F 15 1)) (J NInf NZ0)) (WI (J NInf Z0)) (Raised ValueError);
  T (Div (J NZ0 (F 15 1)) (J NInf (F 3 0))) (WI (J NInf Inf)) (Raised ValueError);
  T (Div (J NZ0 (F 15 1)) (J (F (-3) 0) Inf)) (WI (J NInf Inf)) (Raised ValueError);
  T (Div (J NZ0 (F 15 1)) (J Z0 Inf)) (WI (J Z0 Inf)) (Raised ValueError);
  T (Div (J NZ0 (F 15 1)) (J NZ0 Inf)) (WI (J Z0 Inf)) (Raised ValueError);
  T (Div (J NZ0 (F 15 1)) (J NInf Inf)) (WI (J NInf Inf)) (Raised ValueError);
  T (Div (J NInf Z0) (J (F (-5) 0) (F (-3) 0))) (WI (J Z0 Inf)) Passed;
  T (Div (J NInf Z0) (J (F 3 0) (F 5 0))) (WI (J NInf Z0)) Passed;
  T (Div (J NInf Z0) (J NInf (F (-3) 0))) (WI (J Z0 Inf)) (Shown NaN NaN);
  T (Div (J NInf Z0) (J (F 3 0) Inf)) (WI (J NInf Z0)) Passed;
  T (Div (J NInf Z0) (J Z0 Z0)) (WI (J NaN NaN)) (Raised ValueError);
  T (Div (J NInf Z0) (J (F (-3) 0) Z0)) (WI (J Z0 Inf)) (Raised ValueError);
  T (Div (J NInf Z0) (J NZ0 NZ0)) (WI (J NaN NaN)) (Raised ValueError);
  T (Div (J NInf Z0) (J (F (-3) 0) NZ0)) (WI (J Z0 Inf)) (Raised ValueError);
  T (Div (J NInf Z0) (J (F (-3) 0) (F 3 0))) (WI (J NInf Inf)) (Raised ValueError);
  T (Div (J NInf Z0) (J Z0 (F 3 0))) (WI (J NInf Z0)) (Raised ValueError);
  T (Div (J NInf Z0) (J NInf Z0)) (WI (J Z0 Inf)) (Raised ValueError);
  T (Div (J NInf Z0) (J NZ0 (F 3 0))) (WI (J NInf Z0)) (Raised ValueError);
  T (Div (J NInf Z0) (J NInf NZ0)) (WI (J Z0 Inf)) (Raised ValueError);
  T (Div (J NInf Z0) (J NInf (F 3 0))) (WI (J NInf Inf)) (Raised ValueError);
  T (Div (J NInf Z0) (J (F (-3) 0) Inf)) (WI (J NInf Inf)) (Raised ValueError);
  T (Div (J NInf Z0) (J Z0 Inf)) (WI (J NInf Z0)) (Raised ValueError);
  T (Div (J NInf Z0) (J NZ0 Inf)) (WI (J NInf Z0)) (Raised ValueError);
  T (Div (J NInf Z0) (J NInf Inf)) (WI (J NInf Inf)) (Raised ValueError);
  T (Div (J NInf NZ0) (J (F (-5) 0) (F (-3) 0))) (WI (J Z0 Inf)) Passed;
  T (Div (J NInf NZ0) (J (F 3 0) (F 5 0))) (WI (J NInf Z0)) Passed;
  T (Div (J NInf NZ0) (J NInf (F (-3) 0))) (WI (J Z0 Inf)) (Shown NaN NaN);
  T (Div (J NInf NZ0) (J (F 3 0) Inf)) (WI (J NInf Z0)) Passed;
  T (Div (J NInf NZ0) (J Z0 Z0)) (WI (J NaN NaN)) (Raised ValueError);
  T (Div (J NInf NZ0) (J (F (-3) 0) Z0)) (WI (J Z0 Inf)) (Raised ValueError);
  T (Div (J NInf NZ0) (J NZ0 NZ0)) (WI (J NaN NaN)) (Raised ValueError);
  T (Div (J NInf NZ0) (J (F (-3) 0) NZ0)) (WI (J Z0 Inf)) (Raised ValueError);
  T (Div (J NInf NZ0) (J (F (-3) 0) (F 3 0))) (WI (J NInf Inf)) (Raised ValueError);
  T (Div (J NInf NZ0) (J Z0 (F 3 0))) (WI (J NInf Z0)) (Raised ValueError);
  T (Div (J NInf NZ0) (J NInf Z0)) (WI (J Z0 Inf)) (Raised ValueError);
  T (Div (J NInf NZ0) (J NZ0 (F 3 0))) (WI (J NInf Z0)) (Raised ValueError);
  T (Div (J NInf NZ0) (J NInf NZ0)) (WI (J Z0 Inf)) (Raised ValueError);
  T (Div (J NInf NZ0) (J NInf (F 3 0))) (WI (J NInf Inf)) (Raised ValueError);
  T (Div (J NInf NZ0) (J (F (-3) 0) Inf)) (WI (J NInf Inf)) (Raised ValueError);
  T (Div (J NInf NZ0) (J Z0 Inf)) (WI (J NInf Z0)) (Raised ValueError);
  T (Div (J NInf NZ0) (J NZ0 Inf)) (WI (J NInf Z0)) (Raised ValueError);
  T (Div (J NInf NZ0) (J NInf Inf)) (WI (J NInf Inf)) (Raised ValueError);
  T (Div (J Z0 Inf) (J (F (-5) 0) (F (-3) 0))) (WI (J NInf Z0)) Passed;
  T (Div (J Z0 Inf) (J (F 3 0) (F 5 0))) (WI (J Z0 Inf)) Passed;
  T (Div (J Z0 Inf) (J NInf (F (-3) 0))) (WI (J NInf Z0)) Passed;
  T (Div (J Z0 Inf) (J (F 3 0) Inf)) (WI (J Z0 Inf)) Passed;
  T (Div (J Z0 Inf) (J Z0 Z0)) (WI (J NaN NaN)) (Raised ValueError);
  T (Div (J Z0 Inf) (J (F (-3) 0) Z0)) (WI (J NInf Z0)) (Raised ValueError);
  T (Div (J Z0 Inf) (J NZ0 NZ0)) (WI (J NaN NaN)) (Raised ValueError);
  T (Div (J Z0 Inf) (J (F (-3) 0) NZ0)) (WI (J NInf Z0)) (Raised ValueError);
  T (Div (J Z0 Inf) (J (F (-3) 0) (F 3 0))) (WI (J NInf Inf)) (Raised ValueError);
  T (Div (J Z0 Inf) (J Z0 (F 3 0))) (WI (J Z0 Inf)) (Raised ValueError);
  T (Div (J Z0 Inf) (J NInf Z0)) (WI (J NInf Z0)) (Raised ValueError);
  T (Div (J Z0 Inf) (J NZ0 (F 3 0))) (WI (J Z0 Inf)) (Raised ValueError);
  T (Div (J Z0 Inf) (J NInf NZ0)) (WI (J NInf Z0)) (Raised ValueError);
  T (Div (J Z0 Inf) (J NInf (F 3 0))) (WI (J NInf Inf)) (Raised ValueError);
  T (Div (J Z0 Inf) (J (F (-3) 0) Inf)) (WI (J NInf Inf)) (Raised ValueError);
  T (Div (J Z0 Inf) (J Z0 Inf)) (WI (J Z0 Inf)) (Raised ValueError);
  T (Div (J Z0 Inf) (J NZ0 Inf)) (WI (J Z0 Inf)) (Raised ValueError);
  T (Div (J Z0 Inf) (J NInf Inf)) (WI (J NInf Inf)) (Raised ValueError);
  T (Div (J NZ0 Inf) (J (F (-5) 0) (F (-3) 0))) (WI (J NInf Z0)) Passed;
  T (Div (J NZ0 Inf) (J (F 3 0) (F 5 0))) (WI (J Z0 Inf)) Passed;
  T (Div (J NZ0 Inf) (J NInf (F (-3) 0))) (WI (J NInf Z0)) Passed;
  T (Div (J NZ0 Inf) (J (F 3 0) Inf)) (WI (J Z0 Inf)) Passed;
  T (Div (J NZ0 Inf) (J Z0 Z0)) (WI (J NaN NaN)) (Raised ValueError);
  T (Div (J NZ0 Inf) (J (F (-3) 0) Z0)) (WI (J NInf Z0)) (Raised ValueError);
  T (Div (J NZ0 Inf) (J NZ0 NZ0)) (WI (J NaN NaN)) (Raised ValueError);
  T (Div (J NZ0 Inf) (J (F (-3) 0) NZ0)) (WI (J NInf Z0)) (Raised ValueError);
  T (Div (J NZ0 Inf) (J (F (-3) 0) (F 3 0))) (WI (J NInf Inf)) (Raised ValueError);
  T (Div (J NZ0 Inf) (J Z0 (F 3 0))) (WI (J Z0 Inf)) (Raised ValueError);
  T (Div (J NZ0 Inf) (J NInf Z0)) (WI (J NInf Z0)) (Raised ValueError);
  T (Div (J NZ0 Inf) (J NZ0 (F 3 0))) (WI (J Z0 Inf)) (Raised ValueError);
  T (Div (J NZ0 Inf) (J NInf NZ0)) (WI (J NInf Z0)) (Raised ValueError);
  T (Div (J NZ0 Inf) (J NInf (F 3 0))) (WI (J NInf Inf)) (Raised ValueError);
  T (Div (J NZ0 Inf) (J (F (-3) 0) Inf)) (WI (J NInf Inf)) (Raised ValueError);
  T (Div (J NZ0 Inf) (J Z0 Inf)) (WI (J Z0 Inf)) (Raised ValueError);
  T (Div (J NZ0 Inf) (J NZ0 Inf)) (WI (J Z0 Inf)) (Raised ValueError);
  T (Div (J NZ0 Inf) (J NInf Inf)) (WI (J NInf Inf)) (Raised ValueError);
  T (Div (J (F (-1) 1) (F (-1) 0)) (J (F (-5) 1) (F (-3) 0))) (WI (J (F 7205759403792793 (-56)) (F 3002399751580331 (-52)))) Passed;
  T (Div (J (F (-1) 1) (F (-1) 0)) (J Z0 (F 5 1))) (WI (J NInf (F (-7205759403792793) (-56)))) (Raised ValueError);
  T (Div (J (F (-1) 1) (F (-1) 0)) (J NZ0 (F 5 1))) (WI (J NInf (F (-7205759403792793) (-56)))) (Raised ValueError);
  T (Div (J (F (-1) 0) (F 1 1)) (J (F 5 1) Inf)) (WI (J (F (-3602879701896397) (-55)) (F 3602879701896397 (-54)))) Passed;
  T (Div (J (F 1 0) (F 3 0)) (J NInf (F (-5) 1))) (WI (J (F (-1351079888211149) (-52)) Z0)) Passed;
  T (Div (J NInf (F (-1) 0)) (J (F 1 0) (F 3 0))) (WI (J NInf (F (-6004799503160661) (-54)))) Passed].
(** libieeep1788_elem.py, TestCase_minimal_sqrt_test *)
Definition libieeep1788_elem_minimal_sqrt_test : list test := [
  T (Fun Fsqrt (J NaN NaN)) (WI (J NaN NaN)) (Shown NaN NaN);
  T (Fun Fsqrt (J NInf Inf)) (WI (J Z0 Inf)) (Shown (F (-1) (-1074)) (F 4503591773880663 972));
  T (Fun Fsqrt (J NInf (F (-1) (-1074)))) (WI (J NaN NaN)) (Shown NaN NaN);
  T (Fun Fsqrt (J (F (-1) 0) (F 1 0))) (WI (J Z0 (F 1 0))) (Shown (F (-1) (-1074)) (F 1 0));
  T (Fun Fsqrt (J Z0 (F 1 0))) (WI (J Z0 (F 1 0))) (Shown (F (-1) (-1074)) (F 1 0));
  T (Fun Fsqrt (J NZ0 (F 1 0))) (WI (J Z0 (F 1 0))) (Shown (F (-1) (-1074)) (F 1 0));
  T (Fun Fsqrt (J (F (-5) 0) (F 25 0))) (WI (J Z0 (F 5 0))) (Shown (F (-1) (-1074)) (F 5 0));
  T (Fun Fsqrt (J Z0 (F 25 0))) (WI (J Z0 (F 5 0))) (Shown (F (-1) (-1074)) (F 5 0));
  T (Fun Fsqrt (J NZ0 (F 25 0))) (WI (J Z0 (F 5 0))) (Shown (F (-1) (-1074)) (F 5 0));
  T (Fun Fsqrt (J (F (-5) 0) Inf)) (WI (J Z0 Inf)) (Shown (F (-1) (-1074)) (F 4503591773880663 972));
  T (Fun Fsqrt (J (F 3602879701896397 (-55)) (F 3602879701896397 (-55)))) (WI (J (F 5696652996790543 (-54)) (F 356040812299409 (-50)))) (Shown (F 5696657211856469 (-54)) (F 5696657211856469 (-54)));
  T (Fun Fsqrt (J (F (-562949953421311) (-48)) (F 3602879701896397 (-55)))) (WI (J Z0 (F 356040812299409 (-50)))) (Shown (F (-1) (-1074)) (F 5696657211856469 (-54)));
  T (Fun Fsqrt (J (F 3602879701896397 (-55)) (F 562949953421311 (-48)))) (WI (J (F 5696652996790543 (-54)) (F 6369051672525767 (-52)))) (Shown (F 5696657211856469 (-54)) (F 6369035629023629 (-52)))].
(** libieeep1788_elem.py, TestCase_minimal_exp_test *)
Definition libieeep1788_elem_minimal_exp_test : list test := [
  T (Fun Fexp (J NaN NaN)) (WI (J NaN NaN)) (Shown NaN NaN);
  T (Fun Fexp (J NInf Z0)) (WI (J Z0 (F 1 0))) (Shown (F (-1) (-1074)) (F 1 0));
  T (Fun Fexp (J NInf NZ0)) (WI (J Z0 (F 1 0))) (Shown (F (-1) (-1074)) (F 1 0));
  T (Fun Fexp (J Z0 Inf)) (WI (J (F 1 0) Inf)) (Shown (F 1 0) (F 4503591773880663 972));
  T (Fun Fexp (J NZ0 Inf)) (WI (J (F 1 0) Inf)) (Shown (F 1 0) (F 4503591773880663 972));
  T (Fun Fexp (J NInf Inf)) (WI (J Z0 Inf)) (Shown (F (-1) (-1074)) (F 4503591773880663 972));
  T (Fun Fexp (J NInf (F 390207173010335 (-39)))) (WI (J Z0 Inf)) (Shown Inf Inf);
  T (Fun Fexp (J (F 390207173010335 (-39)) (F 390207173010335 (-39)))) (WI (J (F 9007199254740991 971) Inf)) (Shown Inf Inf);
  T (Fun Fexp (J Z0 (F 195103586505167 (-38)))) (WI (J (F 1 0) (F 9007199254725419 971))) (Shown (F 1 0) (F 4503591773880663 972));
  T (Fun Fexp (J NZ0 (F 195103586505167 (-38)))) (WI (J (F 1 0) (F 9007199254725419 971))) (Shown (F 1 0) (F 4503591773880663 972));
  T (Fun Fexp (J (F (-6231120794008787) (-43)) (F 195103586505167 (-38)))) (WI (J (F 4503599627370107 (-1074)) (F 9007199254725419 971))) Passed;
  T (Fun Fexp (J (F (-6231120794008787) (-44)) (F 195103586505167 (-38)))) (WI (J (F 9007199254740603 (-564)) (F 9007199254725419 971))) Passed;
  T (Fun Fexp (J (F (-6231120794008787) (-44)) Z0)) (WI (J (F 9007199254740603 (-564)) (F 1 0))) (Shown (F 4503605224186839 (-563)) (F 1 0));
  T (Fun Fexp (J (F (-6231120794008787) (-44)) NZ0)) (WI (J (F 9007199254740603 (-564)) (F 1 0))) (Shown (F 4503605224186839 (-563)) (F 1 0));
  T (Fun Fexp (J (F (-6231120794008787) (-44)) (F 1 0))) (WI (J (F 9007199254740603 (-564)) (F 3060513257434037 (-50)))) Passed;
  T (Fun Fexp (J (F 1 0) (F 5 0))) (WI (J (F 6121026514868073 (-51)) (F 326363988296505 (-41)))) (Shown (F 382563899846521 (-47)) (F 326363638426239 (-41)));
  T (Fun Fexp (J (F (-3740158532571577) (-50)) (F 4069801476752429 (-51)))) (WI (J (F 5200136119745119 (-57)) (F 6861578759607749 (-50)))) Passed;
  T (Fun Fexp (J (F 1723830999229735 (-51)) (F 6954774044934185 (-46)))) (WI (J (F 2420846759166101 (-50)) (F 3380804516319451 91))) (Shown (F 4841684851397199 (-51)) (F 3380805909158565 91));
  T (Fun Fexp (J (F 6614824233729337 (-49)) (F 7315664758876059 (-48)))) (WI (J (F 2178237390177363 (-34)) (F 1588196682678307 (-13)))) (Shown (F 63395 1) (F 189328125 10))].
(** libieeep1788_elem.py, TestCase_minimal_log_test *)
Definition libieeep1788_elem_minimal_log_test : list test := [
  T (Fun Flog (J NaN NaN)) (WI (J NaN NaN)) (Shown NaN NaN);
  T (Fun Flog (J NInf Z0)) (WI (J NaN NaN)) (Shown NInf NInf);
  T (Fun Flog (J NInf NZ0)) (WI (J NaN NaN)) (Shown NInf NInf);
  T (Fun Flog (J Z0 (F 1 0))) (WI (J NInf Z0)) Passed;
  T (Fun Flog (J NZ0 (F 1 0))) (WI (J NInf Z0)) Passed;
  T (Fun Flog (J (F 1 0) Inf)) (WI (J Z0 Inf)) Passed;
  T (Fun Flog (J Z0 Inf)) (WI (J NInf Inf)) Passed;
  T (Fun Flog (J NZ0 Inf)) (WI (J NInf Inf)) Passed;
  T (Fun Flog (J NInf Inf)) (WI (J NInf Inf)) Passed;
  T (Fun Flog (J Z0 (F 9007199254740991 971))) (WI (J NInf (F 390207173010335 (-39)))) Passed;
  T (Fun Flog (J NZ0 (F 9007199254740991 971))) (WI (J NInf (F 390207173010335 (-39)))) Passed;
  T (Fun Flog (J (F 1 0) (F 9007199254740991 971))) (WI (J Z0 (F 390207173010335 (-39)))) Passed;
  T (Fun Flog (J (F 1 (-1074)) (F 9007199254740991 971))) (WI (J (F (-1637041030519921) (-41)) (F 390207173010335 (-39)))) Passed;
  T (Fun Flog (J (F 1 (-1074)) (F 1 0))) (WI (J (F (-1637041030519921) (-41)) Z0)) Passed;
  T (Fun Flog (J (F 6121026514868073 (-51)) (F 6121026514868073 (-51)))) (WI (J (F 9007199254740991 (-53)) (F 1 0))) Passed;
  T (Fun Flog (J (F 3060513257434037 (-50)) (F 3060513257434037 (-50)))) (WI (J (F 1 0) (F 4503599627370497 (-52)))) Passed;
  T (Fun Flog (J (F 1 (-1074)) (F 3060513257434037 (-50)))) (WI (J (F (-1637041030519921) (-41)) (F 4503599627370497 (-52)))) Passed;
  T (Fun Flog (J (F 6121026514868073 (-51)) (F 1 5))) (WI (J (F 9007199254740991 (-53)) (F 1951035865051675 (-49)))) Passed;
  T (Fun Flog (J (F 3602879701896397 (-55)) (F 7 (-1)))) (WI (J (F (-2592480341699211) (-50)) (F 176310713690603 (-47)))) Passed;
  T (Fun Flog (J (F 7656119366529843 (-52)) (F 8024225258572591 46))) (WI (J (F 298717149219481 (-49)) (F 4820682020677617 (-46)))) Passed;
  T (Fun Flog (J (F 7575635122853985 (-41)) (F 2236962133333331 (-25)))) (WI (J (F 4585046767509091 (-49)) (F 5070832401536693 (-48)))) Passed;
  T (Fun Flog (J (F 1 (-1074)) (F 9007199254740991 971))) (WI (J (F (-1637041030519921) (-41)) (F 390207173010335 (-39)))) Passed].
(** libieeep1788_elem.py, TestCase_minimal_sin_test *)
Definition libieeep1788_elem_minimal_sin_test : list test := [
  T (Fun Fsin (J NaN NaN)) (WI (J NaN NaN)) (Shown NaN NaN);
  T (Fun Fsin (J Z0 Inf)) (WI (J (F (-1) 0) (F 1 0))) (Raised ValueError);
  T (Fun Fsin (J NZ0 Inf)) (WI (J (F (-1) 0) (F 1 0))) (Raised ValueError);
  T (Fun Fsin (J NInf Z0)) (WI (J (F (-1) 0) (F 1 0))) (Raised ValueError);
  T (Fun Fsin (J NInf NZ0)) (WI (J (F (-1) 0) (F 1 0))) (Raised ValueError);
  T (Fun Fsin (J NInf Inf)) (WI (J (F (-1) 0) (F 1 0))) (Raised ValueError);
  T (Fun Fsin (J Z0 Z0)) (WI (J Z0 Z0)) (Shown (F (-1) (-1074)) (F 1 (-1074)));
  T (Fun Fsin (J NZ0 NZ0)) (WI (J Z0 Z0)) (Shown (F (-1) (-1074)) (F 1 (-1074)));
  T (Fun Fsin (J (F 884279719003555 (-49)) (F 884279719003555 (-49)))) (WI (J (F 9007199254740991 (-53)) (F 1 0))) Passed;
  T (Fun Fsin (J (F 7074237752028441 (-52)) (F 7074237752028441 (-52)))) (WI (J (F 9007199254740991 (-53)) (F 1 0))) (Shown (F 1 0) (F 1 0));
  T (Fun Fsin (J (F 884279719003555 (-49)) (F 7074237752028441 (-52)))) (WI (J (F 9007199254740991 (-53)) (F 1 0))) Passed;
  T (Fun Fsin (J Z0 (F 884279719003555 (-49)))) (WI (J Z0 (F 1 0))) (Shown (F (-1) (-1074)) (F 1 0));
  T (Fun Fsin (J NZ0 (F 884279719003555 (-49)))) (WI (J Z0 (F 1 0))) (Shown (F (-1) (-1074)) (F 1 0));
  T (Fun Fsin (J Z0 (F 7074237752028441 (-52)))) (WI (J Z0 (F 1 0))) (Shown (F (-1) (-1074)) (F 1 0));
  T (Fun Fsin (J NZ0 (F 7074237752028441 (-52)))) (WI (J Z0 (F 1 0))) (Shown (F (-1) (-1074)) (F 1 0));
  T (Fun Fsin (J (F 884279719003555 (-48)) (F 884279719003555 (-48)))) (WI (J (F 2483878800010755 (-104)) (F 4967757600021511 (-105)))) (Shown (F 1241942646055601 (-103)) (F 1241942646055601 (-103)));
  T (Fun Fsin (J (F 7074237752028441 (-51)) (F 7074237752028441 (-51)))) (WI (J (F (-6523320454730237) (-104)) (F (-1630830113682559) (-102)))) (Shown (F (-6523329988774469) (-104)) (F (-6523329988774469) (-104)));
  T (Fun Fsin (J (F 884279719003555 (-48)) (F 7074237752028441 (-51)))) (WI (J (F (-6523320454730237) (-104)) (F 4967757600021511 (-105)))) (Shown (F (-6523329988774469) (-104)) (F 1241942646055601 (-103)));
  T (Fun Fsin (J Z0 (F 884279719003555 (-48)))) (WI (J Z0 (F 1 0))) (Shown (F (-1) (-1074)) (F 1 0));
  T (Fun Fsin (J NZ0 (F 884279719003555 (-48)))) (WI (J Z0 (F 1 0))) (Shown (F (-1) (-1074)) (F 1 0));
  T (Fun Fsin (J Z0 (F 7074237752028441 (-51)))) (WI (J (F (-6523320454730237) (-104)) (F 1 0))) (Shown (F (-6523329988774469) (-104)) (F 1 0));
  T (Fun Fsin (J NZ0 (F 7074237752028441 (-51)))) (WI (J (F (-6523320454730237) (-104)) (F 1 0))) (Shown (F (-6523329988774469) (-104)) (F 1 0));
  T (Fun Fsin (J (F 884279719003555 (-49)) (F 884279719003555 (-48)))) (WI (J (F 2483878800010755 (-104)) (F 1 0))) Passed;
  T (Fun Fsin (J (F 884279719003555 (-49)) (F 7074237752028441 (-51)))) (WI (J (F (-6523320454730237) (-104)) (F 1 0))) (Shown (F (-6523329988774469) (-104)) (F 1 0));
  T (Fun Fsin (J (F 7074237752028441 (-52)) (F 884279719003555 (-48)))) (WI (J (F 2483878800010755 (-104)) (F 1 0))) (Shown (F 1241942646055601 (-103)) (F 1 0));
  T (Fun Fsin (J (F 7074237752028441 (-52)) (F 7074237752028441 (-51)))) (WI (J (F (-6523320454730237) (-104)) (F 1 0))) (Shown (F (-6523329988774469) (-104)) (F 1 0));
  T (Fun Fsin (J (F (-884279719003555) (-49)) (F (-884279719003555) (-49)))) (WI (J (F (-1) 0) (F (-9007199254740991) (-53)))) Passed;
  T (Fun Fsin (J (F (-7074237752028441) (-52)) (F (-7074237752028441) (-52)))) (WI (J (F (-1) 0) (F (-9007199254740991) (-53)))) (Shown (F (-1) 0) (F (-1) 0));
  T (Fun Fsin (J (F (-7074237752028441) (-52)) (F (-884279719003555) (-49)))) (WI (J (F (-1) 0) (F (-9007199254740991) (-53)))) Passed;
  T (Fun Fsin (J (F (-884279719003555) (-49)) Z0)) (WI (J (F (-1) 0) Z0)) (Shown (F (-1) 0) (F 1 (-1074)));
  T (Fun Fsin (J (F (-884279719003555) (-49)) NZ0)) (WI (J (F (-1) 0) Z0)) (Shown (F (-1) 0) (F 1 (-1074)));
  T (Fun Fsin (J (F (-7074237752028441) (-52)) Z0)) (WI (J (F (-1) 0) Z0)) (Shown (F (-1) 0) (F 1 (-1074)));
  T (Fun Fsin (J (F (-7074237752028441) (-52)) NZ0)) (WI (J (F (-1) 0) Z0)) (Shown (F (-1) 0) (F 1 (-1074)));
  T (Fun Fsin (J (F (-884279719003555) (-48)) (F (-884279719003555) (-48)))) (WI (J (F (-4967757600021511) (-105)) (F (-2483878800010755) (-104)))) (Shown (F (-1241942646055601) (-103)) (F (-1241942646055601) (-103)));
  T (Fun Fsin (J (F (-7074237752028441) (-51)) (F (-7074237752028441) (-51)))) (WI (J (F 1630830113682559 (-102)) (F 6523320454730237 (-104)))) (Shown (F 6523329988774469 (-104)) (F 6523329988774469 (-104)));
  T (Fun Fsin (J (F (-7074237752028441) (-51)) (F (-884279719003555) (-48)))) (WI (J (F (-4967757600021511) (-105)) (F 6523320454730237 (-104)))) (Shown (F (-1241942646055601) (-103)) (F 6523329988774469 (-104)));
  T (Fun Fsin (J (F (-884279719003555) (-48)) Z0)) (WI (J (F (-1) 0) Z0)) (Shown (F (-1) 0) (F 1 (-1074)));
  T (Fun Fsin (J (F (-884279719003555) (-48)) NZ0)) (WI (J (F (-1) 0) Z0)) (Shown (F (-1) 0) (F 1 (-1074)));
  T (Fun Fsin (J (F (-7074237752028441) (-51)) Z0)) (WI (J (F (-1) 0) (F 6523320454730237 (-104)))) (Shown (F (-1) 0) (F 6523329988774469 (-104)));
  T (Fun Fsin (J (F (-7074237752028441) (-51)) NZ0)) (WI (J (F (-1) 0) (F 6523320454730237 (-104)))) (Shown (F (-1) 0) (F 6523329988774469 (-104)));
  T (Fun Fsin (J (F (-884279719003555) (-48)) (F (-884279719003555) (-49)))) (WI (J (F (-1) 0) (F (-2483878800010755) (-104)))) Passed;
  T (Fun Fsin (J (F (-7074237752028441) (-51)) (F (-884279719003555) (-49)))) (WI (J (F (-1) 0) (F 6523320454730237 (-104)))) (Shown (F (-1) 0) (F 6523329988774469 (-104)));
  T (Fun Fsin (J (F (-884279719003555) (-48)) (F (-7074237752028441) (-52)))) (WI (J (F (-1) 0) (F (-2483878800010755) (-104)))) (Shown (F (-1) 0) (F (-1241942646055601) (-103)));
  T (Fun Fsin (J (F (-7074237752028441) (-51)) (F (-7074237752028441) (-52)))) (WI (J (F (-1) 0) (F 6523320454730237 (-104)))) (Shown (F (-1) 0) (F 6523329988774469 (-104)));
  T (Fun Fsin (J (F (-884279719003555) (-49)) (F 884279719003555 (-49)))) (WI (J (F (-1) 0) (F 1 0))) Passed;
  T (Fun Fsin (J (F (-884279719003555) (-49)) (F 7074237752028441 (-52)))) (WI (J (F (-1) 0) (F 1 0))) Passed;
  T (Fun Fsin (J (F (-7074237752028441) (-52)) (F 884279719003555 (-49)))) (WI (J (F (-1) 0) (F 1 0))) Passed;
  T (Fun Fsin (J (F (-7074237752028441) (-52)) (F 7074237752028441 (-52)))) (WI (J (F (-1) 0) (F 1 0))) Passed;
  T (Fun Fsin (J (F (-3152519739159347) (-52)) (F 3602879701896397 (-55)))) (WI (J (F (-5802597072378297) (-53)) (F 7193755808156461 (-56)))) Passed;
  T (Fun Fsin (J (F 1 0) (F 1 1))) (WI (J (F 3789648413623927 (-52)) (F 1 0))) (Shown (F 7579296964086157 (-53)) (F 1 0));
  T (Fun Fsin (J (F (-3602879701896397) (-50)) (F (-6530219459687219) (-51)))) (WI (J (F (-8619865519173859) (-55)) (F 8412600658832691 (-57)))) (Shown (F (-4309926828995055) (-54)) (F 4206297200129409 (-56)));
  T (Fun Fsin (J (F 1 1) (F 3 0))) (WI (J (F 5084384125703515 (-55)) (F 4095111552621091 (-52)))) (Shown (F 5084383835316195 (-55)) (F 2047554815184555 (-51)))].
(** libieeep1788_elem.py, TestCase_minimal_cos_test *)
Definition libieeep1788_elem_minimal_cos_test : list test := [
  T (Fun Fcos (J NaN NaN)) (WI (J NaN NaN)) (Shown NaN NaN);
  T (Fun Fcos (J Z0 Inf)) (WI (J (F (-1) 0) (F 1 0))) (Raised ValueError);
  T (Fun Fcos (J NZ0 Inf)) (WI (J (F (-1) 0) (F 1 0))) (Raised ValueError);
  T (Fun Fcos (J NInf Z0)) (WI (J (F (-1) 0) (F 1 0))) (Raised ValueError);
  T (Fun Fcos (J NInf NZ0)) (WI (J (F (-1) 0) (F 1 0))) (Raised ValueError);
  T (Fun Fcos (J NInf Inf)) (WI (J (F (-1) 0) (F 1 0))) (Raised ValueError);
  T (Fun Fcos (J Z0 Z0)) (WI (J (F 1 0) (F 1 0))) (Shown (F 1 0) (F 1 0));
  T (Fun Fcos (J NZ0 NZ0)) (WI (J (F 1 0) (F 1 0))) (Shown (F 1 0) (F 1 0));
  T (Fun Fcos (J (F 884279719003555 (-49)) (F 884279719003555 (-49)))) (WI (J (F 2483878800010755 (-105)) (F 4967757600021511 (-106)))) (Shown (F 4967754358294721 (-106)) (F 4967754358294721 (-106)));
  T (Fun Fcos (J (F 7074237752028441 (-52)) (F 7074237752028441 (-52)))) (WI (J (F (-6523320454730237) (-105)) (F (-1630830113682559) (-103)))) (Shown (F (-6523309706364865) (-105)) (F (-6523309706364865) (-105)));
  T (Fun Fcos (J (F 884279719003555 (-49)) (F 7074237752028441 (-52)))) (WI (J (F (-6523320454730237) (-105)) (F 4967757600021511 (-106)))) (Shown (F (-6523309706364865) (-105)) (F 4967754358294721 (-106)));
  T (Fun Fcos (J Z0 (F 884279719003555 (-49)))) (WI (J (F 2483878800010755 (-105)) (F 1 0))) Passed;
  T (Fun Fcos (J NZ0 (F 884279719003555 (-49)))) (WI (J (F 2483878800010755 (-105)) (F 1 0))) Passed;
  T (Fun Fcos (J Z0 (F 7074237752028441 (-52)))) (WI (J (F (-6523320454730237) (-105)) (F 1 0))) (Shown (F (-6523309706364865) (-105)) (F 1 0));
  T (Fun Fcos (J NZ0 (F 7074237752028441 (-52)))) (WI (J (F (-6523320454730237) (-105)) (F 1 0))) (Shown (F (-6523309706364865) (-105)) (F 1 0));
  T (Fun Fcos (J (F 884279719003555 (-48)) (F 884279719003555 (-48)))) (WI (J (F (-1) 0) (F (-9007199254740991) (-53)))) Passed;
  T (Fun Fcos (J (F 7074237752028441 (-51)) (F 7074237752028441 (-51)))) (WI (J (F (-1) 0) (F (-9007199254740991) (-53)))) (Shown (F (-1) 0) (F (-1) 0));
  T (Fun Fcos (J (F 884279719003555 (-48)) (F 7074237752028441 (-51)))) (WI (J (F (-1) 0) (F (-9007199254740991) (-53)))) Passed;
  T (Fun Fcos (J Z0 (F 884279719003555 (-48)))) (WI (J (F (-1) 0) (F 1 0))) Passed;
  T (Fun Fcos (J NZ0 (F 884279719003555 (-48)))) (WI (J (F (-1) 0) (F 1 0))) Passed;
  T (Fun Fcos (J Z0 (F 7074237752028441 (-51)))) (WI (J (F (-1) 0) (F 1 0))) Passed;
  T (Fun Fcos (J NZ0 (F 7074237752028441 (-51)))) (WI (J (F (-1) 0) (F 1 0))) Passed;
  T (Fun Fcos (J (F 884279719003555 (-49)) (F 884279719003555 (-48)))) (WI (J (F (-1) 0) (F 4967757600021511 (-106)))) (Shown (F (-1) 0) (F 4967754358294721 (-106)));
  T (Fun Fcos (J (F 884279719003555 (-49)) (F 7074237752028441 (-51)))) (WI (J (F (-1) 0) (F 4967757600021511 (-106)))) (Shown (F (-1) 0) (F 4967754358294721 (-106)));
  T (Fun Fcos (J (F 7074237752028441 (-52)) (F 884279719003555 (-48)))) (WI (J (F (-1) 0) (F (-1630830113682559) (-103)))) Passed;
  T (Fun Fcos (J (F 7074237752028441 (-52)) (F 7074237752028441 (-51)))) (WI (J (F (-1) 0) (F (-1630830113682559) (-103)))) Passed;
  T (Fun Fcos (J (F (-884279719003555) (-49)) (F (-884279719003555) (-49)))) (WI (J (F 2483878800010755 (-105)) (F 4967757600021511 (-106)))) (Shown (F 4967754358294721 (-106)) (F 4967754358294721 (-106)));
  T (Fun Fcos (J (F (-7074237752028441) (-52)) (F (-7074237752028441) (-52)))) (WI (J (F (-6523320454730237) (-105)) (F (-1630830113682559) (-103)))) (Shown (F (-6523309706364865) (-105)) (F (-6523309706364865) (-105)));
  T (Fun Fcos (J (F (-7074237752028441) (-52)) (F (-884279719003555) (-49)))) (WI (J (F (-6523320454730237) (-105)) (F 4967757600021511 (-106)))) (Shown (F (-6523309706364865) (-105)) (F 4967754358294721 (-106)));
  T (Fun Fcos (J (F (-884279719003555) (-49)) Z0)) (WI (J (F 2483878800010755 (-105)) (F 1 0))) Passed;
  T (Fun Fcos (J (F (-884279719003555) (-49)) NZ0)) (WI (J (F 2483878800010755 (-105)) (F 1 0))) Passed;
  T (Fun Fcos (J (F (-7074237752028441) (-52)) Z0)) (WI (J (F (-6523320454730237) (-105)) (F 1 0))) (Shown (F (-6523309706364865) (-105)) (F 1 0));
  T (Fun Fcos (J (F (-7074237752028441) (-52)) NZ0)) (WI (J (F (-6523320454730237) (-105)) (F 1 0))) (Shown (F (-6523309706364865) (-105)) (F 1 0));
  T (Fun Fcos (J (F (-884279719003555) (-48)) (F (-884279719003555) (-48)))) (WI (J (F (-1) 0) (F (-9007199254740991) (-53)))) Passed;
  T (Fun Fcos (J (F (-7074237752028441) (-51)) (F (-7074237752028441) (-51)))) (WI (J (F (-1) 0) (F (-9007199254740991) (-53)))) (Shown (F (-1) 0) (F (-1) 0));
  T (Fun Fcos (J (F (-7074237752028441) (-51)) (F (-884279719003555) (-48)))) (WI (J (F (-1) 0) (F (-9007199254740991) (-53)))) Passed;
  T (Fun Fcos (J (F (-884279719003555) (-48)) Z0)) (WI (J (F (-1) 0) (F 1 0))) Passed;
  T (Fun Fcos (J (F (-884279719003555) (-48)) NZ0)) (WI (J (F (-1) 0) (F 1 0))) Passed;
  T (Fun Fcos (J (F (-7074237752028441) (-51)) Z0)) (WI (J (F (-1) 0) (F 1 0))) Passed;
  T (Fun Fcos (J (F (-7074237752028441) (-51)) NZ0)) (WI (J (F (-1) 0) (F 1 0))) Passed;
  T (Fun Fcos (J (F (-884279719003555) (-48)) (F (-884279719003555) (-49)))) (WI (J (F (-1) 0) (F 4967757600021511 (-106)))) (Shown (F (-1) 0) (F 4967754358294721 (-106)));
  T (Fun Fcos (J (F (-7074237752028441) (-51)) (F (-884279719003555) (-49)))) (WI (J (F (-1) 0) (F 4967757600021511 (-106)))) (Shown (F (-1) 0) (F 4967754358294721 (-106)));
  T (Fun Fcos (J (F (-884279719003555) (-48)) (F (-7074237752028441) (-52)))) (WI (J (F (-1) 0) (F (-1630830113682559) (-103)))) Passed;
  T (Fun Fcos (J (F (-7074237752028441) (-51)) (F (-7074237752028441) (-52)))) (WI (J (F (-1) 0) (F (-1630830113682559) (-103)))) Passed;
  T (Fun Fcos (J (F (-884279719003555) (-49)) (F 884279719003555 (-49)))) (WI (J (F 2483878800010755 (-105)) (F 1 0))) Passed;
  T (Fun Fcos (J (F (-884279719003555) (-49)) (F 7074237752028441 (-52)))) (WI (J (F (-6523320454730237) (-105)) (F 1 0))) (Shown (F (-6523309706364865) (-105)) (F 1 0));
  T (Fun Fcos (J (F (-7074237752028441) (-52)) (F 884279719003555 (-49)))) (WI (J (F (-6523320454730237) (-105)) (F 1 0))) (Shown (F (-6523309706364865) (-105)) (F 1 0));
  T (Fun Fcos (J (F (-7074237752028441) (-52)) (F 7074237752028441 (-52)))) (WI (J (F (-6523320454730237) (-105)) (F 1 0))) (Shown (F (-6523309706364865) (-105)) (F 1 0));
  T (Fun Fcos (J (F (-3152519739159347) (-52)) (F 3602879701896397 (-55)))) (WI (J (F 3444542989651657 (-52)) (F 1 0))) Passed;
  T (Fun Fcos (J (F 1 0) (F 1 1))) (WI (J (F (-7496634952020485) (-54)) (F 1216652631687587 (-51)))) (Shown (F (-7496637896525399) (-54)) (F 4866607771735067 (-53)));
  T (Fun Fcos (J (F (-3602879701896397) (-50)) (F (-6530219459687219) (-51)))) (WI (J (F (-1) 0) (F (-1093201707690009) (-50)))) Passed;
  T (Fun Fcos (J (F 1 1) (F 3 0))) (WI (J (F (-8917059677578707) (-53)) (F (-1874158738005121) (-52)))) Passed].
(** libieeep1788_elem.py, TestCase_minimal_abs_test *)
Definition libieeep1788_elem_minimal_abs_test : list test := [
  T (Abs (J NaN NaN)) (WI (J NaN NaN)) (Shown NaN NaN);
  T (Abs (J NInf Inf)) (WI (J Z0 Inf)) Passed;
  T (Abs (J (F 2476979795053773 (-51)) (F 4728779608739021 (-51)))) (WI (J (F 2476979795053773 (-51)) (F 4728779608739021 (-51)))) Passed;
  T (Abs (J (F (-2476979795053773) (-51)) (F 1 1))) (WI (J Z0 (F 1 1))) Passed;
  T (Abs (J (F (-2476979795053773) (-51)) Z0)) (WI (J Z0 (F 2476979795053773 (-51)))) Passed;
  T (Abs (J (F (-2476979795053773) (-51)) NZ0)) (WI (J Z0 (F 2476979795053773 (-51)))) Passed;
  T (Abs (J (F (-2476979795053773) (-51)) (F (-3602879701896397) (-53)))) (WI (J (F 3602879701896397 (-53)) (F 2476979795053773 (-51)))) Passed;
  T (Abs (J (F (-4278419646001971) (-51)) (F 3602879701896397 (-54)))) (WI (J Z0 (F 4278419646001971 (-51)))) Passed;
  T (Abs (J Z0 (F 3602879701896397 (-54)))) (WI (J Z0 (F 3602879701896397 (-54)))) Passed;
  T (Abs (J NZ0 (F 3602879701896397 (-54)))) (WI (J Z0 (F 3602879701896397 (-54)))) Passed;
  T (Abs (J (F (-3) (-1)) Inf)) (WI (J Z0 Inf)) Passed;
  T (Abs (J NInf (F (-2476979795053773) (-50)))) (WI (J (F 2476979795053773 (-50)) Inf)) Passed].
(** libieeep1788_num.py, TestCase_minimal_inf_test *)
Definition libieeep1788_num_minimal_inf_test : list test := [
  T (Get Ga (J NaN NaN)) (WN Inf) (Valued NaN);
  T (Get Ga (J NInf Inf)) (WN NInf) Passed;
  T (Get Ga (J (F 1 0) (F 1 1))) (WN (F 1 0)) Passed;
  T (Get Ga (J (F (-3) 0) (F (-1) 1))) (WN (F (-3) 0)) Passed;
  T (Get Ga (J NInf (F 1 1))) (WN NInf) Passed;
  T (Get Ga (J NInf Z0)) (WN NInf) Passed;
  T (Get Ga (J NInf NZ0)) (WN NInf) Passed;
  T (Get Ga (J (F (-1) 1) Inf)) (WN (F (-1) 1)) Passed;
  T (Get Ga (J Z0 Inf)) (WN NZ0) Passed;
  T (Get Ga (J NZ0 Inf)) (WN NZ0) Passed;
  T (Get Ga (J NZ0 Z0)) (WN NZ0) Passed;
  T (Get Ga (J Z0 NZ0)) (WN NZ0) Passed;
  T (Get Ga (J Z0 Z0)) (WN NZ0) Passed;
  T (Get Ga (J NZ0 NZ0)) (WN NZ0) Passed].
(** libieeep1788_num.py, TestCase_minimal_sup_test *)
Definition libieeep1788_num_minimal_sup_test : list test := [
  T (Get Gb (J NaN NaN)) (WN NInf) (Valued NaN);
  T (Get Gb (J NInf Inf)) (WN Inf) Passed;
  T (Get Gb (J (F 1 0) (F 1 1))) (WN (F 1 1)) Passed;
  T (Get Gb (J (F (-3) 0) (F (-1) 1))) (WN (F (-1) 1)) Passed;
  T (Get Gb (J NInf (F 1 1))) (WN (F 1 1)) Passed;
  T (Get Gb (J NInf Z0)) (WN Z0) Passed;
  T (Get Gb (J NInf NZ0)) (WN Z0) Passed;
  T (Get Gb (J (F (-1) 1) Inf)) (WN Inf) Passed;
  T (Get Gb (J Z0 Inf)) (WN Inf) Passed;
  T (Get Gb (J NZ0 Inf)) (WN Inf) Passed;
  T (Get Gb (J NZ0 Z0)) (WN Z0) Passed;
  T (Get Gb (J Z0 NZ0)) (WN Z0) Passed;
  T (Get Gb (J Z0 Z0)) (WN Z0) Passed;
  T (Get Gb (J NZ0 NZ0)) (WN Z0) Passed].
(** libieeep1788_num.py, TestCase_minimal_mid_test *)
Definition libieeep1788_num_minimal_mid_test : list test := [
  T (Get Gmid (J NaN NaN)) (WN NaN) (Valued NaN);
  T (Get Gmid (J NInf Inf)) (WN Z0) (Valued NaN);
  T (Get Gmid (J (F (-9007199254740991) 971) (F 9007199254740991 971))) (WN Z0) Passed;
  T (Get Gmid (J Z0 (F 1 1))) (WN (F 1 0)) Passed;
  T (Get Gmid (J (F 1 1) (F 1 1))) (WN (F 1 1)) Passed;
  T (Get Gmid (J (F (-1) 1) (F 1 1))) (WN Z0) Passed;
  T (Get Gmid (J Z0 Inf)) (WN (F 9007199254740991 971)) (Valued Inf);
  T (Get Gmid (J NInf (F 5404319552844595 (-52)))) (WN (F (-9007199254740991) 971)) (Valued NInf);
  T (Get Gmid (J (F (-1) (-1073)) (F 1 (-1074)))) (WN Z0) Passed;
  T (Get Gmid (J (F (-1) (-1074)) (F 1 (-1073)))) (WN Z0) Passed;
  T (Get Gmid (J (F 9007199254740991 970) (F 9007199254740991 971))) (WN (F 6755399441055743 971)) (Valued Inf);
  T (Get Gmid (J (F 1 (-1074)) (F 3 (-1074)))) (WN (F 1 (-1073))) Passed].
(** libieeep1788_num.py, TestCase_minimal_rad_test *)
Definition libieeep1788_num_minimal_rad_test : list test := [
  T (Get Grad (J Z0 (F 1 1))) (WN (F 1 0)) Passed;
  T (Get Grad (J (F 1 1) (F 1 1))) (WN Z0) Passed;
  T (Get Grad (J NaN NaN)) (WN NaN) (Valued NaN);
  T (Get Grad (J NInf Inf)) (WN Inf) Passed;
  T (Get Grad (J Z0 Inf)) (WN Inf) Passed;
  T (Get Grad (J NInf (F 5404319552844595 (-52)))) (WN Inf) Passed;
  T (Get Grad (J (F (-1) (-1073)) (F 1 (-1074)))) (WN (F 1 (-1073))) Passed;
  T (Get Grad (J (F 1 (-1074)) (F 1 (-1073)))) (WN (F 1 (-1074))) (Valued Z0);
  T (Get Grad (J (F 1 0) (F 4503599627370499 (-52)))) (WN (F 1 (-51))) (Valued (F 3 (-53)))].
(** libieeep1788_num.py, TestCase_minimal_wid_test *)
Definition libieeep1788_num_minimal_wid_test : list test := [
  T (Get Gwid (J (F 1 1) (F 1 1))) (WN Z0) Passed;
  T (Get Gwid (J (F 1 0) (F 1 1))) (WN (F 1 0)) Passed;
  T (Get Gwid (J (F 1 0) Inf)) (WN Inf) Passed;
  T (Get Gwid (J NInf (F 1 1))) (WN Inf) Passed;
  T (Get Gwid (J NInf Inf)) (WN Inf) Passed;
  T (Get Gwid (J NaN NaN)) (WN NaN) (Valued NaN);
  T (Get Gwid (J (F 1 0) (F 4503599627370497 (-52)))) (WN (F 1 (-52))) Passed;
  T (Get Gwid (J (F 1 (-1022)) (F 4503599627370497 (-1074)))) (WN (F 1 (-1074))) Passed].
(** libieeep1788_num.py, TestCase_minimal_mag_test *)
Definition libieeep1788_num_minimal_mag_test : list test := [
  T (Get Gmag (J (F 1 0) (F 1 1))) (WN (F 1 1)) Passed;
  T (Get Gmag (J (F (-1) 2) (F 1 1))) (WN (F 1 2)) Passed;
  T (Get Gmag (J NInf (F 1 1))) (WN Inf) Passed;
  T (Get Gmag (J (F 1 0) Inf)) (WN Inf) Passed;
  T (Get Gmag (J NInf Inf)) (WN Inf) Passed;
  T (Get Gmag (J NaN NaN)) (WN NaN) (Valued NaN);
  T (Get Gmag (J NZ0 Z0)) (WN Z0) Passed;
  T (Get Gmag (J NZ0 NZ0)) (WN Z0) Passed].
(** libieeep1788_num.py, TestCase_minimal_mig_test *)
Definition libieeep1788_num_minimal_mig_test : list test := [
  T (Get Gmig (J (F 1 0) (F 1 1))) (WN (F 1 0)) Passed;
  T (Get Gmig (J (F (-1) 2) (F 1 1))) (WN Z0) Passed;
  T (Get Gmig (J (F (-1) 2) (F (-1) 1))) (WN (F 1 1)) Passed;
  T (Get Gmig (J NInf (F 1 1))) (WN Z0) Passed;
  T (Get Gmig (J NInf (F (-1) 1))) (WN (F 1 1)) Passed;
  T (Get Gmig (J (F (-1) 0) Inf)) (WN Z0) Passed;
  T (Get Gmig (J (F 1 0) Inf)) (WN (F 1 0)) Passed;
  T (Get Gmig (J NInf Inf)) (WN Z0) Passed;
  T (Get Gmig (J NaN NaN)) (WN NaN) (Valued NaN);
  T (Get Gmig (J NZ0 Z0)) (WN Z0) Passed;
  T (Get Gmig (J NZ0 NZ0)) (WN Z0) Passed].
(** libieeep1788_set.py, TestCase_minimal_intersection_test *)
Definition libieeep1788_set_minimal_intersection_test : list test := [
  T (Cap (J (F 1 0) (F 3 0)) (J (F 4728779608739021 (-51)) (F 1 2))) (WI (J (F 4728779608739021 (-51)) (F 3 0))) Passed;
  T (Cap (J (F 1 0) (F 3 0)) (J (F 3 0) (F 1 2))) (WI (J (F 3 0) (F 3 0))) Passed;
  T (Cap (J (F 1 0) (F 3 0)) (J NaN NaN)) (WI (J NaN NaN)) (Shown NaN NaN);
  T (Cap (J NInf Inf) (J NaN NaN)) (WI (J NaN NaN)) (Shown NaN NaN);
  T (Cap (J (F 1 0) (F 3 0)) (J NInf Inf)) (WI (J (F 1 0) (F 3 0))) Passed].
(** mpfi.py, TestCase_mpfi_add *)
Definition mpfi_add : list test := [
  T (Add (J NInf (F (-7) 0)) (J (F (-1) 0) (F 1 3))) (WI (J NInf (F 1 0))) Passed;
  T (Add (J NInf Z0) (J (F 1 3) Inf)) (WI (J NInf Inf)) Passed;
  T (Add (J NInf (F 1 3)) (J Z0 (F 1 3))) (WI (J NInf (F 1 4))) Passed;
  T (Add (J NInf Inf) (J Z0 (F 1 3))) (WI (J NInf Inf)) Passed;
  T (Add (J Z0 Z0) (J NInf (F (-7) 0))) (WI (J NInf (F (-7) 0))) Passed;
  T (Add (J Z0 (F 1 3)) (J (F (-7) 0) Z0)) (WI (J (F (-7) 0) (F 1 3))) Passed;
  T (Add (J Z0 Z0) (J Z0 (F 1 3))) (WI (J Z0 (F 1 3))) Passed;
  T (Add (J Z0 Inf) (J Z0 (F 1 3))) (WI (J Z0 Inf)) Passed;
  T (Add (J Z0 Z0) (J (F 1 3) Inf)) (WI (J (F 1 3) Inf)) Passed;
  T (Add (J Z0 Z0) (J NInf Inf)) (WI (J NInf Inf)) Passed;
  T (Add (J Z0 (F 1 3)) (J Z0 (F 1 3))) (WI (J Z0 (F 1 4))) Passed;
  T (Add (J Z0 Z0) (J Z0 Z0)) (WI (J Z0 Z0)) Passed;
  T (Add (J Z0 Inf) (J (F (-7) 0) (F 1 3))) (WI (J (F (-7) 0) Inf)) Passed;
  T (Add (J (F (-3) (-3)) (F (-65927) (-256))) (J (F (-1) (-3)) (F 1 (-240)))) (WI (J (F (-1) (-1)) (F (-391) (-256)))) Passed;
  T (Add (J (F (-1) (-300)) (F 596523 29)) (J (F (-1) (-41)) (F 126462925 0))) (WI (J (F (-4503599627370497) (-93)) (F 320255973501901 0))) Passed;
  T (Add (J (F (-1) 2) (F 7 0)) (J (F (-320255973501901) (-17)) (F 5043654821435445 946))) (WI (J (F (-320255974026189) (-17)) (F 2521827410717723 947))) Passed;
  T (Add (J (F 281479271743489 8) (F 1 60)) (J (F 281479271743489 0) (F 5043654821435445 946))) (WI (J (F 282578800148737 8) (F 2521827410717723 947))) Passed;
  T (Add (J (F 1 2) (F 1 3)) (J (F (-1) 2) (F (-1) 1))) (WI (J Z0 (F 3 1))) Passed;
  T (Add (J (F 1 2) (F 1 3)) (J (F (-9) 0) (F (-1) 3))) (WI (J (F (-5) 0) Z0)) Passed].
(** mpfi.py, TestCase_mpfi_add_d *)
Definition mpfi_add_d : list test := [
  T (Add (J NInf (F (-7) 0)) (J (F (-6490371073168535) (-107)) (F (-6490371073168535) (-107)))) (WI (J NInf (F (-7) 0))) Passed;
  T (Add (J NInf (F (-7) 0)) (J Z0 Z0)) (WI (J NInf (F (-7) 0))) Passed;
  T (Add (J NInf (F (-7) 0)) (J (F 6490371073168535 (-107)) (F 6490371073168535 (-107)))) (WI (J NInf (F (-7881299347898367) (-50)))) Passed;
  T (Add (J NInf Z0) (J (F (-6490371073168535) (-106)) (F (-6490371073168535) (-106)))) (WI (J NInf (F (-6490371073168535) (-106)))) Passed;
  T (Add (J NInf Z0) (J Z0 Z0)) (WI (J NInf Z0)) Passed;
  T (Add (J NInf Z0) (J (F 6490371073168535 (-106)) (F 6490371073168535 (-106)))) (WI (J NInf (F 6490371073168535 (-106)))) Passed;
  T (Add (J NInf (F 1 3)) (J (F (-762939453125) 21) (F (-762939453125) 21))) (WI (J NInf (F (-6249999999999999) 8))) Passed;
  T (Add (J NInf (F 1 3)) (J Z0 Z0)) (WI (J NInf (F 1 3))) Passed;
  T (Add (J NInf (F 1 3)) (J (F 762939453125 21) (F 762939453125 21))) (WI (J NInf (F 6250000000000001 8))) Passed;
  T (Add (J NInf Inf) (J (F (-6490371073168535) (-105)) (F (-6490371073168535) (-105)))) (WI (J NInf Inf)) Passed;
  T (Add (J NInf Inf) (J Z0 Z0)) (WI (J NInf Inf)) Passed;
  T (Add (J NInf Inf) (J (F 6490371073168535 (-105)) (F 6490371073168535 (-105)))) (WI (J NInf Inf)) Passed;
  T (Add (J Z0 Z0) (J (F (-6490371073168535) (-109)) (F (-6490371073168535) (-109)))) (WI (J (F (-6490371073168535) (-109)) (F (-6490371073168535) (-109)))) Passed;
  T (Add (J Z0 Z0) (J Z0 Z0)) (WI (J Z0 Z0)) Passed;
  T (Add (J Z0 Z0) (J (F 6490371073168535 (-109)) (F 6490371073168535 (-109)))) (WI (J (F 6490371073168535 (-109)) (F 6490371073168535 (-109)))) Passed;
  T (Add (J Z0 (F 1 3)) (J (F (-4867778304876401) (-107)) (F (-4867778304876401) (-107)))) (WI (J (F (-4867778304876401) (-107)) (F 1 3))) Passed;
  T (Add (J Z0 (F 1 3)) (J Z0 Z0)) (WI (J Z0 (F 1 3))) Passed;
  T (Add (J Z0 (F 1 3)) (J (F 304236144054775 (-103)) (F 304236144054775 (-103)))) (WI (J (F 304236144054775 (-103)) (F 4503599627370497 (-49)))) Passed;
  T (Add (J Z0 Inf) (J (F (-1419768672255617) (-104)) (F (-1419768672255617) (-104)))) (WI (J (F (-1419768672255617) (-104)) Inf)) Passed;
  T (Add (J Z0 Inf) (J Z0 Z0)) (WI (J Z0 Inf)) Passed;
  T (Add (J Z0 Inf) (J (F 5679074689022467 (-106)) (F 5679074689022467 (-106)))) (WI (J (F 5679074689022467 (-106)) Inf)) Passed;
  T (Add (J (F (-1) 5) (F (-17) 0)) (J (F (-4421398595017775) (-47)) (F (-4421398595017775) (-47)))) (WI (J (F (-8924998222388271) (-47)) (F (-6813935897058351) (-47)))) Passed;
  T (Add (J (F (-4421398595017775) (-47)) (F (-17) 0)) (J (F 4421398595017775 (-47)) (F 4421398595017775 (-47)))) (WI (J Z0 (F 2028861292977199 (-47)))) Passed;
  T (Add (J (F (-1) 5) (F (-4421398595017775) (-48))) (J (F 4421398595017775 (-48)) (F 4421398595017775 (-48)))) (WI (J (F (-4585800659723217) (-48)) Z0)) Passed;
  T (Add (J (F 5124095576030431 (-48)) (F 5124095576030431 (-4))) (J (F 7 (-1)) (F 7 (-1)))) (WI (J (F 6109257994517727 (-48)) (F 5124095576030487 (-4)))) Passed;
  T (Add (J (F 5124095576030431 (-56)) (F 5124095576030431 (-4))) (J (F 7 (-1)) (F 7 (-1)))) (WI (J (F 4020713667324659 (-50)) (F 5124095576030487 (-4)))) Passed;
  T (Add (J (F (-255) 0) (F 5124095576030431 (-52))) (J (F 513 (-1)) (F 513 (-1)))) (WI (J (F 3 (-1)) (F 4532411718736573 (-44)))) Passed;
  T (Add (J (F (-9007199254740991) (-52)) (F (-1) (-550))) (J (F 8195 (-1)) (F 8195 (-1)))) (WI (J (F 8191 (-1)) (F 8195 (-1)))) Passed;
  T (Add (J (F 5124095576030431 (-48)) (F 5124095576030431 (-4))) (J (F (-7) (-1)) (F (-7) (-1)))) (WI (J (F 4138933157543135 (-48)) (F 5124095576030375 (-4)))) Passed;
  T (Add (J (F 5124095576030431 (-56)) (F 5124095576030431 (-4))) (J (F (-7) (-1)) (F (-7) (-1)))) (WI (J (F (-3860585680573709) (-50)) (F 5124095576030375 (-4)))) Passed;
  T (Add (J (F (-255) 0) (F 5124095576030431 (-52))) (J (F (-513) (-1)) (F (-513) (-1)))) (WI (J (F (-1023) (-1)) (F (-4492379722048835) (-44)))) Passed;
  T (Add (J (F (-9007199254740991) (-52)) (F (-1) (-550))) (J (F (-8195) (-1)) (F (-8195) (-1)))) (WI (J (F (-8199) (-1)) (F (-8195) (-1)))) Passed].
(** mpfi.py, TestCase_mpfi_d_div *)
Definition mpfi_d_div : list test := [
  T (Div (J (F (-3245185536584267) (-106)) (F (-3245185536584267) (-106))) (J NInf (F (-7) 0))) (WI (J Z0 (F 7417566940764039 (-110)))) Passed;
  T (Div (J Z0 Z0) (J NInf (F (-7) 0))) (WI (J Z0 Z0)) Passed;
  T (Div (J (F 3245185536584267 (-106)) (F 3245185536584267 (-106))) (J NInf (F (-7) 0))) (WI (J (F (-7417566940764039) (-110)) Z0)) Passed;
  T (Div (J (F (-6490371073168535) (-106)) (F (-6490371073168535) (-106))) (J NInf Z0)) (WI (J Z0 Inf)) (Raised ValueError);
  T (Div (J Z0 Z0) (J NInf Z0)) (WI (J Z0 Z0)) (Raised ValueError);
  T (Div (J (F 6490371073168535 (-106)) (F 6490371073168535 (-106))) (J NInf Z0)) (WI (J NInf Z0)) (Raised ValueError);
  T (Div (J (F (-762939453125) 21) (F (-762939453125) 21)) (J NInf (F 1 3))) (WI (J NInf Inf)) (Raised ValueError);
  T (Div (J Z0 Z0) (J NInf (F 1 3))) (WI (J Z0 Z0)) (Raised ValueError);
  T (Div (J (F 762939453125 21) (F 762939453125 21)) (J NInf (F 1 3))) (WI (J NInf Inf)) (Raised ValueError);
  T (Div (J (F (-6490371073168535) (-105)) (F (-6490371073168535) (-105))) (J NInf Inf)) (WI (J NInf Inf)) (Raised ValueError);
  T (Div (J Z0 Z0) (J NInf Inf)) (WI (J Z0 Z0)) (Raised ValueError);
  T (Div (J (F 6490371073168535 (-105)) (F 6490371073168535 (-105))) (J NInf Inf)) (WI (J NInf Inf)) (Raised ValueError);
  T (Div (J (F (-6490371073168535) (-109)) (F (-6490371073168535) (-109))) (J Z0 Z0)) (WI (J NaN NaN)) (Raised ValueError);
  T (Div (J Z0 Z0) (J Z0 Z0)) (WI (J NaN NaN)) (Raised ValueError);
  T (Div (J (F 6490371073168535 (-109)) (F 6490371073168535 (-109))) (J Z0 Z0)) (WI (J NaN NaN)) (Raised ValueError);
  T (Div (J (F (-4867778304876401) (-107)) (F (-4867778304876401) (-107))) (J Z0 (F 7 0))) (WI (J NInf (F (-5563175205573029) (-110)))) (Raised ValueError);
  T (Div (J Z0 Z0) (J Z0 (F 7 0))) (WI (J Z0 Z0)) (Raised ValueError);
  T (Div (J (F 4867778304876401 (-107)) (F 4867778304876401 (-107))) (J Z0 (F 7 0))) (WI (J (F 5563175205573029 (-110)) Inf)) (Raised ValueError);
  T (Div (J (F (-1419768672255617) (-104)) (F (-1419768672255617) (-104))) (J Z0 Inf)) (WI (J NInf Z0)) (Raised ValueError);
  T (Div (J Z0 Z0) (J Z0 Inf)) (WI (J Z0 Z0)) (Raised ValueError);
  T (Div (J (F 5679074689022467 (-106)) (F 5679074689022467 (-106))) (J Z0 Inf)) (WI (J Z0 Inf)) (Raised ValueError);
  T (Div (J (F (-5) (-1)) (F (-5) (-1))) (J (F (-1) 3) (F 1 3))) (WI (J NInf Inf)) (Raised ValueError);
  T (Div (J (F (-5) (-1)) (F (-5) (-1))) (J (F (-1) 3) (F (-5) 0))) (WI (J (F 5 (-4)) (F 1 (-1)))) Passed;
  T (Div (J (F (-5) (-1)) (F (-5) (-1))) (J (F 25 0) (F 5 3))) (WI (J (F (-3602879701896397) (-55)) (F (-1) (-4)))) Passed;
  T (Div (J (F (-5) (-1)) (F (-5) (-1))) (J (F (-1) 4) (F (-7) 0))) (WI (J (F 5 (-5)) (F 6433713753386423 (-54)))) Passed;
  T (Div (J (F (-5) (-1)) (F (-5) (-1))) (J (F 11 0) (F 143 0))) (WI (J (F (-1023545369856931) (-52)) (F (-2519496295032445) (-57)))) Passed;
  T (Div (J (F 265 (-3)) (F 265 (-3))) (J (F 265 (-5)) (F 265 1))) (WI (J (F 1 (-4)) (F 1 2))) Passed;
  T (Div (J (F 265 (-3)) (F 265 (-3))) (J (F (-265) 1) (F (-3975) (-3)))) (WI (J (F (-2401919801264265) (-55)) (F (-1) (-4)))) Passed;
  T (Div (J (F 265 (-3)) (F 265 (-3))) (J (F 27 1) (F 265 0))) (WI (J (F 1 (-3)) (F 5525249542838803 (-53)))) Passed;
  T (Div (J (F 265 (-3)) (F 265 (-3))) (J (F 13 2) (F 27 1))) (WI (J (F 2762624771419401 (-52)) (F 717219892580037 (-50)))) Passed].
(** mpfi.py, TestCase_mpfi_diam_abs *)
Definition mpfi_diam_abs : list test := [
  T (Get Gwid (J NInf (F (-1) 3))) (WN Inf) Passed;
  T (Get Gwid (J NInf Z0)) (WN Inf) Passed;
  T (Get Gwid (J NInf (F 5 0))) (WN Inf) Passed;
  T (Get Gwid (J NInf Inf)) (WN Inf) Passed;
  T (Get Gwid (J NInf Z0)) (WN Inf) Passed;
  T (Get Gwid (J (F (-1) 3) Z0)) (WN (PInt 8)) Passed;
  T (Get Gwid (J Z0 Z0)) (WN (PInt 0)) Passed;
  T (Get Gwid (J Z0 (F 5 0))) (WN (PInt 5)) Passed;
  T (Get Gwid (J Z0 Inf)) (WN Inf) Passed;
  T (Get Gwid (J (F (-17) 1) (F (-17) 0))) (WN (PInt 17)) Passed].
(** mpfi.py, TestCase_mpfi_div *)
Definition mpfi_div : list test := [
  T (Div (J NInf (F (-7) 0)) (J (F (-1) 0) (F 1 3))) (WI (J NInf Inf)) (Raised ValueError);
  T (Div (J NInf Z0) (J (F 1 3) Inf)) (WI (J NInf Z0)) Passed;
  T (Div (J NInf (F 1 3)) (J Z0 (F 1 3))) (WI (J NInf Inf)) (Raised ValueError);
  T (Div (J NInf Inf) (J Z0 (F 1 3))) (WI (J NInf Inf)) (Raised ValueError);
  T (Div (J Z0 Z0) (J NInf (F (-7) 0))) (WI (J Z0 Z0)) Passed;
  T (Div (J Z0 (F 1 3)) (J (F (-7) 0) Z0)) (WI (J NInf Z0)) (Raised ValueError);
  T (Div (J Z0 Z0) (J Z0 (F 1 3))) (WI (J Z0 Z0)) (Raised ValueError);
  T (Div (J Z0 Inf) (J Z0 (F 1 3))) (WI (J Z0 Inf)) (Raised ValueError);
  T (Div (J Z0 Z0) (J (F 1 3) Inf)) (WI (J Z0 Z0)) Passed;
  T (Div (J Z0 Z0) (J NInf Inf)) (WI (J Z0 Z0)) (Raised ValueError);
  T (Div (J Z0 (F 1 3)) (J (F (-7) 0) (F 1 3))) (WI (J NInf Inf)) (Raised ValueError);
  T (Div (J Z0 Inf) (J Z0 (F 1 3))) (WI (J Z0 Inf)) (Raised ValueError);
  T (Div (J (F (-123456789) 0) (F (-15015) 1)) (J (F (-143) 1) (F (-9) 0))) (WI (J (F 105 0) (F 13717421 0))) Passed;
  T (Div (J (F (-123456789) 0) (F (-5780959352562019) (-56))) (J (F (-6552107678185509) (-47)) (F (-9) 0))) (WI (J (F 7947099670758849 (-62)) (F 13717421 0))) Passed;
  T (Div (J (F (-2277647111224011) (-51)) (F (-15015) (-15))) (J (F (-143) 1) (F (-8315853735899979) (-58)))) (WI (J (F 105 (-16)) (F 2467001226129627 (-46)))) Passed;
  T (Div (J (F (-2277647111224011) (-51)) (F (-5780959352562019) (-56))) (J (F (-6552107678185509) (-51)) (F (-8315853735899979) (-58)))) (WI (J (F 7947099670758849 (-58)) (F 2467001226129627 (-46)))) Passed;
  T (Div (J (F (-2763) 256) (F (-1785) 0)) (J (F (-7) 0) Z0)) (WI (J (F 255 0) Inf)) (Raised ValueError);
  T (Div (J (F (-1) 8) (F (-2073405802168615) (-51))) (J (F (-3346276403124477) (-51)) Z0)) (WI (J (F 2790501582390367 (-52)) Inf)) (Raised ValueError);
  T (Div (J (F (-5171198393001811) (-52)) (F (-5405422407663491) (-53))) (J (F (-5196399342360963) (-53)) (F 2516902034167279 (-53)))) (WI (J NInf Inf)) (Raised ValueError);
  T (Div (J (F (-25) 2) (F (-15) 0)) (J Z0 (F 3 0))) (WI (J NInf (F (-5) 0))) (Raised ValueError);
  T (Div (J (F (-1) 1) (F (-5171198393001811) (-52))) (J Z0 (F 5196399342360963 (-53)))) (WI (J NInf (F (-8963517089970455) (-52)))) (Raised ValueError);
  T (Div (J (F (-4886718345) 0) (F (-15015) 5)) (J (F 1035 0) (F 143 5))) (WI (J (F (-4721467) 0) (F (-105) 0))) Passed;
  T (Div (J (F (-471617134751921) (-49)) (F (-15015) (-52))) (J (F 2551833932242937 (-49)) (F 143 202))) (WI (J (F (-3329330683307315) (-54)) (F (-105) (-254)))) Passed;
  T (Div (J (F (-4886718345) 0) (F (-7611242865522409) (-52))) (J (F 1035 (-17)) (F 2771298092426729 (-54)))) (WI (J (F (-4721467) 17) (F (-773058089336057) (-46)))) Passed;
  T (Div (J (F (-471617134751921) (-45)) (F (-7611242865522409) (-52))) (J (F 2551833932242937 (-53)) (F 2771298092426729 (-46)))) (WI (J (F (-3329330683307315) (-46)) (F (-773058089336057) (-54)))) Passed;
  T (Div (J (F (-123456789) 0) Z0) (J (F (-9) 4) (F (-9) 0))) (WI (J Z0 (F 13717421 0))) Passed;
  T (Div (J (F (-5675177068786343) (-56)) Z0) (J (F (-1) (-8)) (F (-4325792289505695) (-60)))) (WI (J Z0 (F 2954224754879335 (-47)))) Passed;
  T (Div (J (F (-32069089143) 1) Z0) (J (F (-22906492245) 1) Z0)) (WI (J Z0 Inf)) (Raised ValueError);
  T (Div (J (F (-5171198393001811) (-52)) Z0) (J (F (-5196399342360963) (-53)) (F 2516902034167279 (-53)))) (WI (J NInf Inf)) (Raised ValueError);
  T (Div (J (F (-32069089143) 1) Z0) (J Z0 (F 3 0))) (WI (J NInf Z0)) (Raised ValueError);
  T (Div (J (F (-123456789) 0) Z0) (J (F 9 0) (F 9 4))) (WI (J (F (-13717421) 0) Z0)) Passed;
  T (Div (J (F (-5675177068786343) (-56)) Z0) (J (F 4325792289505695 (-60)) (F 9 0))) (WI (J (F (-2954224754879335) (-47)) Z0)) Passed;
  T (Div (J (F (-123456789) 0) (F 333 7)) (J (F (-1403) 1) (F (-9) 0))) (WI (J (F (-37) 7) (F 13717421 0))) Passed;
  T (Div (J (F (-9) 1) (F 1 4)) (J (F (-806308527035) 0) (F (-9) 0))) (WI (J (F (-8006399337547549) (-52)) (F 1 1))) Passed;
  T (Div (J (F (-1) 0) (F 15015 (-15))) (J (F (-219902325555) 2) (F (-143) 1))) (WI (J (F (-105) (-16)) (F 4031194072051913 (-60)))) Passed;
  T (Div (J (F (-1598450905485467) (-51)) (F 7769504329080037 (-50))) (J (F (-15246561238493) 0) (F (-7292732015706145) (-53)))) (WI (J (F (-2399014301220707) (-48)) (F 7896939458968817 (-53)))) Passed;
  T (Div (J (F (-2763) 256) (F 1785 0)) (J (F (-7) 0) Z0)) (WI (J NInf Inf)) (Raised ValueError);
  T (Div (J (F (-5171198393001811) (-52)) (F 5405422407663491 (-53))) (J (F (-5196399342360963) (-53)) (F 2516902034167279 (-53)))) (WI (J NInf Inf)) (Raised ValueError);
  T (Div (J Z0 (F 15 0)) (J (F (-3) 0) (F 3 0))) (WI (J NInf Inf)) (Raised ValueError);
  T (Div (J (F (-15015) 1) (F 54765425 14)) (J (F 143 1) (F 3003 0))) (WI (J (F (-105) 0) (F 382975 13))) Passed;
  T (Div (J (F (-1) 4) (F 54765425 14)) (J (F 143 1) (F 3003 0))) (WI (J (F (-4031194072051913) (-56)) (F 382975 13))) Passed;
  T (Div (J (F (-15015) 1) (F 1 10)) (J (F 143 1) (F 3003 0))) (WI (J (F (-105) 0) (F 4031194072051913 (-50)))) Passed;
  T (Div (J (F (-4929331317635111) (-52)) (F 585731375395479 (-48))) (J (F 5175489230490571 (-52)) (F 273 0))) (WI (J (F (-8578796591634661) (-53)) (F 8155053905797417 (-52)))) Passed;
  T (Div (J Z0 (F 123456789 0)) (J (F (-5) 1) (F (-9) 0))) (WI (J (F (-13717421) 0) Z0)) Passed;
  T (Div (J Z0 (F 7542587223897837 (-52))) (J (F (-15) (-4)) (F (-1002061344321387) (-50)))) (WI (J (F (-8474728918407687) (-52)) Z0)) Passed;
  T (Div (J Z0 (F 5 1)) (J (F (-9) 0) Z0)) (WI (J NInf Z0)) (Raised ValueError);
  T (Div (J Z0 (F 5 1)) (J (F (-1) 0) (F 1 0))) (WI (J NInf Inf)) (Raised ValueError);
  T (Div (J Z0 (F 123456789 0)) (J (F 9 0) (F 5 1))) (WI (J Z0 (F 13717421 0))) Passed;
  T (Div (J Z0 (F 6182211322168943 (-52))) (J (F 5010926117885671 (-51)) (F 5 1))) (WI (J Z0 (F 86817174459863 (-47)))) Passed;
  T (Div (J (F 15015 1) (F 123456789 0)) (J (F (-143) 1) (F (-9) 0))) (WI (J (F (-13717421) 0) (F (-105) 0))) Passed;
  T (Div (J (F 15015 (-15)) (F 4513098699142765 (-48))) (J (F (-143) 1) (F (-5149700644202901) (-51)))) (WI (J (F (-986717045515355) (-47)) (F (-105) (-16)))) Passed;
  T (Div (J (F 5445341535265423 (-53)) (F 123456789 0)) (J (F (-2974824302408595) (-47)) (F (-9) 0))) (WI (J (F (-13717421) 0) (F (-4121863279332269) (-57)))) Passed;
  T (Div (J (F 3964094341502505 (-52)) (F 2307199908872225 (-51))) (J (F (-5688000317571777) (-54)) (F (-6411977875200279) (-55)))) (WI (J (F (-6482058954104947) (-50)) (F (-6277318144339885) (-51)))) Passed;
  T (Div (J (F 15015 1) (F 30583 1)) (J (F (-143) 1) Z0)) (WI (J NInf (F (-105) 0))) (Raised ValueError);
  T (Div (J (F 3738387460802675 (-55)) (F 30583 1)) (J (F (-998750116872905) (-50)) Z0)) (WI (J NInf (F (-8428634996385155) (-56)))) (Raised ValueError);
  T (Div (J (F 5 0) (F 3 1)) (J (F (-5688000317571777) (-54)) (F 6411977875200279 (-55)))) (WI (J NInf Inf)) (Raised ValueError);
  T (Div (J (F 15015 1) (F 489335 1)) (J Z0 (F 143 1))) (WI (J (F 105 0) Inf)) (Raised ValueError);
  T (Div (J (F 6738078552524901 (-52)) (F 489335 1)) (J Z0 (F 5782367658968761 (-52)))) (WI (J (F 327997217663043 (-48)) Inf)) (Raised ValueError);
  T (Div (J (F 796789321 1) (F 7418529635 0)) (J (F 3136799 0) (F 8952689 0))) (WI (J (F 89 1) (F 2365 0))) Passed;
  T (Div (J (F 4149571865248643 (-59)) (F 7418529635 0)) (J (F 3136799 (-20)) (F 1002061344321387 (-46)))) (WI (J (F 2331195890848469 (-62)) (F 2365 20))) Passed;
  T (Div (J (F 796789321 (-31)) (F 4513098699142765 (-52))) (J (F 5149700644202901 (-51)) (F 8952689 (-20)))) (WI (J (F 89 (-11)) (F 986717045515355 (-51)))) Passed;
  T (Div (J (F 2326628837736043 (-56)) (F 8106430610894927 (-51))) (J (F 4595911796503497 (-53)) (F 6798993273937045 (-53)))) (WI (J (F 1541140628396291 (-55)) (F 7943607165460839 (-50)))) Passed].
(** mpfi.py, TestCase_mpfi_div_d *)
Definition mpfi_div_d : list test := [
  T (Div (J NInf (F (-7) 0)) (J (F (-7) 0) (F (-7) 0))) (WI (J (F 1 0) Inf)) Passed;
  T (Div (J NInf (F (-7) 0)) (J Z0 Z0)) (WI (J NaN NaN)) (Raised ValueError);
  T (Div (J NInf (F (-7) 0)) (J (F 7 0) (F 7 0))) (WI (J NInf (F (-1) 0))) Passed;
  T (Div (J NInf Z0) (J (F (-6490371073168535) (-106)) (F (-6490371073168535) (-106)))) (WI (J Z0 Inf)) Passed;
  T (Div (J NInf Z0) (J (F 6490371073168535 (-106)) (F 6490371073168535 (-106)))) (WI (J NInf Z0)) Passed;
  T (Div (J NInf (F 1 3)) (J (F (-3) 0) (F (-3) 0))) (WI (J (F (-3002399751580331) (-50)) Inf)) Passed;
  T (Div (J NInf (F 1 3)) (J Z0 Z0)) (WI (J NaN NaN)) (Raised ValueError);
  T (Div (J NInf (F 1 3)) (J (F 3 0) (F 3 0))) (WI (J NInf (F 3002399751580331 (-50)))) Passed;
  T (Div (J NInf Inf) (J (F (-6490371073168535) (-105)) (F (-6490371073168535) (-105)))) (WI (J NInf Inf)) Passed;
  T (Div (J NInf Inf) (J Z0 Z0)) (WI (J NaN NaN)) (Raised ValueError);
  T (Div (J NInf Inf) (J (F 6490371073168535 (-105)) (F 6490371073168535 (-105)))) (WI (J NInf Inf)) Passed;
  T (Div (J Z0 Z0) (J (F (-6490371073168535) (-109)) (F (-6490371073168535) (-109)))) (WI (J Z0 Z0)) Passed;
  T (Div (J Z0 Z0) (J (F 6490371073168535 (-109)) (F 6490371073168535 (-109)))) (WI (J Z0 Z0)) Passed;
  T (Div (J Z0 (F 1 3)) (J (F (-4867778304876401) (-107)) (F (-4867778304876401) (-107)))) (WI (J (F (-4166666666666667) 6) Z0)) Passed;
  T (Div (J Z0 (F 1 3)) (J (F 4867778304876401 (-107)) (F 4867778304876401 (-107)))) (WI (J Z0 (F 4166666666666667 6))) Passed;
  T (Div (J Z0 Inf) (J (F (-1419768672255617) (-104)) (F (-1419768672255617) (-104)))) (WI (J NInf Z0)) Passed;
  T (Div (J Z0 Inf) (J (F 5679074689022467 (-106)) (F 5679074689022467 (-106)))) (WI (J Z0 Inf)) Passed;
  T (Div (J (F (-4503599627370497) (-20)) (F (-4503599627370497) (-53))) (J (F (-1) 0) (F (-1) 0))) (WI (J (F 4503599627370497 (-53)) (F 4503599627370497 (-20)))) Passed;
  T (Div (J (F (-2251799813685249) (-19)) (F (-4503599627370497) (-53))) (J (F 4503599627370497 (-53)) (F 4503599627370497 (-53)))) (WI (J (F (-4503599627370497) (-19)) (F (-1) 0))) Passed;
  T (Div (J (F (-4503599627370497) (-20)) (F (-4503600164241409) (-53))) (J (F 4503599627370497 (-53)) (F 4503599627370497 (-53)))) (WI (J (F (-1) 33) (F (-4503600164241407) (-52)))) Passed;
  T (Div (J (F (-2251799813685249) (-19)) (F (-4503600164241409) (-53))) (J (F 4503599627370497 (-53)) (F 4503599627370497 (-53)))) (WI (J (F (-4503599627370497) (-19)) (F (-4503600164241407) (-52)))) Passed;
  T (Div (J (F (-5124095576030431) (-53)) (F 5124095576030431 (-7))) (J (F (-5124095576030431) 0) (F (-5124095576030431) 0))) (WI (J (F (-1) (-7)) (F 1 (-53)))) Passed;
  T (Div (J (F (-5124095576030431) (-53)) (F 4503599627370497 (-53))) (J (F (-5124095576030431) 0) (F (-5124095576030431) 0))) (WI (J (F (-3958241859993601) (-105)) (F 1 (-53)))) Passed;
  T (Div (J (F (-1) 0) (F 5124095576030431 (-7))) (J (F (-5124095576030431) 0) (F (-5124095576030431) 0))) (WI (J (F (-1) (-7)) (F 7916483719987201 (-105)))) Passed;
  T (Div (J (F (-1) 0) (F 4503599627370497 (-53))) (J (F (-5124095576030431) 0) (F (-5124095576030431) 0))) (WI (J (F (-3958241859993601) (-105)) (F 7916483719987201 (-105)))) Passed].
(** mpfi.py, TestCase_mpfi_d_sub *)
Definition mpfi_d_sub : list test := [
  T (Sub (J (F (-6490371073168535) (-107)) (F (-6490371073168535) (-107))) (J NInf (F (-7) 0))) (WI (J (F 7881299347898367 (-50)) Inf)) Passed;
  T (Sub (J Z0 Z0) (J NInf (F (-7) 0))) (WI (J (F 7 0) Inf)) Passed;
  T (Sub (J (F 6490371073168535 (-107)) (F 6490371073168535 (-107))) (J NInf (F (-7) 0))) (WI (J (F 7 0) Inf)) Passed;
  T (Sub (J (F (-6490371073168535) (-96)) (F (-6490371073168535) (-96))) (J NInf Z0)) (WI (J (F (-6490371073168535) (-96)) Inf)) Passed;
  T (Sub (J Z0 Z0) (J NInf Z0)) (WI (J Z0 Inf)) Passed;
  T (Sub (J (F 6490371073168535 (-96)) (F 6490371073168535 (-96))) (J NInf Z0)) (WI (J (F 6490371073168535 (-96)) Inf)) Passed;
  T (Sub (J (F (-762939453125) 21) (F (-762939453125) 21)) (J NInf (F 1 3))) (WI (J (F (-6250000000000001) 8) Inf)) Passed;
  T (Sub (J Z0 Z0) (J NInf (F 1 3))) (WI (J (F (-1) 3) Inf)) Passed;
  T (Sub (J (F 762939453125 21) (F 762939453125 21)) (J NInf (F 1 3))) (WI (J (F 6249999999999999 8) Inf)) Passed;
  T (Sub (J (F (-6490371073168535) (-105)) (F (-6490371073168535) (-105))) (J NInf Inf)) (WI (J NInf Inf)) Passed;
  T (Sub (J Z0 Z0) (J NInf Inf)) (WI (J NInf Inf)) Passed;
  T (Sub (J (F 6490371073168535 (-105)) (F 6490371073168535 (-105))) (J NInf Inf)) (WI (J NInf Inf)) Passed;
  T (Sub (J (F (-6490371073168535) (-109)) (F (-6490371073168535) (-109))) (J Z0 Z0)) (WI (J (F (-6490371073168535) (-109)) (F (-6490371073168535) (-109)))) Passed;
  T (Sub (J Z0 Z0) (J Z0 Z0)) (WI (J Z0 Z0)) Passed;
  T (Sub (J (F 6490371073168535 (-109)) (F 6490371073168535 (-109))) (J Z0 Z0)) (WI (J (F 6490371073168535 (-109)) (F 6490371073168535 (-109)))) Passed;
  T (Sub (J (F (-4867778304876401) (-107)) (F (-4867778304876401) (-107))) (J Z0 (F 1 3))) (WI (J (F (-4503599627370497) (-49)) (F (-4867778304876401) (-107)))) Passed;
  T (Sub (J Z0 Z0) (J Z0 (F 1 3))) (WI (J (F (-1) 3) Z0)) Passed;
  T (Sub (J (F 4867778304876401 (-107)) (F 4867778304876401 (-107))) (J Z0 (F 1 3))) (WI (J (F (-1) 3) (F 4867778304876401 (-107)))) Passed;
  T (Sub (J (F (-1419768672255617) (-104)) (F (-1419768672255617) (-104))) (J Z0 Inf)) (WI (J NInf (F (-1419768672255617) (-104)))) Passed;
  T (Sub (J Z0 Z0) (J Z0 Inf)) (WI (J NInf Z0)) Passed;
  T (Sub (J (F (-5679074689022467) (-106)) (F (-5679074689022467) (-106))) (J Z0 Inf)) (WI (J NInf (F (-5679074689022467) (-106)))) Passed;
  T (Sub (J (F (-4421398595017775) (-47)) (F (-4421398595017775) (-47))) (J (F 17 0) (F 1 5))) (WI (J (F (-8924998222388271) (-47)) (F (-6813935897058351) (-47)))) Passed;
  T (Sub (J (F 4421398595017775 (-47)) (F 4421398595017775 (-47))) (J (F 17 0) (F 4421398595017775 (-47)))) (WI (J Z0 (F 2028861292977199 (-47)))) Passed;
  T (Sub (J (F 4421398595017775 (-48)) (F 4421398595017775 (-48))) (J (F 4421398595017775 (-48)) (F 1 5))) (WI (J (F (-4585800659723217) (-48)) Z0)) Passed;
  T (Sub (J (F 7 (-1)) (F 7 (-1))) (J (F (-5124095576030431) (-4)) (F (-5124095576030431) (-48)))) (WI (J (F 6109257994517727 (-48)) (F 5124095576030487 (-4)))) Passed;
  T (Sub (J (F 7 (-1)) (F 7 (-1))) (J (F (-5124095576030431) (-4)) (F (-5124095576030431) (-56)))) (WI (J (F 4020713667324659 (-50)) (F 5124095576030487 (-4)))) Passed;
  T (Sub (J (F 513 (-1)) (F 513 (-1))) (J (F (-5124095576030431) (-52)) (F 255 0))) (WI (J (F 3 (-1)) (F 4532411718736573 (-44)))) Passed;
  T (Sub (J (F 8195 (-1)) (F 8195 (-1))) (J (F 1 (-550)) (F 9007199254740991 (-52)))) (WI (J (F 8191 (-1)) (F 8195 (-1)))) Passed;
  T (Sub (J (F (-7) (-1)) (F (-7) (-1))) (J (F (-5124095576030431) (-4)) (F (-5124095576030431) (-48)))) (WI (J (F 4138933157543135 (-48)) (F 5124095576030375 (-4)))) Passed;
  T (Sub (J (F (-7) (-1)) (F (-7) (-1))) (J (F (-5124095576030431) (-4)) (F (-5124095576030431) (-56)))) (WI (J (F (-3860585680573709) (-50)) (F 5124095576030375 (-4)))) Passed;
  T (Sub (J (F (-513) (-1)) (F (-513) (-1))) (J (F (-5124095576030431) (-52)) (F 255 0))) (WI (J (F (-1023) (-1)) (F (-4492379722048835) (-44)))) Passed;
  T (Sub (J (F (-8195) (-1)) (F (-8195) (-1))) (J (F 1 (-550)) (F 9007199254740991 (-52)))) (WI (J (F (-8199) (-1)) (F (-8195) (-1)))) Passed].
(** mpfi.py, TestCase_mpfi_mid *)
Definition mpfi_mid : list test := [
  T (Get Gmid (J (F (-1) 3) Z0)) (WN (PInt (-4))) Passed;
  T (Get Gmid (J Z0 Z0)) (WN (PInt 0)) Passed;
  T (Get Gmid (J Z0 (F 5 0))) (WN (F 5 (-1))) Passed;
  T (Get Gmid (J (F (-17) 1) (F (-17) 0))) (WN (F (-51) (-1))) Passed;
  T (Get Gmid (J (F (-17) 1) (F 17 0))) (WN (F (-17) (-1))) Passed;
  T (Get Gmid (J Z0 (F 320255973501901 (-2)))) (WN (F 320255973501901 (-3))) Passed;
  T (Get Gmid (J (F 884279719003555 (-48)) (F 7074237752028441 (-51)))) (WN (F 884279719003555 (-48))) Passed;
  T (Get Gmid (J (F (-7074237752028441) (-51)) (F (-884279719003555) (-48)))) (WN (F (-884279719003555) (-48))) Passed;
  T (Get Gmid (J (F (-1) 2) (F (-2251799813685245) (-51)))) (WN (F (-2814749767106559) (-50))) Passed;
  T (Get Gmid (J (F (-1) 3) (F (-2251799813685243) (-51)))) (WN (F (-5066549580791807) (-50))) Passed;
  T (Get Gmid (J (F (-9007199254740991) (-53)) (F 1 1))) (WN (F 1 (-1))) Passed].
(** mpfi.py, TestCase_mpfi_mul *)
Definition mpfi_mul : list test := [
  T (Mul (J NInf (F (-7) 0)) (J (F (-1) 0) (F 1 3))) (WI (J NInf Inf)) Passed;
  T (Mul (J NInf Z0) (J (F 1 3) Inf)) (WI (J NInf Z0)) Passed;
  T (Mul (J NInf (F 1 3)) (J Z0 (F 1 3))) (WI (J NInf (F 1 6))) (Shown NaN NaN);
  T (Mul (J NInf Inf) (J Z0 Z0)) (WI (J Z0 Z0)) (Shown NaN NaN);
  T (Mul (J NInf Inf) (J Z0 (F 1 3))) (WI (J NInf Inf)) (Shown NaN NaN);
  T (Mul (J Z0 Z0) (J NInf (F (-7) 0))) (WI (J Z0 Z0)) (Shown NaN NaN);
  T (Mul (J Z0 (F 1 3)) (J (F (-7) 0) Z0)) (WI (J (F (-7) 3) Z0)) Passed;
  T (Mul (J Z0 Z0) (J Z0 (F 1 3))) (WI (J Z0 Z0)) Passed;
  T (Mul (J Z0 Inf) (J Z0 (F 1 3))) (WI (J Z0 Inf)) Passed;
  T (Mul (J Z0 Z0) (J (F 1 3) Inf)) (WI (J Z0 Z0)) Passed;
  T (Mul (J Z0 Z0) (J NInf Inf)) (WI (J Z0 Z0)) (Shown NaN NaN);
  T (Mul (J Z0 (F 1 3)) (J (F (-7) 0) (F 1 3))) (WI (J (F (-7) 3) (F 1 6))) Passed;
  T (Mul (J Z0 Z0) (J Z0 Z0)) (WI (J Z0 Z0)) Passed;
  T (Mul (J Z0 Inf) (J Z0 (F 1 3))) (WI (J Z0 Inf)) Passed;
  T (Mul (J (F (-3) 0) (F 7 0)) (J Z0 Z0)) (WI (J Z0 Z0)) Passed;
  T (Mul (J (F (-13) 0) (F (-9) 0)) (J (F (-1) 2) (F (-1) 1))) (WI (J (F 9 1) (F 13 2))) Passed;
  T (Mul (J (F (-13) 0) (F (-981013020756255) (-50))) (J (F (-1) 2) (F (-360781705111839) (-53)))) (WI (J (F 5029669841368297 (-57)) (F 13 2))) Passed;
  T (Mul (J (F (-7966596657500009) (-53)) (F (-4581640750850607) (-53))) (J (F (-1561897506113237) (-52)) (F (-1803872025114301) (-53)))) (WI (J (F 917565310352485 (-53)) (F 5525805347321417 (-54)))) Passed;
  T (Mul (J (F (-55) 0) (F (-7) 0)) (J (F (-1) 0) (F 17 1))) (WI (J (F (-935) 1) (F 55 0))) Passed;
  T (Mul (J (F (-1973758986250893) (-51)) (F (-51) (-8))) (J (F (-1) 0) (F 3302750591231247 (-51)))) (WI (J (F (-5789887377350421) (-52)) (F 1973758986250893 (-51)))) Passed;
  T (Mul (J (F (-1010073612768053) (-45)) (F (-51) (-8))) (J (F (-784747789943779) (-49)) (F 1 0))) (WI (J (F (-1010073612768053) (-45)) (F 5632138562107927 (-47)))) Passed;
  T (Mul (J (F (-1010073612768053) (-45)) (F (-51) (-8))) (J (F (-784747789943779) (-49)) (F 8644884847064869 (-48)))) (WI (J (F (-3877773688571389) (-42)) (F 5632138562107927 (-47)))) Passed;
  T (Mul (J (F (-39093746765) 1) (F (-1) 0)) (J (F 1 0) (F 1 4))) (WI (J (F (-39093746765) 5) (F (-1) 0))) Passed;
  T (Mul (J (F (-803854482988885) (-50)) (F (-1) (-1))) (J (F 1 1) (F 576068101321695 (-48)))) (WI (J (F (-6580690492147877) (-52)) (F (-1) 0))) Passed;
  T (Mul (J (F (-1) 2) (F (-1447776191651223) (-55))) (J (F 6654870335973325 (-53)) (F 1 2))) (WI (J (F (-1) 4) (F (-8557388425377037) (-58)))) Passed;
  T (Mul (J (F (-803854482988885) (-50)) (F (-1447776191651223) (-55))) (J (F 6654870335973325 (-53)) (F 576068101321695 (-48)))) (WI (J (F (-6580690492147877) (-52)) (F (-8557388425377037) (-58)))) Passed;
  T (Mul (J (F (-1) 0) (F 17 0)) (J (F (-7) 0) (F (-1) 2))) (WI (J (F (-119) 0) (F 7 0))) Passed;
  T (Mul (J (F (-1) 0) (F 2081645824688825 (-51))) (J (F (-2512489455883405) (-50)) (F (-1) (-4)))) (WI (J (F (-1161318415968535) (-49)) (F 2512489455883405 (-50)))) Passed;
  T (Mul (J (F (-5014227875956545) (-44)) (F 1 0)) (J (F (-2512489455883405) (-50)) (F (-1) (-4)))) (WI (J (F (-2512489455883405) (-50)) (F 2797361157766401 (-42)))) Passed;
  T (Mul (J (F (-2081645824688825) (-51)) (F 5014227875956545 (-44))) (J (F (-2512489455883405) (-50)) (F (-1) (-4)))) (WI (J (F (-2797361157766401) (-42)) (F 1161318415968535 (-49)))) Passed;
  T (Mul (J (F (-1) 0) (F 1 4)) (J (F (-1) 1) (F 3 0))) (WI (J (F (-1) 5) (F 3 4))) Passed;
  T (Mul (J (F (-1) 0) (F 6430257117841917 (-55))) (J (F (-2726774217108935) (-54)) (F 1 (-8)))) (WI (J (F (-3893298865145789) (-57)) (F 2726774217108935 (-54)))) Passed;
  T (Mul (J (F (-1) 0) (F 968708390260917 (-51))) (J (F (-1) (-4)) (F 3503040989656361 (-51)))) (WI (J (F (-3503040989656361) (-51)) (F 6027934059652337 (-53)))) Passed;
  T (Mul (J (F (-4888461417488605) (-52)) (F 1 (-8))) (J (F (-5559011119518465) (-51)) (F 144621635301695 (-48)))) (WI (J (F (-5023375737113469) (-53)) (F 6034064665073869 (-51)))) Passed;
  T (Mul (J (F (-7) 0) (F 7 0)) (J (F 19 0) (F 9 2))) (WI (J (F (-63) 2) (F 63 2))) Passed;
  T (Mul (J (F (-738994188715163) (-50)) (F 1 4)) (J (F 1 1) (F 2478316942128365 (-50)))) (WI (J (F (-6506659453106049) (-52)) (F 2478316942128365 (-46)))) Passed;
  T (Mul (J (F (-1) 0) (F 7048576189133139 (-52))) (J (F 1 (-53)) (F 2851519865906189 (-51)))) (WI (J (F (-2851519865906189) (-51)) (F 4462908937889251 (-51)))) Passed;
  T (Mul (J (F (-1988152675581375) (-50)) (F 876783607687311 (-49))) (J (F 1 1) (F 7362931988175587 (-51)))) (WI (J (F (-6500858932241277) (-50)) (F 5733811711427081 (-50)))) Passed;
  T (Mul (J (F 3 2) (F 45 0)) (J (F (-1657) 0) (F (-229) 0))) (WI (J (F (-74565) 0) (F (-687) 2))) Passed;
  T (Mul (J (F 3 2) (F 2464692456236581 (-41))) (J (F (-2586240079710387) (-10)) (F (-229) 0))) (WI (J (F (-2830751817163917) 0) (F (-687) 2))) Passed;
  T (Mul (J (F 6317673388304481 (-49)) (F 45 0)) (J (F (-1657) 0) (F (-723326011191681) (-46)))) (WI (J (F (-74565) 0) (F (-8117484448131961) (-46)))) Passed;
  T (Mul (J (F 1057788677665415 (-50)) (F 3022517850334017 (-48))) (J (F (-6525674922071217) (-50)) (F (-5724619434411135) (-59)))) (WI (J (F (-4379600890266855) (-46)) (F (-5378309017401763) (-59)))) Passed;
  T (Mul (J (F 1 0) (F 3 2)) (J (F (-229) 0) (F 1 0))) (WI (J (F (-687) 2) (F 3 2))) Passed;
  T (Mul (J (F 291 (-52)) (F 2164467092363963 (-50))) (J (F (-6002117205218615) (-53)) (F 1 32))) (WI (J (F (-2884666988657803) (-51)) (F 2164467092363963 (-18)))) Passed;
  T (Mul (J (F 3 0) (F 4037220507707411 (-49))) (J (F (-1) 0) (F 6002117205218615 (-53)))) (WI (J (F (-4037220507707411) (-49)) (F 168142379676301 (-45)))) Passed;
  T (Mul (J (F 3 (-4)) (F 6002117205218615 (-53))) (J (F (-2164467092363963) (-50)) (F 4037220507707411 (-49)))) (WI (J (F (-2884666988657803) (-51)) (F 168142379676301 (-45)))) Passed;
  T (Mul (J (F 3 0) (F 7 0)) (J (F 5 0) (F 11 0))) (WI (J (F 15 0) (F 77 0))) Passed;
  T (Mul (J (F 5138842765473291 (-51)) (F 7 0)) (J (F 7756347518956663 (-51)) (F 11 0))) (WI (J (F 4425199133160879 (-49)) (F 77 0))) Passed;
  T (Mul (J (F 3 0) (F 7756347518956663 (-51))) (J (F 5 (-25)) (F 5138842765473291 (-51)))) (WI (J (F 15 (-25)) (F 8850398266321759 (-50)))) Passed;
  T (Mul (J (F 26969260436153 (-47)) (F 5138842765473291 (-51))) (J (F 861345156465979 (-50)) (F 1474425239373713 (-49)))) (WI (J (F 2640927260716801 (-54)) (F 6729585310860059 (-50)))) Passed].
(** mpfi.py, TestCase_mpfi_mul_d *)
Definition mpfi_mul_d : list test := [
  T (Mul (J NInf (F (-7) 0)) (J (F (-23) 0) (F (-23) 0))) (WI (J (F 161 0) Inf)) Passed;
  T (Mul (J NInf (F (-7) 0)) (J Z0 Z0)) (WI (J Z0 Z0)) (Shown NaN NaN);
  T (Mul (J NInf (F (-7) 0)) (J (F 6490371073168535 (-107)) (F 6490371073168535 (-107)))) (WI (J NInf (F (-1419768672255617) (-102)))) Passed;
  T (Mul (J NInf Z0) (J (F (-6490371073168535) (-106)) (F (-6490371073168535) (-106)))) (WI (J Z0 Inf)) Passed;
  T (Mul (J NInf Z0) (J Z0 Z0)) (WI (J Z0 Z0)) (Shown NaN NaN);
  T (Mul (J NInf Z0) (J (F 6490371073168535 (-106)) (F 6490371073168535 (-106)))) (WI (J NInf Z0)) Passed;
  T (Mul (J NInf (F 1 3)) (J (F (-762939453125) 21) (F (-762939453125) 21))) (WI (J (F (-762939453125) 24) Inf)) Passed;
  T (Mul (J NInf (F 1 3)) (J Z0 Z0)) (WI (J Z0 Z0)) (Shown NaN NaN);
  T (Mul (J NInf (F 1 3)) (J (F 762939453125 21) (F 762939453125 21))) (WI (J NInf (F 762939453125 24))) Passed;
  T (Mul (J NInf Inf) (J (F (-6490371073168535) (-105)) (F (-6490371073168535) (-105)))) (WI (J NInf Inf)) Passed;
  T (Mul (J NInf Inf) (J Z0 Z0)) (WI (J Z0 Z0)) (Shown NaN NaN);
  T (Mul (J NInf Inf) (J (F 6490371073168535 (-105)) (F 6490371073168535 (-105)))) (WI (J NInf Inf)) Passed;
  T (Mul (J Z0 Z0) (J (F (-6490371073168535) (-109)) (F (-6490371073168535) (-109)))) (WI (J Z0 Z0)) Passed;
  T (Mul (J Z0 Z0) (J Z0 Z0)) (WI (J Z0 Z0)) Passed;
  T (Mul (J Z0 Z0) (J (F 6490371073168535 (-109)) (F 6490371073168535 (-109)))) (WI (J Z0 Z0)) Passed;
  T (Mul (J Z0 (F 7 0)) (J (F (-4867778304876401) (-107)) (F (-4867778304876401) (-107)))) (WI (J (F (-4259306016766851) (-104)) Z0)) Passed;
  T (Mul (J Z0 (F 1 3)) (J Z0 Z0)) (WI (J Z0 Z0)) Passed;
  T (Mul (J Z0 (F 9 0)) (J (F 4867778304876401 (-103)) (F 4867778304876401 (-103)))) (WI (J Z0 (F 171132831030811 (-95)))) Passed;
  T (Mul (J Z0 Inf) (J (F (-1419768672255617) (-104)) (F (-1419768672255617) (-104)))) (WI (J NInf Z0)) Passed;
  T (Mul (J Z0 Inf) (J Z0 Z0)) (WI (J Z0 Z0)) Passed;
  T (Mul (J Z0 Inf) (J (F 5679074689022467 (-106)) (F 5679074689022467 (-106)))) (WI (J Z0 Inf)) Passed;
  T (Mul (J (F (-1513239) 4) (F (-1501199875790165) (-122))) (J (F (-3) (-1)) (F (-3) (-1)))) (WI (J (F 4503599627370495 (-123)) (F 4539717 3))) Passed;
  T (Mul (J (F (-1501199875790165) 1) (F 1513239 405)) (J (F (-3) (-1)) (F (-3) (-1)))) (WI (J (F (-4539717) 404) (F 4503599627370495 0))) Passed;
  T (Mul (J (F 281474976710657 4) (F 18764998447377 657)) (J (F (-17) (-3)) (F (-17) (-3)))) (WI (J (F (-319004973605409) 654) (F (-4785074604081169) 1))) Passed;
  T (Mul (J (F (-1513239) 4) (F (-1501199875790165) (-122))) (J (F 3 (-1)) (F 3 (-1)))) (WI (J (F (-4539717) 3) (F (-4503599627370495) (-123)))) Passed;
  T (Mul (J (F (-1501199875790165) 1) (F 1513239 405)) (J (F 3 (-1)) (F 3 (-1)))) (WI (J (F (-4503599627370495) 0) (F 4539717 404))) Passed;
  T (Mul (J (F 281474976710657 4) (F 18764998447377 657)) (J (F 17 (-3)) (F 17 (-3)))) (WI (J (F 4785074604081169 1) (F 319004973605409 654))) Passed;
  T (Mul (J (F (-1513239) 40) (F (-4503599627370497) 0)) (J (F (-3) (-1)) (F (-3) (-1)))) (WI (J (F 6755399441055745 0) (F 4539717 39))) Passed;
  T (Mul (J (F (-1501199875790165) 1) (F 4503599627370497 0)) (J (F (-3) (-1)) (F (-3) (-1)))) (WI (J (F (-3377699720527873) 1) (F 4503599627370495 0))) Passed;
  T (Mul (J (F 281474976710657 4) (F 4803839602528529 0)) (J (F (-17) (-3)) (F (-17) (-3)))) (WI (J (F (-5104079577686563) 1) (F (-4785074604081169) 1))) Passed;
  T (Mul (J (F (-4503599627370497) 0) (F (-1501199875790165) (-122))) (J (F 3 (-1)) (F 3 (-1)))) (WI (J (F (-3377699720527873) 1) (F (-4503599627370495) (-123)))) Passed;
  T (Mul (J (F (-3002399751580331) 0) (F 1513239 405)) (J (F 3 (-1)) (F 3 (-1)))) (WI (J (F (-4503599627370497) 0) (F 4539717 404))) Passed;
  T (Mul (J (F 4503599627370497 0) (F 18764998447377 657)) (J (F 17 (-3)) (F 17 (-3)))) (WI (J (F 4785074604081153 1) (F 319004973605409 654))) Passed;
  T (Mul (J (F (-4909806652584305) 0) (F (-1501199875790165) (-122))) (J (F (-3) (-1)) (F (-3) (-1)))) (WI (J (F 4503599627370495 (-123)) (F 3682354989438229 1))) Passed;
  T (Mul (J (F (-4503599627370497) 0) (F 1513239 405)) (J (F (-3) (-1)) (F (-3) (-1)))) (WI (J (F (-4539717) 404) (F 3377699720527873 1))) Passed;
  T (Mul (J (F 4503599627370497 0) (F 18764998447377 657)) (J (F (-17) (-3)) (F (-17) (-3)))) (WI (J (F (-319004973605409) 654) (F (-4785074604081153) 1))) Passed;
  T (Mul (J (F (-1513239) 4) (F (-3752999689475413) (-122))) (J (F 3 (-1)) (F 3 (-1)))) (WI (J (F (-4539717) 3) (F (-5629499534213119) (-122)))) Passed;
  T (Mul (J (F (-1501199875790165) 1) (F 4909806652584305 0)) (J (F 3 (-1)) (F 3 (-1)))) (WI (J (F (-4503599627370495) 0) (F 3682354989438229 1))) Passed;
  T (Mul (J (F 281474976710657 4) (F 6905519428634761 0)) (J (F 17 (-3)) (F 17 (-3)))) (WI (J (F 4785074604081169 1) (F 3668557196462217 2))) Passed;
  T (Mul (J (F (-4909806652584305) 0) (F (-4503599627370497) 0)) (J (F (-3) (-1)) (F (-3) (-1)))) (WI (J (F 6755399441055745 0) (F 3682354989438229 1))) Passed;
  T (Mul (J (F (-4503599627370497) 0) (F 4503599627370497 0)) (J (F (-3) (-1)) (F (-3) (-1)))) (WI (J (F (-3377699720527873) 1) (F 3377699720527873 1))) Passed;
  T (Mul (J (F 4503599627370497 0) (F 4803839602528529 0)) (J (F (-17) (-3)) (F (-17) (-3)))) (WI (J (F (-5104079577686563) 1) (F (-4785074604081153) 1))) Passed;
  T (Mul (J (F (-4503599627370497) 0) (F (-3752999689475413) (-122))) (J (F 3 (-1)) (F 3 (-1)))) (WI (J (F (-3377699720527873) 1) (F (-5629499534213119) (-122)))) Passed;
  T (Mul (J (F (-3002399751580331) 0) (F 4909806652584305 0)) (J (F 3 (-1)) (F 3 (-1)))) (WI (J (F (-4503599627370497) 0) (F 3682354989438229 1))) Passed;
  T (Mul (J (F 4503599627370497 0) (F 6905519428634761 0)) (J (F 17 (-3)) (F 17 (-3)))) (WI (J (F 4785074604081153 1) (F 3668557196462217 2))) Passed].
(** mpfi.py, TestCase_mpfi_neg *)
Definition mpfi_neg : list test := [
  T (Neg (J NInf (F (-7) 0))) (WI (J (F 7 0) Inf)) Passed;
  T (Neg (J NInf Z0)) (WI (J Z0 Inf)) Passed;
  T (Neg (J NInf (F 1 3))) (WI (J (F (-1) 3) Inf)) Passed;
  T (Neg (J NInf Inf)) (WI (J NInf Inf)) Passed;
  T (Neg (J Z0 Z0)) (WI (J Z0 Z0)) Passed;
  T (Neg (J Z0 (F 1 3))) (WI (J (F (-1) 3) Z0)) Passed;
  T (Neg (J Z0 Inf)) (WI (J NInf Z0)) Passed;
  T (Neg (J (F 4886718345 (-16)) (F 4886718361 (-16)))) (WI (J (F (-4886718361) (-16)) (F (-4886718345) (-16)))) Passed].
(** mpfi.py, TestCase_mpfi_sub *)
Definition mpfi_sub : list test := [
  T (Sub (J NInf (F (-7) 0)) (J (F (-1) 0) (F 1 3))) (WI (J NInf (F (-3) 1))) Passed;
  T (Sub (J NInf Z0) (J (F 1 3) Inf)) (WI (J NInf (F (-1) 3))) Passed;
  T (Sub (J NInf (F 1 3)) (J Z0 (F 1 3))) (WI (J NInf (F 1 3))) Passed;
  T (Sub (J NInf Inf) (J Z0 (F 1 3))) (WI (J NInf Inf)) Passed;
  T (Sub (J Z0 Z0) (J NInf (F (-7) 0))) (WI (J (F 7 0) Inf)) Passed;
  T (Sub (J Z0 (F 1 3)) (J (F (-7) 0) Z0)) (WI (J Z0 (F 15 0))) Passed;
  T (Sub (J Z0 Z0) (J Z0 (F 1 3))) (WI (J (F (-1) 3) Z0)) Passed;
  T (Sub (J Z0 Inf) (J Z0 (F 1 3))) (WI (J (F (-1) 3) Inf)) Passed;
  T (Sub (J Z0 Z0) (J (F 1 3) Inf)) (WI (J NInf (F (-1) 3))) Passed;
  T (Sub (J Z0 Z0) (J NInf Inf)) (WI (J NInf Inf)) Passed;
  T (Sub (J Z0 (F 1 3)) (J (F (-7) 0) (F 1 3))) (WI (J (F (-1) 3) (F 15 0))) Passed;
  T (Sub (J Z0 Z0) (J Z0 Z0)) (WI (J Z0 Z0)) Passed;
  T (Sub (J Z0 Inf) (J Z0 (F 1 3))) (WI (J (F (-1) 3) Inf)) Passed;
  T (Sub (J (F (-5) 0) (F 59 0)) (J (F 17 0) (F 81 0))) (WI (J (F (-43) 1) (F 21 1))) Passed;
  T (Sub (J (F (-1) (-300)) (F 596523 29)) (J (F (-126462925) 0) (F 1 (-41)))) (WI (J (F (-4503599627370497) (-93)) (F 320255973501901 0))) Passed;
  T (Sub (J (F (-1) 2) (F 7 0)) (J (F (-5043654821435445) 946) (F 320255973501901 (-17)))) (WI (J (F (-320255974026189) (-17)) (F 2521827410717723 947))) Passed;
  T (Sub (J (F (-281479271743489) 8) (F 1 60)) (J (F (-5043654821435445) 946) (F 281479271743489 0))) (WI (J (F (-4521260802379793) 4) (F 2521827410717723 947))) Passed;
  T (Sub (J (F (-5) 0) (F 1 0)) (J (F 1 0) (F 1 70))) (WI (J (F (-4503599627370497) 18) Z0)) Passed;
  T (Sub (J (F 5 0) (F 1 70)) (J (F 3 0) (F 5 0))) (WI (J Z0 (F 1 70))) Passed].
(** mpfi.py, TestCase_mpfi_sub_d *)
Definition mpfi_sub_d : list test := [
  T (Sub (J NInf (F (-7) 0)) (J (F (-6490371073168535) (-107)) (F (-6490371073168535) (-107)))) (WI (J NInf (F (-7881299347898367) (-50)))) Passed;
  T (Sub (J NInf (F (-7) 0)) (J Z0 Z0)) (WI (J NInf (F (-7) 0))) Passed;
  T (Sub (J NInf (F (-7) 0)) (J (F 6490371073168535 (-107)) (F 6490371073168535 (-107)))) (WI (J NInf (F (-7) 0))) Passed;
  T (Sub (J NInf Z0) (J (F (-6490371073168535) (-106)) (F (-6490371073168535) (-106)))) (WI (J NInf (F 6490371073168535 (-106)))) Passed;
  T (Sub (J NInf Z0) (J Z0 Z0)) (WI (J NInf Z0)) Passed;
  T (Sub (J NInf Z0) (J (F 6490371073168535 (-106)) (F 6490371073168535 (-106)))) (WI (J NInf (F (-6490371073168535) (-106)))) Passed;
  T (Sub (J NInf (F 1 3)) (J (F (-762939453125) 21) (F (-762939453125) 21))) (WI (J NInf (F 6250000000000001 8))) Passed;
  T (Sub (J NInf (F 1 3)) (J Z0 Z0)) (WI (J NInf (F 1 3))) Passed;
  T (Sub (J NInf (F 1 3)) (J (F 762939453125 21) (F 762939453125 21))) (WI (J NInf (F (-6249999999999999) 8))) Passed;
  T (Sub (J NInf Inf) (J (F (-6490371073168535) (-105)) (F (-6490371073168535) (-105)))) (WI (J NInf Inf)) Passed;
  T (Sub (J NInf Inf) (J Z0 Z0)) (WI (J NInf Inf)) Passed;
  T (Sub (J NInf Inf) (J (F 6490371073168535 (-105)) (F 6490371073168535 (-105)))) (WI (J NInf Inf)) Passed;
  T (Sub (J Z0 Z0) (J (F (-6490371073168535) (-109)) (F (-6490371073168535) (-109)))) (WI (J (F 6490371073168535 (-109)) (F 6490371073168535 (-109)))) Passed;
  T (Sub (J Z0 Z0) (J Z0 Z0)) (WI (J Z0 Z0)) Passed;
  T (Sub (J Z0 Z0) (J (F 6490371073168535 (-109)) (F 6490371073168535 (-109)))) (WI (J (F (-6490371073168535) (-109)) (F (-6490371073168535) (-109)))) Passed;
  T (Sub (J Z0 (F 1 3)) (J (F (-4867778304876401) (-107)) (F (-4867778304876401) (-107)))) (WI (J (F 4867778304876401 (-107)) (F 4503599627370497 (-49)))) Passed;
  T (Sub (J Z0 (F 1 3)) (J Z0 Z0)) (WI (J Z0 (F 1 3))) Passed;
  T (Sub (J Z0 (F 1 3)) (J (F 4867778304876401 (-107)) (F 4867778304876401 (-107)))) (WI (J (F (-4867778304876401) (-107)) (F 1 3))) Passed;
  T (Sub (J Z0 Inf) (J (F (-1419768672255617) (-104)) (F (-1419768672255617) (-104)))) (WI (J (F 1419768672255617 (-104)) Inf)) Passed;
  T (Sub (J Z0 Inf) (J Z0 Z0)) (WI (J Z0 Inf)) Passed;
  T (Sub (J Z0 Inf) (J (F 5679074689022467 (-106)) (F 5679074689022467 (-106)))) (WI (J (F (-5679074689022467) (-106)) Inf)) Passed;
  T (Sub (J (F (-1) 5) (F (-17) 0)) (J (F 4421398595017775 (-47)) (F 4421398595017775 (-47)))) (WI (J (F (-8924998222388271) (-47)) (F (-6813935897058351) (-47)))) Passed;
  T (Sub (J (F (-4421398595017775) (-47)) (F (-17) 0)) (J (F (-4421398595017775) (-47)) (F (-4421398595017775) (-47)))) (WI (J Z0 (F 2028861292977199 (-47)))) Passed;
  T (Sub (J (F (-1) 5) (F (-4421398595017775) (-48))) (J (F (-4421398595017775) (-48)) (F (-4421398595017775) (-48)))) (WI (J (F (-4585800659723217) (-48)) Z0)) Passed;
  T (Sub (J (F 5124095576030431 (-48)) (F 5124095576030431 (-4))) (J (F (-7) (-1)) (F (-7) (-1)))) (WI (J (F 6109257994517727 (-48)) (F 5124095576030487 (-4)))) Passed;
  T (Sub (J (F 5124095576030431 (-56)) (F 5124095576030431 (-4))) (J (F (-7) (-1)) (F (-7) (-1)))) (WI (J (F 4020713667324659 (-50)) (F 5124095576030487 (-4)))) Passed;
  T (Sub (J (F (-255) 0) (F 5124095576030431 (-52))) (J (F (-513) (-1)) (F (-513) (-1)))) (WI (J (F 3 (-1)) (F 4532411718736573 (-44)))) Passed;
  T (Sub (J (F (-9007199254740991) (-52)) (F (-1) (-550))) (J (F (-8195) (-1)) (F (-8195) (-1)))) (WI (J (F 8191 (-1)) (F 8195 (-1)))) Passed;
  T (Sub (J (F 5124095576030431 (-48)) (F 5124095576030431 (-4))) (J (F 7 (-1)) (F 7 (-1)))) (WI (J (F 4138933157543135 (-48)) (F 5124095576030375 (-4)))) Passed;
  T (Sub (J (F 5124095576030431 (-56)) (F 5124095576030431 (-4))) (J (F 7 (-1)) (F 7 (-1)))) (WI (J (F (-3860585680573709) (-50)) (F 5124095576030375 (-4)))) Passed;
  T (Sub (J (F (-255) 0) (F 5124095576030431 (-52))) (J (F 513 (-1)) (F 513 (-1)))) (WI (J (F (-1023) (-1)) (F (-4492379722048835) (-44)))) Passed;
  T (Sub (J (F (-9007199254740991) (-52)) (F (-1) (-550))) (J (F 8195 (-1)) (F 8195 (-1)))) (WI (J (F (-8199) (-1)) (F (-8195) (-1)))) Passed].
(** The functions of the C library, as tables: exp, sin and cos rounded to
    nearest (cos of the double above pi/2 one unit off, as in the recorded run),
    log rounded in the current direction. *)
Definition look (t : list (pynum * pynum)) (_ : rmode) (x : flt) : flt :=
  match find (fun p => same (fst p) (PFlt x)) t with Some (_, PFlt y) => y | _ => fnan end.
Definition look2 (t : list (pynum * (pynum * pynum))) (m : rmode) (x : flt) : flt :=
  match find (fun p => same (fst p) (PFlt x)) t, m with
  | Some (_, (PFlt y, _)), mode_DN => y
  | Some (_, (_, PFlt y)), mode_UP => y
  | _, _ => fnan
  end.
Definition tables : libm := Build_libm (look t_exp) (look2 t_log) (look t_sin) (look t_cos) (fun _ _ _ => Err NotImplementedError).
Definition arithmetic_tests : list test :=
  fi_lib_FI_LIB_addii ++ fi_lib_FI_LIB_subii ++ fi_lib_FI_LIB_mulii ++ fi_lib_FI_LIB_divii ++ libieeep1788_elem_minimal_neg_test ++ libieeep1788_elem_minimal_add_test ++ libieeep1788_elem_minimal_sub_test ++ libieeep1788_elem_minimal_mul_test ++ libieeep1788_elem_minimal_div_test ++ libieeep1788_elem_minimal_abs_test ++ libieeep1788_num_minimal_inf_test ++ libieeep1788_num_minimal_sup_test ++ libieeep1788_num_minimal_mid_test ++ libieeep1788_num_minimal_rad_test ++ libieeep1788_num_minimal_wid_test ++ libieeep1788_num_minimal_mag_test ++ libieeep1788_num_minimal_mig_test ++ libieeep1788_set_minimal_intersection_test ++ mpfi_add ++ mpfi_add_d ++ mpfi_d_div ++ mpfi_diam_abs ++ mpfi_div ++ mpfi_div_d ++ mpfi_d_sub ++ mpfi_mid ++ mpfi_mul ++ mpfi_mul_d ++ mpfi_neg ++ mpfi_sub ++ mpfi_sub_d.
Definition elementary_tests : list test :=
  libieeep1788_elem_minimal_sqrt_test ++ libieeep1788_elem_minimal_exp_test ++ libieeep1788_elem_minimal_log_test ++ libieeep1788_elem_minimal_sin_test ++ libieeep1788_elem_minimal_cos_test.

(** Every one of the recorded runs of the arithmetic, ... *)
Example recorded_arithmetic : forallb (agrees tables) arithmetic_tests = true.
Proof. vm_compute. reflexivity. Qed.
(** ... and, with these tables for the C library, of the elementary functions. *)
Example recorded_elementary : forallb (agrees tables) elementary_tests = true.
Proof. vm_compute. reflexivity. Qed.
Example how_many : (length arithmetic_tests, length elementary_tests) = (1103, 158)%nat.
Proof. reflexivity. Qed.
