#!/usr/bin/env python3
"""Writes /verif/seeded/mutants.json."""
import json
M=[]
def m(id,file,old,new,defn,desc,claim,nth=0,expect=None,**kw):
    M.append(dict(id=id,edits=[dict(file=file,old=old,new=new,nth=nth,**kw)],definition=defn,edit=desc,claim=claim,expect=expect or []))
K='Kernel.v'
m('k01',K,"i <- with_rounding FE_DOWNWARD (as_double (add_ (lo s) (lo o))) ;;","i <- with_rounding FE_UPWARD (as_double (add_ (lo s) (lo o))) ;;",'itv_add','lower endpoint of a sum rounded up','X+Y contains every sum',expect=['C01','C05'])
m('k02',K,"add_ (hi s) (hi o)","add_ (hi s) (lo o)",'itv_add','upper endpoint adds the wrong endpoint of the second operand','X+Y contains every sum',expect=['C01'])
m('k03',K,"(sub_ (lo s) (hi o))","(sub_ (lo s) (lo o))",'itv_sub','X-Y subtracts endpoints pairwise','X-Y contains every difference',expect=['C02'])
m('k04',K,"r <- mul_ (hi x) (lo y) ;; t <- mul_ (hi x) (hi y) ;; mret (p, q, r, t).","r <- mul_ (hi x) (lo y) ;; t <- mul_ (hi x) (hi y) ;; mret (p, q, r, r).",'four_products','fourth product dropped','X*Y contains every product',expect=['C03'])
m('k05',K,"if contains_num o pn0 then mraise ValueError\n      else\n        match","if contains_num o pn0 && negb (num_eq (lo o) pn0) then mraise ValueError\n      else\n        match",'itv_div','zero check misses intervals whose lower endpoint is 0','X/Y raises when 0 is in Y',expect=['C04'])
m('k06',"Base.v","mfinally body (fesetround old_mode).","(fun m => match body m with (Ok v, m1) => (Ok v, old_mode) | (Err e, m1) => (Err e, m1) end).",'with_rounding','rounding mode not restored when the body raises','rounding mode is restored by every operation',expect=['C06'])
m('k07',"Base.v","mfinally body (fesetround old_mode).","mfinally body (fesetround mode_NE).",'with_rounding','rounding mode reset to nearest instead of the saved mode','rounding mode is restored by every operation',expect=['C06'])
m('k08',K,"i <- with_rounding FE_DOWNWARD (as_double (sub_ c (hi s))) ;;","i <- with_rounding FE_DOWNWARD (as_double (sub_ (hi s) c)) ;;",'rsub','c - X computes X - c in the lower endpoint','number - interval encloses',expect=['C07'])
m('k09',K,"Definition contains_num (s : itv) (c : pynum) : bool := num_le (lo s) c && num_le c (hi s).","Definition contains_num (s : itv) (c : pynum) : bool := num_lt (lo s) c && num_le c (hi s).",'contains_num','lower boundary excluded','c in X is membership',expect=['C23'])
m('k10',K,"Definition contains_itv (s o : itv) : bool := num_le (lo s) (lo o) && num_le (hi o) (hi s).","Definition contains_itv (s o : itv) : bool := num_le (lo s) (lo o) && num_le (hi s) (hi o).",'contains_itv','inclusion test compares upper endpoints the wrong way','X in Y is inclusion',expect=['C23'])
m('k11',K,"  if contains_num s (PInt 0) then mret f0\n","  if contains_num s (PInt 1) then mret f0\n",'mig','zero test replaced by test for 1','mig is the least absolute value',expect=['C21'])
m('k12',K,"a <- fabs_ (lo s) ;; b <- fabs_ (hi s) ;; mret (flt_max2 a b).","a <- fabs_ (lo s) ;; b <- fabs_ (hi s) ;; mret a.",'mag','mag ignores the upper endpoint','mag is the largest absolute value',expect=['C21'])
m('k13',K,"if num_le (hi s) (lo s) then mkitv Classical (hi s) (lo s) else mkitv Kaucher (hi s) (lo s).","if num_lt (hi s) (lo s) then mkitv Classical (hi s) (lo s) else mkitv Kaucher (hi s) (lo s).",'dual','dual of a degenerate interval classed Kaucher','dual keeps class consistent / dual is an involution',expect=['C15'])
m('k14',K,"if num_le (hi s) (lo s) then mkitv Classical (num_neg (lo s)) (num_neg (hi s))","if num_le (hi s) (lo s) then mkitv Classical (num_neg (hi s)) (num_neg (lo s))",'opp','opp of a proper-after-dual interval swaps endpoints','X + opp X = 0',expect=['C16'])
m('k15',K,"Definition neg (s : itv) : itv := mkitv (kd s) (num_neg (hi s)) (num_neg (lo s)).","Definition neg (s : itv) : itv := mkitv (kd s) (num_neg (lo s)) (num_neg (hi s)).",'neg','negation without swapping the endpoints','neg/dual algebra; expressions enclose',expect=['C13','C15'])
m('k16',K,"mret (mkitv (match kd s with Classical => kd o | Kaucher => Kaucher end) (PFlt i) (PFlt u))","mret (mkitv Kaucher (PFlt i) (PFlt u))",'itv_add','sum of classical intervals classed Kaucher','classical operations stay classical',expect=['C12'])
m('k17',K,"(max_formula xip yip xsm ysm xsp yim xim ysp) ;;","(max_formula xip yip xsm ysm xsp yim xim ysm) ;;",'mul_max','wrong part in the lower Kaucher formula','Kaucher product is the lattice product',expect=['C17'])
m('k18',K,"(sum_formula xsp ysp xim yim xip ysm xsm yip) ;;\n  mret (mkitv Kaucher (PFlt i) (PFlt u)).\n\n(** pyx:558","(sum_formula xsp ysp xim yim xip ysm xim yip) ;;\n  mret (mkitv Kaucher (PFlt i) (PFlt u)).\n\n(** pyx:558",'mul_sum','wrong part in the upper Kaucher sum formula','mixed product agrees with the Kaucher product',expect=['C17','C18'])
m('k19',K,"u <- with_rounding FE_UPWARD (max_formula","u <- with_rounding FE_DOWNWARD (max_formula",'mul_max','upper endpoint rounded down','Kaucher product of non-negative operands rounded outward',expect=['C19'])
m('k20',K,"Definition mid (s : itv) : M pynum := w <- add_ (hi s) (lo s) ;;","Definition mid (s : itv) : M pynum := w <- sub_ (hi s) (lo s) ;;",'mid','midpoint uses the difference','mid lies in X',expect=['C20'])
m('k21',K,"| ONum c => num_ne (lo s) c || num_ne (hi s) c","| ONum c => num_ne (lo s) c && num_ne (hi s) c",'py_ne','!= with a number uses and','!= is the negation of ==',expect=['C22'])
m('k22',K,"Definition py_ge := cmp_both num_ge.","Definition py_ge := cmp_both num_gt.",'py_ge','>= is strict','>= is the converse of <=',expect=['C22'])
m('k23',K,"i <- with_rounding FE_DOWNWARD (as_double (div_ (PInt 1) (hi s))) ;;","i <- with_rounding FE_DOWNWARD (as_double (div_ (PInt 1) (lo s))) ;;",'array_ufunc','numpy division uses the wrong endpoint','numpy scalar / interval equals number / interval',expect=['C10'])
m('k24',K,"  | U_subtract => radd_any (mkitv (kd s) (num_neg (hi s)) (num_neg (lo s))) arg2","  | U_subtract => radd_any s arg2",'array_ufunc','numpy subtraction forgets to negate','numpy scalar - interval equals number - interval',expect=['C10'])
m('k25',K,"if Z.even n && contains_num s (PInt 0) then mret (mkitv Classical pn0 u)","if Z.even n then mret (mkitv Classical pn0 u)",'classical_pow','even power always starts at 0','integer powers are exact ranges',expect=['C24'])
m('k26',K,"if Z.even n && contains_num s (PInt 0) then mret (mkitv Classical pn0 u)","if Z.odd n && contains_num s (PInt 0) then mret (mkitv Classical pn0 u)",'classical_pow','parity test inverted','X**n contains every power',expect=['C24'])
m('k27',K,"mret (mkitv (kd s) (PFlt (round_down i)) (PFlt (round_up u)))) m with","mret (mkitv (kd s) (PFlt i) (PFlt (round_up u)))) m with",'itv_exp','lower endpoint of exp not widened','exp(X) contains every exponential',expect=['C25'])
m('k28',K,"(extremum_test (add_ (lo x) (PFlt PI_half)) (add_ (hi x) (PFlt PI_half)))","(extremum_test (sub_ (lo x) (PFlt PI_half)) (sub_ (hi x) (PFlt PI_half)))",'itv_sin','minimum test of sin looks at maxima','sin(X) contains every sine',expect=['C26'])
m('k29',K,"mret (flt_leb (c_ceil p) (c_floor q)).","mret (flt_ltb (c_ceil p) (c_floor q)).",'extremum_test','strict comparison misses a single extremum','sin(X), cos(X) enclose',expect=['C26'])
m('k30',K,"let mx := num_max2 (lo p) pn0 in","let mx := lo p in",'itv_log','lower endpoint not clamped at 0','log(X) contains every logarithm / returns',expect=['C57'])
m('k31',K,"if num_eq v pn0 then mret fninf else math_log v.","if num_eq v pn0 then mret f0 else math_log v.",'log_or_neginf','log 0 gives 0','log(X) contains every logarithm',expect=['C57'])
m('k32',K,"l <- itv_log s ;; h <- rmul l (PFlt fhalf) ;; itv_exp h.\n","l <- itv_log s ;; h <- rmul l (PFlt f1) ;; itv_exp h.\n",'itv_sqrt','factor 1/2 dropped','sqrt(X) contains every square root',expect=['C58'])
m('k33',K,"i <- with_rounding FE_DOWNWARD (as_double (p <- mul_ c (lo s) ;; q <- mul_ c (hi s) ;; mret (num_min2 p q))) ;;","i <- with_rounding FE_DOWNWARD (as_double (mul_ c (lo s))) ;;",'classical_rmul','negative factor not handled in lower endpoint','number * interval encloses',expect=['C07'])
m('k34',K,"if contains_num s pn0 then mraise ValueError\n  else\n    i","if false then mraise ValueError\n  else\n    i",'rtruediv','zero check dropped in number / interval','number / interval raises when 0 is in X',expect=['C10','C04'])
m('k35',K,"r <- div_ (match kd s with Classical => pn1 | Kaucher => PInt 1 end) c ;; rmul s r","r <- div_ c (match kd s with Classical => pn1 | Kaucher => PInt 1 end) ;; rmul s r",'itv_div','X/c multiplies by c','X/c contains x/c',expect=['C08'])
m('k36',K,"  | Kaucher => mkitv Classical (num_min2 (lo s) (hi s)) (num_max2 (lo s) (hi s))","  | Kaucher => mkitv Classical (lo s) (hi s)",'pro','proper projection keeps improper endpoints','pro X is the proper interval with the same endpoints',expect=['C15','C12'])
m('k37',K,"if num_le (hi s) (lo s) then mret (mkitv Classical (PFlt i) (PFlt u))\n  else mret (mkitv Kaucher (PFlt i) (PFlt u)).","if num_le (hi s) (lo s) then mret (mkitv Kaucher (PFlt i) (PFlt u))\n  else mret (mkitv Classical (PFlt i) (PFlt u)).",'inv','class test inverted in inv','inv X is the Kaucher inverse',expect=['C16'])
m('k38',"PyNum.v","Definition num_max2 (x y : pynum) : pynum := if num_lt x y then y else x.","Definition num_max2 (x y : pynum) : pynum := if num_lt x y then x else y.",'num_max2','max returns the smaller','multiplication encloses',expect=['C03','C05'])
m('k39',"PyNum.v","Definition round_up (x : flt) : flt := nextafter x fmaxfloat.","Definition round_up (x : flt) : flt := nextafter x (fneg fmaxfloat).",'round_up','round_up moves down','exp encloses',expect=['C25','C26'])
m('k40',K,"u <- with_rounding FE_UPWARD (as_double (div_ pn1 (lo o))) ;;\n  mret (i, u).","u <- with_rounding FE_DOWNWARD (as_double (div_ pn1 (lo o))) ;;\n  mret (i, u).",'recip','upper reciprocal rounded down','Kaucher division: ?',expect=[])
m('k41',K,"if negb (is_nan r) && negb (is_finite r) && is_finite d then Err OverflowError","if false then Err OverflowError",'math_exp','overflow not signalled','exp overflow behaviour',expect=['C25'])
m('k42',K,"| ONum c => radd s (num_neg c)","| ONum c => radd s c",'itv_sub','X - c adds c','X - c encloses',expect=['C07'])
A='Arrays.v'; C='Construct.v'
m('a01',A,"if a =? b then Some (a :: r) else if a =? 1 then Some (b :: r)","if a =? b then Some (a :: r) else if a =? 1 then Some (a :: r)",'bcast_rev','a stretched dimension keeps size 1','array operations have the broadcast shape',expect=['C59'])
m('a02',A,"(if n =? 1 then 0 else i) :: bidx_rev s' idx'","i :: bidx_rev s' idx'",'bidx_rev','stretched dimension indexed directly','array operations are elementwise with broadcasting',expect=['C59'])
m('a03',A,"| OpSub => lift_arr (binop_arr (py_op OpSub) other (op_arr x))","| OpSub => lift_arr (binop_arr (py_op OpSub) (op_arr x) other)",'arr_rop','other - X computes X - other','reflected operations enclose',expect=['C59'])
m('a04',A,"vectorize (fun e => radd_any (mkitv (kd s) (num_neg (hi s)) (num_neg (lo s))) (OItv e)) (adat x)","vectorize (fun e => radd_any (mkitv (kd s) (num_neg (lo s)) (num_neg (hi s))) (OItv e)) (adat x)",'arr_op_itv','negated scalar interval not swapped','array - interval encloses',expect=['C59'])
m('a05',A,"p <- omul x y ;; s <- oadd acc p ;; dot_from s l'","p <- omul x y ;; s <- oadd acc p ;; dot_from p l'",'dot_from','accumulator dropped','matrix products enclose',expect=['C30'])
m('a06',A,"(fun k => oget x [k]) (fun k => oget y [k; j])","(fun k => oget x [k]) (fun k => oget y [j; k])",'matmul','vector @ matrix uses rows','vector-matrix product encloses',expect=['C30'])
m('a07',A,"map (cons false) (ends_product n') ++ map (cons true) (ends_product n')","map (cons true) (ends_product n') ++ map (cons true) (ends_product n')",'ends_product','lower end of the first component never chosen','vertex lists every corner',expect=['C28'])
m('a08',A,"if fst t then snd (snd t) else fst (snd t)","if fst t then fst (snd t) else snd (snd t)",'choose_row','lower and upper ends exchanged','rows of vertex are in the documented order',expect=['C28'])
m('a09',A,"if py_contains e o then Ok true else any_contains l' (Some false)","if py_contains e o then any_contains l' (Some true) else Ok false",'any_contains','every instead of some','array membership means some element',expect=['C60'])
m('a10',A,"else if ((- Z.of_nat n <=? z) && (z <? 0))%Z then Ok (Z.to_nat (z + Z.of_nat n))","else if ((- Z.of_nat n <? z) && (z <? 0))%Z then Ok (Z.to_nat (z + Z.of_nat n))",'norm_index','index -n rejected','X[key] follows Python index rules',expect=['C60','C50'])
m('a11',A,"let e := match v with OItv e => e | ONum c => mkitv Classical c c end in\n      Ok (mkaitv (mkarr (ashape (adat x)) (set_nth k e (adata (adat x)))) (shp x))","let e := match v with OItv e => e | ONum c => mkitv Classical c c end in\n      Ok (mkaitv (mkarr (ashape (adat x)) (map (fun _ => e) (adata (adat x)))) (shp x))",'setitem','assignment overwrites all elements','assignment changes exactly one element',expect=['C50'])
m('a12',A,"(if i <? k then i else S i)","(if i <=? k then i else S i)",'skip_index','off by one in deletion','deletion removes exactly the addressed slice',expect=['C50'])
m('a13',A,"| KInt z => d <~ np_delete (adat x) z 0 ;; Ok (array_interval d)","| KInt z => d <~ np_delete (adat x) z 0 ;; Ok (mkaitv d (shp x))",'delitem','shape not updated on deletion','deletion keeps shape metadata consistent',expect=['C50'])
m('a14',A,"match aget (adat x) (rev idx) with Some e => e","match aget (adat x) idx with Some e => e",'arr_T','transpose does not swap indices','X.T[j,i] = X[i,j]',expect=['C60'])
m('a15',A,"if size s =? size (ashape (adat x)) then Ok","if size s <=? size (ashape (adat x)) then Ok",'arr_reshape','reshape to a smaller size accepted','reshape keeps the elements, rejects other sizes',expect=['C60'])
m('a16',A,"Definition arr_b (x : aitv) : M (arr pynum) := vectorize_num (fun e => mret (hi e)) (adat x).","Definition arr_b (x : aitv) : M (arr pynum) := vectorize_num (fun e => mret (lo e)) (adat x).",'arr_b','b returns lower endpoints','X.b[i] is the upper endpoint',expect=['C29'])
m('a17',A,"  | x :: _ => amapM (fun v => mlift (cast (dtype_of x) v)) r","  | x :: _ => amapM (fun v => mlift (cast DInt64 v)) r",'vectorize_num','results cast to int','X.a[i] is the lower endpoint',expect=['C29'])
m('a18',A,"arr_op OpMul r other\n  end.","arr_op OpDiv r other\n  end.",'arr_rop','c / X divides twice','reflected division encloses',expect=['C59'])
m('c01',C,"if num_gt l r then mkitv Classical r l else mkitv Classical l r","if num_gt l r then mkitv Classical l r else mkitv Classical r l",'single_interval','sort order inverted','sorted construction has lower<=upper',expect=['C27'])
m('c02',C,"if num_le l r then mkitv Classical l r else mkitv Kaucher l r).","if num_lt l r then mkitv Classical l r else mkitv Kaucher l r).",'single_interval','degenerate interval classed Kaucher','unsorted construction is classical iff l<=r',expect=['C27'])
m('c03',C,"if num_ge right (PInt 0) then\n             l","if num_ge left (PInt 0) then\n             l",'single_interval','radius check looks at the midpoint','negative radius rejected',expect=['C27'])
m('c04',C,"v :: every k j f (skipn k l)","v :: every k j f (skipn 2 l)",'every','stride fixed to 2','array of pairs picks the first two entries of each row',expect=['C27'])
m('c05',C,"build (removelast (ashape d)) (last_axis d 0) (last_axis d 1) sortQ midRadQ","build (removelast (ashape d)) (last_axis d 1) (last_axis d 0) sortQ midRadQ",'interval1','pair components exchanged','array of pairs keeps the pairs',expect=['C27'])
m('c06',C,"let sup := if num_lt (lo x) (lo y) then lo y else lo x in","let sup := if num_lt (lo x) (lo y) then lo x else lo y in",'intersect','smaller lower endpoint used','intersection is the set intersection',expect=['C31'])
m('c07',C,"if num_le d c1em15 then single_interval","if num_le c1em15 d then single_interval",'intersect','emptiness test inverted','intersection signals emptiness',expect=['C31'])
m('c08',C,"if shape_eqb (shp x) (shp y) then d <- vectorize2","if true then d <- vectorize2",'intersection','shape check dropped','shape mismatch raises AssertionError',expect=['C31'])
m('c09',C,"(Z.of_nat (nth 1 idx 0%nat) - Z.of_nat (nth 0 idx 0%nat) =? k)%Z","(Z.of_nat (nth 0 idx 0%nat) - Z.of_nat (nth 1 idx 0%nat) =? k)%Z",'eye_entry','diagonal offset sign inverted','eye has ones on the k-th diagonal',expect=['C48'])
m('c10',C,"(if (0 <=? k)%Z then i else j)","(if (0 <=? k)%Z then j else i)",'diag','wrong element index on shifted diagonals','diag puts v on the k-th diagonal',expect=['C48'])
m('c11',C,"S <- single_interval (PInt 0) (PInt 2) false false ;;","S <- single_interval (PInt 0) (PInt 1) false false ;;",'neumaier_system','off-diagonal entries [0,1]','Neumaier system entries',expect=['C48'])
m('c12',C,"num_lt beta alpha ||","num_lt alpha beta ||",'shary_system','parameter check inverted','Shary rejects bad parameters and accepts good ones',expect=['C48'])
m('c13',C,"mret (set_row (set_col A1 (n - 1) a) (n - 1) a, b)","mret (set_row A1 (n - 1) a, b)",'toft_system','last column not set','Toft system entries',expect=['C48'])
m('c14',C,"else match aget Amag idx with Some v => mret (num_neg v)","else match aget Amag idx with Some v => mret v",'compmat','off-diagonal sign lost','comparison matrix',expect=['C51'])
m('c15',C,"else if num_lt (lo x) z && num_eq (hi x) z then single_interval (PInt (-1)) (PInt 0) false false\n","",'sign_itv','case [a,0] dropped','sign is the hull of signs',expect=['C51'])
m('c16',C,"ONum c => mret (PFlt f0) end.","ONum c => f <- mlift (to_double c) ;; mret (PFlt f) end.",'u_rad','rad of a number is the number','utilities treat a number as a point',expect=['C51'])
m('c17',C,"| SNest (NLeaf (ONum c)) => e <- single_interval c c false false ;; mret (RItv e)","| SNest (NLeaf (ONum c)) => e <- single_interval c (PInt 0) false false ;; mret (RItv e)",'asinterval','number becomes [c,0]','asinterval of a number is the point interval',expect=['C49'])
m('c18',C,"then rmapl (fun o => match o with ONum c => v <~ cast DFloat64 c ;; Ok (ONum v)","then rmapl (fun o => match o with ONum c => v <~ cast DInt64 c ;; Ok (ONum v)",'promote_ops','mixed data truncated to int','asinterval of nested data is value-preserving',expect=['C49'])

E='Exact.v'; Rg='Recog.v'; R5='Ralgb5.v'; SO='Solvers.v'; ES='Estim.v'; BO='Boundary.v'; SD='Subdiff.v'; MO='Models.v'; PS='Pss.v'
m('e01',E,"Definition r_mig (x : rit) : R := if has0 x then 0 else Rmin","Definition r_mig (x : rit) : R := if has0 x then 0 else Rmax",'r_mig','mignitude takes the larger end','Uni recognizes the united set',expect=['C34','C35'])
m('e02',E,"r_csub (c : R) (x : rit) : rit := mkr (c - rh x) (c - rl x)","r_csub (c : R) (x : rit) : rit := mkr (c - rl x) (c - rh x)",'r_csub','ends not exchanged in c - X','Tol/Uni recognize solution sets')
m('e03',E,"if Rlt_dec (f (S j)) (f (argmin j f)) then S j else argmin j f","if Rlt_dec (f (argmin j f)) (f (S j)) then S j else argmin j f",'argmin','argmax instead of argmin','subgradients of the functionals')
m('r01',Rg,"w i * (r_rad (b i) - r_mag (r_csub (r_mid (b i)) (imv n A x i)))","w i * (r_rad (b i) - r_mig (r_csub (r_mid (b i)) (imv n A x i)))",'tol_constituent','mig instead of mag','Tol >= 0 iff tolerable')
m('r02',Rg,"then fun j => w mc * pick (x j) (infA mc j) (supA mc j)\n              else fun j => - w mc * pick (x j) (supA mc j) (infA mc j) in\n  (- tol mc","then fun j => w mc * pick (x j) (supA mc j) (infA mc j)\n              else fun j => - w mc * pick (x j) (infA mc j) (supA mc j) in\n  (- tol mc",'tol_calcfg','endpoint choice inverted','Tol subgradient')
m('r03',Rg,"let dtol := if Rle_dec (- infs mc) (sups mc)","let dtol := if Rle_dec (sups mc) (- infs mc)",'tol_calcfg','branches exchanged','Tol subgradient')
m('r04',Rg,"(- tol mc, fun j => - dtol j)","(- tol mc, fun j => dtol j)",'tol_calcfg','gradient sign','Tol subgradient')
m('r05',Rg,"if Rle_dec (i * s) 0 then 0 else Rmin (Rabs i) (Rabs s)","if Rle_dec 0 (i * s) then 0 else Rmin (Rabs i) (Rabs s)",'cf_mig','sign test inverted','calcfg value of Uni is -Uni')
m('r06',Rg,"w i * (r_rad (b i) + mv n (rads A) (vabs x) i - Rabs (r_mid (b i) - mv n (mids A) x i))","w i * (r_rad (b i) - mv n (rads A) (vabs x) i - Rabs (r_mid (b i) - mv n (mids A) x i))",'uss_constituent','radius term subtracted','Uss >= 0 iff united')
m('r07',Rg,"sgn (d mc) * Am mc j","sgn (x j) * Am mc j",'uss_calcfg','wrong sign factor','Uss gradient')
m('r08',Rg,"Rmax (Rabs (rl x - rl y)) (Rabs (rh x - rh y))","Rmax (Rabs (rl x - rl y)) (Rabs (rh x - rl y))",'cheb','upper ends compared with lower','dist is a metric')
m('r09',Rg,"root p (vsum (S k)","root p (vsum k",'dist_p','last component dropped','dist of order p')
m('r10',Rg,"if Rle_dec (rl y) (rl x) then if Rle_dec (rh x) (rh y)","if Rle_dec (rl y) (rl x) then if Rle_dec (rl x) (rh y)",'subsetb','upper end not checked','subset means containment')
m('r11',Rg,"[((fun j => - C k j), - v)]","[((fun j => - C k j), v)]",'lc_lower','lower bound not negated','LinearConstraint represents lb <= Cx <= ub')
m('r12',Rg,"if Rlt_dec (snd row) Cix then (Cix - snd row, fst row) else (0, fun _ => 0)","if Rlt_dec Cix (snd row) then (Cix - snd row, fst row) else (0, fun _ => 0)",'penalty_row','violation test inverted','penalty zero exactly on the feasible set')
m('r13',Rg,"fun j => mu * lsum (map (fun p => snd p j) ps))","fun j => lsum (map (fun p => snd p j) ps))",'linear_penalty','mu missing in the gradient','penalty subgradient')
m('r14',Rg,"(f + p, fun j => g j + dp j)","(f + p, fun j => g j - dp j)",'with_penalty','penalty gradient subtracted','penalized functional subgradient')
m('r15',Rg,"subset_sums c' ++ map (Rplus a) (subset_sums c')","subset_sums c' ++ map (Rplus 0) (subset_sums c')",'subset_sums','element not added','find_mu uses minimal subset sums')
m('o01',R5,"let better := n_lt OP f (s_fr st) in","let better := n_lt OP (s_fr st) f in",'line_search','keeps the worst point','ralgb5 returns the best point evaluated')
m('o02',R5,"let ncalls := S (s_ncalls st) in","let ncalls := s_ncalls st in",'line_search','calls not counted','ncalls is the number of evaluations')
m('o03',R5,"let xr := if better then x else s_xr st in","let xr := if better then s_xr st else x in",'line_search','point and value out of step','fr is the value at xr')
m('o04',R5,"if n_lt OP (v_norm OP g1) (tolg P) then inl (mkresult xr fr nit ncalls 2, trace)","if n_lt OP (v_norm OP g1) (tolg P) then inl (mkresult (s_xr st) (s_fr st) nit ncalls 2, trace)",'line_search','result of the last call lost on return','ralgb5 returns the best point evaluated')
m('o05',R5,"if n_lt OP (v_norm OP g0) (tolg P) then (mkresult x0 fr 0 1 2, [x0])","if n_lt OP (v_norm OP g0) (tolg P) then (mkresult x0 fr 0 1 3, [x0])",'ralgb5','wrong code','termination codes')
m('o06',R5,"if (Z.of_nat nit <=? maxiter P)%Z then","if (Z.of_nat nit <=? maxiter P + 1)%Z then",'main_loop','one iteration too many','nit never exceeds maxiter + 1')
m('s02',SO,"s2 <- py_sum p2 ;;\n  d2 <- py_sub (OItv d1) s2 ;;","s2 <- py_sum p2 ;;\n  d2 <- py_add (OItv d1) s2 ;;",'gs_bar','second sum added','GaussSeidel keeps every solution')
m('s03',SO,"p2 <- mapM (fun l => py_mul (OItv (A k l)) (OItv (pre l))) (seq (S k) (n - S k))","p2 <- mapM (fun l => py_mul (OItv (A k l)) (OItv (pre l))) (seq (S (S k)) (n - S (S k)))",'gs_bar','component k+1 skipped','GaussSeidel keeps every solution')
m('s04',SO,"z <- intersect (pre k) bar ;;\n      if isnan_itv z then mraise GenericException","z <- intersect (pre k) bar ;;\n      if isnan_itv z then mret x",'gs_sweep','emptiness not reported','GaussSeidel raises on an empty intersection')
m('s05',SO,"B <- py_sub (ONum (PInt 1)) (OItv t) ;;","B <- py_add (ONum (PInt 1)) (OItv t) ;;",'kraw_op','1 + lambda L','Krawczyk keeps zeros')
m('s06',SO,"d <- py_sub (OItv X) (OItv c) ;;\n  s <- py_mul (OItv B) (OItv d)","d <- py_sub (OItv X) (OItv X) ;;\n  s <- py_mul (OItv B) (OItv d)",'kraw_op','X - X instead of X - c','Krawczyk keeps zeros (still encloses: X - X contains X - c)')
m('s07',SO,"b <- py_mul (ONum (num_neg la)) (OItv fc) ;;","b <- py_mul (ONum la) (OItv fc) ;;",'hs_op','sign of the correction','HansenSengupta keeps zeros')
m('s08',SO,"Y <- intersect X z ;;","let Y := z in",'newton_loop','no intersection with X','result lies in x0')
m('s09',SO,"e1 <- single_interval (lo e) c false false ;;\n                    e2 <- single_interval c (hi e) false false","e1 <- single_interval (lo e) c false false ;;\n                    e2 <- single_interval c c false false",'glob_loop','upper half dropped','globopt bounds the minimum')
m('s10',SO,"if num_lt (nth m keys (PInt 0)) x then bisect_left f keys x (S m) h","if num_lt x (nth m keys (PInt 0)) then bisect_left f keys x (S m) h",'bisect_left','comparison inverted','globopt bounds the minimum')
m('s11',SO,"(Y2, lo F2) (insert_box (Y1, lo F1) rest)","(Y2, lo F2) (insert_box (Y1, hi F1) rest)",'glob_loop','upper bound used as key','globopt bounds the minimum')
m('s12',SO,"p <- rmul_any (b1 j) (OItv (r i))","p <- rmul_any (b1 i) (OItv (r i))",'gauss_step','wrong right-hand side row','Gauss on 2x2 systems encloses')
m('s13',SO,"p <- py_mul (OItv (r l)) (OItv (A1 j l))","p <- py_mul (OItv (r i)) (OItv (A1 j l))",'gauss_step','the index of r repaired: the program becomes right','Gauss is wrong for 3 unknowns (refutation must fail)')
m('t01',ES,"else if (i <? 2 * m)%nat then (if (j <? n)%nat then - rl (A (i - m)%nat j) else rh","else if (i <? 2 * m)%nat then (if (j <? n)%nat then rl (A (i - m)%nat j) else rh",'rt_A','sign of the lower rows','Rohn gives exact ranges of the tolerable set')
m('t02',ES,"Some y => Some (mkr inf (- vsum","Some y => Some (mkr inf (vsum",'rt_algo','upper end not negated','Rohn gives exact ranges of the tolerable set')
m('t03',ES,"else if (j =? nu + n)%nat then -1 else 0","else if (j =? nu + n)%nat then 1 else 0",'rt_c','wrong objective','Rohn gives exact ranges of the tolerable set')
m('t04',ES,"let r' := fun i => mv (S k) G r i + g i + tol in","let r' := fun i => mv (S k) G r i + tol in",'ru_loop','g dropped','Rohn united encloses')
m('t05',ES,"+ mm n (fun i l => Rabs (ru_R n A i l)) (rads A) i j.","+ mm n (fun i l => ru_R n A i l) (rads A) i j.",'ru_G','absolute value dropped','Rohn united encloses')
m('t06',ES,"if (i =? j)%nat then r_mig (A i j) else - r_mag (A i j)","if (i =? j)%nat then r_mag (A i j) else - r_mag (A i j)",'r_compmat','mag on the diagonal','HBR encloses')
m('t07',ES,"let alpha := fun i => cm i i + (-1) / B2 i i in","let alpha := fun i => cm i i - (-1) / B2 i i in",'hbr','sign of alpha','HBR encloses')
m('t08',ES,"let w := fun j => vmax k (fun i => - E i j / (u i * 1)) in","let w := fun j => vmax k (fun i => E i j / (u i * 1)) in",'hbr','sign of the residual','HBR encloses (with exact inverse E = 0, so the claim is unaffected)')
m('t09',ES,"vsum n (fun j => r_mag (A i j)).","vsum n (fun j => r_mig (A i j)).",'nm_r','mig instead of mag','Neumaier box for one equation is inner')
m('t10',ES,"if Rle_dec (fmax - bm i) (bm i - fmin) then xmin else xmax","if Rle_dec (fmax - bm i) (bm i - fmin) then xmax else xmin",'opt_A','wrong extreme chosen','ChebNorm value')
m('t11',ES,"w i * (r_rad (b i) + Rabs (r_mid (b i) - mv n M x i))","w i * (r_rad (b i) - Rabs (r_mid (b i) - mv n M x i))",'cheb_constituent','radius sign','ChebNorm value')
m('b01',BO,"bi_scan i ri (S k) rest q0 (if ext_le q1 tmp then q1 else tmp)","bi_scan i ri (S k) rest q0 (if ext_le q1 tmp then tmp else q1)",'bi_scan','upper bound not tightened','BoundaryIntervals segments are exact')
m('b02',BO,"(if Rlt_dec 0 (dot2 rk ri) then NoFace else EmptySet)","(if Rlt_dec 0 (dot2 rk ri) then EmptySet else NoFace)",'bi_scan','parallel case inverted','BoundaryIntervals segments are exact')
m('b03',BO,"Definition dir (r : row) : pt := (- a1 r, a0 r).","Definition dir (r : row) : pt := (a1 r, a0 r).",'dir','direction not along the line','BoundaryIntervals segments are exact')
m('b04',BO,"if ext_lt q1 q0 then l else mkseg","if ext_lt q0 q1 then l else mkseg",'bi_rows','empty test inverted','BoundaryIntervals segments are exact')
m('b05',BO,"if sg j then mkr (rh (A i j)) (rl (A i j)) else A i j","A i j",'wl_tmp','no dualization in negative orthants','orthant systems describe the solution sets')
m('b06',BO,"if (i <? m)%nat then (if uni then rh (b i) else - rl (b i))","if (i <? m)%nat then (if uni then rl (b i) else - rl (b i))",'wl_b','wrong end of b','orthant systems describe the united set')
m('b07',BO,"then (if sg j then 1 else -1) else 0","then (if sg j then -1 else 1) else 0",'wl_A','orthant sign inverted','orthant systems describe the solution sets')
m('b08',BO,"[fun _ => false; fun k => (k =? 0)%nat; fun _ => true; fun k => (k =? 1)%nat]","[fun _ => false; fun k => (k =? 0)%nat; fun _ => true; fun k => (k =? 0)%nat]",'orthants2','one orthant missing','the four orthants cover the plane')
m('b09',BO,"Definition cv_y2 (a : v3) : v3 := cross3 a (cv_y1 a).","Definition cv_y2 (a : v3) : v3 := cross3 (cv_y1 a) (cv_y1 a).",'cv_y2','degenerate basis','ChangeVariable parametrizes the plane')
m('b10',BO,"(d - dot3 c (cv_xi a b))","(d + dot3 c (cv_xi a b))",'cv_row','sign of the shift','ChangeVariable keeps the inequalities')
m('b11',BO,"if ext_lt (ept_dist bs (s_from s)) tol8 then Some k","if ext_lt (ept_dist bs (s_to s)) tol8 then Some k",'find_start','segments matched by their ends','vertices are those of the set')
m('d01',SD,"| 3%nat => mke (rh a) 0 0 (rl a)","| 3%nat => mke (rl a) 0 0 (rh a)",'calc_subgrad','case 3 as case 1','F at x reproduces A x')
m('d02',SD,"| 10%nat => mke 0 (rl a) (rl a) 0","| 10%nat => mke 0 (rl a) (rh a) 0",'calc_subgrad','case 10 as case 9','F at x reproduces A x')
m('d03',SD,"let l := Rlt_dec (rl a * rh b) (rh a * rl b) in\n      let u := Rlt_dec (rh a * rh b) (rl a * rl b) in","let l := Rlt_dec (rh a * rl b) (rl a * rh b) in\n      let u := Rlt_dec (rh a * rh b) (rl a * rl b) in",'calc_subgrad','case 6 comparison inverted','F at x reproduces A x')
m('d04',SD,"if Bool.eqb (r <? n)%nat (c <? n)%nat then plus else minus","if Bool.eqb (r <? n)%nat (c <? n)%nat then minus else plus",'super','blocks exchanged','starting point solves the midpoint system')
m('d05',SD,"r_add (isum n (fun j => rk_mul (A i j) (unflat n x j))) (rk_opp (b i))","r_sub (isum n (fun j => rk_mul (A i j) (unflat n x j))) (b i)",'sd_res','interval subtraction instead of the opposite','returned fixed points are formal solutions')
m('d06',SD,"let y : vec := fun r => x r - d r * tau in","let y : vec := fun r => x r + d r * tau in",'sd_step','step in the wrong direction','one step solves linear systems')
m('d07',SD,"mkr (xi * yi + xs' * ys' - xs * yi' - xi' * ys)","mkr (xi * yi + xs' * ys' - xs * yi' - xi * ys)",'rk_mul','wrong part in the mixed product','the product is the Kaucher product')
m('w01',MO,"store (beta * (w (S j) * (1 - alpha) + alpha * smooth store alpha beta w j))","store (beta * (w (S j) * (1 - alpha) + alpha * w j))",'smooth','uses the old previous weight','smoothing recurrence')
m('w02',MO,"| Some w => let w' := smooth store alpha beta w in (w', Some w')","| Some w => let w' := smooth store alpha beta w in (w', Some w)",'fit_weights','the caller array is kept: the program becomes right','weights array overwritten (refutation must fail)')
m('w03',MO,"| NInf => let mc := argmin k residual in (residual mc, [mc])","| NInf => let mc := argmin k residual in (residual mc, [k])",'wrap_norm','gradient of the wrong row','WILS subgradient')
m('w04',MO,"| NL1 => (vsum (S k) residual, seq 0 (S k))","| NL1 => (vsum k residual, seq 0 (S k))",'wrap_norm','last residual missing','WILS l1 value')
m('w05',MO,"| OTol => fun i => w i * (yr i - Rmax","| OTol => fun i => (yr i - Rmax",'w_residual','weights dropped','WILS value is the weighted functional')
m('w06',MO,"(r_x _ r, - r_f _ r, weight').\n(** predict","(r_x _ r, r_f _ r, weight').\n(** predict",'wils_fit','sign of fr','fit returns the value at xr')
m('w07',MO,"| Chebyshev => 2 * x * q - p","| Chebyshev => 2 * x * q + p",'basis2','Chebyshev recurrence sign','ISPAE bases are the named polynomials')
m('w08',MO,"| Laguerre => ((2 * c + 1 - x) * q - c * p) / (c + 1)","| Laguerre => ((2 * c + 1 + x) * q - c * p) / (c + 1)",'basis2','Laguerre recurrence sign','ISPAE bases are the named polynomials')
m('w09',MO,"let dots := rl X :: rh X :: roots beta degs in","let dots := rl X :: roots beta degs in",'value_of_one_col','upper end not evaluated','value of a column is the exact range')
m('w10',MO,"if Rle_dec (rl X) d then if Rle_dec d (rh X) then true else false else false","true",'value_of_one_col','roots outside the interval kept','value of a column is the exact range')
m('w11',MO,"ispae_value bk roots (skipn o beta) cols'","ispae_value bk roots beta cols'",'ispae_value','coefficients not advanced','value of a row is the exact range')
m('w12',MO,"(seq 1 (fst c))) cols)","(seq 0 (fst c))) cols)",'expand_row','degrees start at 0','predict encloses the value')
m('w13',MO,"w * (r_rad y - (if uni then cf_mig (rl c) (rh c)","w * (r_rad y - (if uni then cf_mig (rl c) (rl c)",'ispae_residual','wrong end','Uni residual characterizes intersection with y')
m('p01',PS,"else if Req_EM_T (rh d) 0 then QOne (Some (rh a / rl d)) None\n    else QTwo None (Some (rh a / rh d)) (Some (rh a / rl d)) None","else if Req_EM_T (rh d) 0 then QOne (Some (rh a / rl d)) None\n    else QTwo None (Some (rh a / rl d)) (Some (rh a / rh d)) None",'kdiv','pieces exchanged','PSS encloses')
m('p02',PS,"ITwo (isect l1 h1 v1) (isect l2 h2 v2)","ITwo (isect l2 h2 v1) (isect l1 h1 v2)",'meet','pieces crossed','PSS encloses')
m('p03',PS,"| ITwo (Some v1) (Some v2) => Val (Rmin (rl v1) (rl v2))","| ITwo (Some v1) (Some v2) => Val (Rmax (rl v1) (rl v2))",'answer','nanmax for two pieces','PSS encloses')
m('p04',PS,"if Rlt_dec (iq y) (iq x) then y :: insort x L' else x :: y :: L'","x :: y :: L'",'insort','not sorted','PSS encloses')
m('p05',PS,"filter (fun l => if Rle_dec (iq l) r then true else false) L","filter (fun l => if Rlt_dec (iq l) r then true else false) L",'update','items equal to omega dropped','PSS returns (no exception) - a lower bound is still a bound')
m('p06',PS,"- (r_mid (A (i - m)%nat j) * S j) - r_rad (A (i - m)%nat j)","- (r_mid (A (i - m)%nat j) * S j) + r_rad (A (i - m)%nat j)",'pss_A','radius sign in the LP','PSS encloses')
m('p07',PS,"| None => match pss_lp lp m n nu A b Q (sgn (rh Vnu)) with Some r => Val r | None => Val (10 ^ 15) end","| None => Val (10 ^ 15)",'exact_omega','second sign not tried','PSS encloses')
m('p08',PS,"Definition upper_half (Q : ivec) (k : nat) : ivec := set_at Q k (mkr (cut (Q k)) (rh (Q k))).","Definition upper_half (Q : ivec) (k : nat) : ivec := set_at Q k (mkr (r_mid (Q k)) (rh (Q k))).",'upper_half','gap between the halves when cut at zero','PSS encloses')
m('p09',PS,"Definition head_q (L : list item) : option R := match L with [] => None | y :: _ => Some (iq y) end.","Definition head_q (L : list item) : option R := match L with [] => None | y :: L' => Some (iq (last L' y)) end.",'head_q','last instead of first','PSS encloses')
m('p10',PS,"  | Some l, Some h => Some (mkr l (- h))","  | Some l, Some h => Some (mkr l h)",'pss','upper end not negated','PSS encloses')
m('p11',PS,"else Some (insort (mkitem Q r false) L, q)","else Some (insort (mkitem Q r false) L, Infty)",'add_half','exact values do not lower omega','PSS stays a bound: only slower')
M=[x for x in M if x]
PP='Pps.v'; BS='BoundaryState.v'; B3='Boundary3.v'; S3='Boundary3State.v'; SY='SysProps.v'; PL='Plot.v'
m('q01',PP,"Definition deriv (nu : nat) (Y : imat) (x : ivec) : imat := fun i j => r_neg (r_mul (Y nu i) (x j)).","Definition deriv (nu : nat) (Y : imat) (x : ivec) : imat := fun i j => r_mul (Y nu i) (x j).",'deriv','sign of the derivative lost','PPS encloses the optimal estimate')
m('q02',PP,"if ge0 d then r_point (rl q) else q in if le0 d","if ge0 d then r_point (rh q) else q in if le0 d",'mono_entry','monotone entry fixed at the wrong end','PPS encloses the optimal estimate')
m('q03',PP,"fun i => mono_entry (pY p nu i) (pr p i)","fun i => mono_entry (pY p i nu) (pr p i)",'monotony','row and column of the inverse swapped','PPS encloses the optimal estimate')
m('q04',PP,"upd2 W im jm (W k l * W k jm * W im l)%Z","upd2 W im jm (W k l * W k jm)%Z",'refine','one factor of the sign product dropped','PPS encloses the optimal estimate')
m('q05',PP,"let upper := upd2 (pQ p) im1 jm1 (r_point (rh q)) in","let upper := upd2 (pQ p) im1 jm1 (r_point (rl q)) in",'descend','both descendants take the lower end','PPS encloses the optimal estimate')
m('q06',PP,"else if (W im1 jm1 =? 1)%Z then","else if (W im1 jm1 =? -1)%Z then",'descend','sign of the kept half inverted','PPS encloses the optimal estimate')
m('q07',PP,"insert_at (if (0 <? k)%nat then k else 1%nat) x L","insert_at (if (0 <? k)%nat then (k - 1)%nat else 0%nat) x L",'insert_item','insertion one place too early','PPS keeps its list sorted behind the removed element')
m('q08',PP,"POk (mkr lo (- hi))","POk (mkr lo hi)",'pps','upper estimate not negated back','PPS encloses the optimal estimate')
m('q09',PP,"if Rlt_dec z2 z1 then","if Rlt_dec z1 z2 then",'descend','matrix and right-hand side exchanged in the choice','PPS splits the entry with the largest influence')
m('q10',PP,"let gamma := rl (vx nu) in","let gamma := rh (vx nu) in",'split','upper instead of lower end of the estimate','PPS encloses the optimal estimate')
m('q11',PP,"(start W (upd1 (ps p) im2 (-1)%Z) (pt p) [] [im2])","(start W (upd1 (ps p) im2 1%Z) (pt p) [] [im2])",'descend','sign of the lower half of b wrong','PPS encloses the optimal estimate')
m('q12',PP,"Definition lower_mu (omega : option R) (mu : R) : option R := match omega with None => Some mu | Some w => Some (if Rlt_dec mu w then mu else w) end.","Definition lower_mu (omega : option R) (mu : R) : option R := Some mu.",'lower_mu','omega not kept minimal','PPS encloses the optimal estimate')
m('q13',PP,"if Rle_dec (pg p) w then true else false end.","if Rlt_dec w (pg p) then true else false end.",'not_above','list cleaned the wrong way','PPS encloses the optimal estimate')
m('q14',PP,"if Req_EM_T (det (mids A)) 0 then PRaise","if Req_EM_T (det (mids A)) 1 then PRaise",'pps','assertion tests another value','PPS rejects a singular midpoint')
m('v01',BS,"Rmax (Rabs cx + 5 * rm) (Rabs cy + 5 * rm)","Rabs cx + 5 * rm",'center_rm','only the first coordinate','left-over window of lineqs')
m('v02',BS,"match bounds with None => st ++ [center_rm (feet rs S)] | Some _ => st end","st ++ [center_rm (feet rs S)]",'lineqs_call','variable changed also with bounds','calls of lineqs with bounds leave no trace')
m('v03',BS,"| Some _ => (V2, []) end","| Some _ => (V2, st2) end",'r2_call','variable not emptied','a call of IntLinIncR2 leaves nothing behind')
m('v04',BS,"r2_pass uni m A b bounds rest st1 in","r2_pass uni m A b None rest st1 in",'r2_pass','bounds used only in the first orthant','all slices are cut by one window')
m('v05',BS,"(Some ((- M, - M), (M, M)))","bounds",'r2_call','second pass with the old bounds','all slices are cut by one window')
m('h01',B3,"Definition zero_row3 (r : row3) : bool := tiny (x1 (nrm r)) && tiny (x2 (nrm r)) && tiny (x3 (nrm r)).","Definition zero_row3 (r : row3) : bool := tiny (x1 (nrm r)) && tiny (x2 (nrm r)).",'zero_row3','third coefficient not looked at','lineqs3D lists every face')
m('h02',B3,"if in_dec v3_eq_dec (key r) seen then first_keys seen rest else r ::","if in_dec v3_eq_dec (key r) seen then r :: first_keys seen rest else",'first_keys','repeated rows kept, others dropped','lineqs3D lists every face')
m('h03',B3,"(drop_nth k rows).","(drop_nth (S k) rows).",'plane_rows','the wrong inequality left out','lineqs3D lists every face')
m('h04',B3,"mkrow3 (0, 0, -1) (- x3 (snd w))]","mkrow3 (0, 0, -1) (x3 (snd w))]",'box3','sign of the upper face of the window','lineqs3D cuts with the window asked for')
m('h05',B3,"let f := fun c1 c2 c0 => ext_add (ext_shift c0 (ext_scale c1 (fst p))) (ext_scale c2 (snd p)) in","let f := fun c1 c2 c0 => ext_add (ext_shift c0 (ext_scale c1 (snd p))) (ext_scale c2 (fst p)) in",'lift','plane coordinates swapped','lineqs3D returns points of the face')
m('h06',B3,"if existsb snd (probes rs) then","if negb (existsb snd (probes rs)) then",'lineqs3','window for bounded sets only','lineqs3D lists the faces of a bounded set')
m('h07',B3,"Some P => Some [map (lift r) P] end","Some P => Some [map (lift r) (tl P)] end",'polygon_of','first corner dropped','each polygon lists every corner')
m('h08',B3,"([Bare (cv_xi (nrm r) (off r))], true)","([Bare (cv_xi (nrm r) (off r))], false)",'probe','a whole plane counts as bounded','unbounded sets are recognized')
m('h09',B3,"(c, if Rle_dec rm (/ 100000000000000) then rm + 1 else rm).","(c, rm).",'default3','degenerate cube not enlarged','the default cube has positive size')
m('h10',B3,"| [] => Some []\n  | _ =>\n      if existsb","| [] => None\n  | _ =>\n      if existsb",'lineqs3','empty set raises','lineqs3D answers [] for an empty set')
m('j01',S3,"sign3 false true true].","sign3 true true true].",'orthants3','one orthant twice','the eight answers cover the solution set')
m('j02',S3,"(neg_vec (wl_b3 d uni m b) i)","(neg_vec (wl_b uni m b) i)",'wl_rows3','right-hand side not shifted','(harmless: the shifted set is contained in what is claimed)',expect=[])
m('j03',S3,"(seq 0 (2 * m + 3)).","(seq 0 (2 * m)).",'wl_rows3','orthant inequalities dropped','each answer is the part in its orthant')
m('j04',S3,"(Some ((- M, - M, - M), (M, M, M)))","bounds",'r3_call','second pass with the old bounds','all slices are cut by one window')
m('j05',S3,"| Some _ => (V2, []) end","| Some _ => (V2, st2) end",'r3_call','variable not emptied','a call of IntLinIncR3 leaves nothing behind')
m('j06',S3,"| Some _ => st\n   | None => if existsb","| Some _ => st ++ [0]\n   | None => if existsb",'lineqs3_call','variable changed also with bounds','the bounds asked for are used')
m('j07',S3,"neg_mat (wl_A uni m sg A) i 1%nat, neg_mat (wl_A uni m sg A) i 2%nat)","neg_mat (wl_A uni m sg A) i 2%nat, neg_mat (wl_A uni m sg A) i 1%nat)",'wl_rows3','columns swapped','each answer is the part in its orthant')
m('y01',SY,"if coin t i j then rh (A i j) else rl (A i j)","if coin t i j then rl (A i j) else rl (A i j)",'angle','only lower ends','ive uses corner matrices')
m('y02',SY,"if Rlt_dec a d then tmp else c","if Rlt_dec a d then c else tmp",'take_less','largest condition number','ive uses the smallest condition number')
m('y03',SY,"(f_div (norm2 n xr) (norm2 (S k) (fun i => r_mag (b i))))","(f_div (norm2 (S k) (fun i => r_mag (b i))) (norm2 n xr))",'ive','quotient inverted','ive formula')
m('y04',SY,"| Some _, None => tmp","| Some _, None => c",'take_less','a finite value never replaces infinity','ive is finite')
m('z01',PL,"[(rl x, rl y); (rl x, rh y); (rh x, rh y); (rh x, rl y)]","[(rl x, rl y); (rh x, rh y); (rl x, rh y); (rh x, rl y)]",'outline','corners in crossing order','scatter draws the box outline')
m('z02',PL,"negb (flat (fst p) || flat (snd p)) && negb (index_dot p)","negb (flat (fst p) && flat (snd p)) && negb (index_dot p)",'scinny_fill','degenerate boxes filled twice','each box is drawn once')
m('z03',PL,"match v with [] => [] | _ => plot_lineqs v end","plot_lineqs v",'plot_r2','empty slices drawn','nothing is drawn for an empty slice')
m('z04',PL,"if existsb index_dot ps then","if forallb index_dot ps then",'scatter','points drawn only when all are points','every point is drawn')
EM='EstimMat.v'; NV='NewtonVec.v'; RF='RecogFl.v'; AC='ArrayCmp.v'; AE='ArrayElem.v'
m('em1',EM,"let vw := vsum n (fun i => v i * w i) in","let vw := v O * w O in",'hbr_mat','only the first product','HBR with a matrix encloses')
m('em2',EM,"cm i i + (-1) / B2 i i","cm i i - (-1) / B2 i i",'hbr_mat','sign of alpha','HBR with a matrix encloses')
m('em3',EM,"(r_add (A l l) (sym (alpha l)))","(A l l)",'hbr_mat','diagonal not corrected','HBR with a matrix encloses')
m('em4',EM,"(fun x => POk (- x))) (seq 0 n)) (fun hi","(fun x => POk x)) (seq 0 n)) (fun hi",'pps_all','upper ends not negated back','PPS encloses all components')
m('em5',EM,"mkr (fst ab) (snd ab)","mkr (snd ab) (fst ab)",'pps_all','ends exchanged','PPS encloses all components')
m('em6',EM,"A (fun i => r_neg (b i)) inv_A","A b inv_A",'pps_all','right-hand side not negated','PPS encloses all components')
m('nvv1',NV,"(0 <=? maxiter)%Z","(0 <? maxiter)%Z",'krawczyk_vec','strict test of the counter','Krawczyk with several unknowns raises also for maxiter 0')
m('nvv2',NV,"(fun _ => mraise AttributeError)","(fun e => mret e)",'arr_to_float','to_float works','several unknowns always raise')
m('nvv3',NV,"else mraise GenericException.","else mret x0.",'newton_vec','no check of the function value','a box without zero is rejected')
m('rf1',RF,"g <- arr_mag D","g <- arr_mig D",'tol_constituent_fl','mig for mag','a computed Tol >= 0 guarantees')
m('rf2',RF,"if existsb is_nan_num (v :: l) then Ok (PFlt fnan) else Ok (fold_left num_min2 l v)","Ok (fold_left num_min2 l v)",'np_min','NaN not propagated','a computed value guarantees')
m('rf3',RF,"g <- arr_mig D","g <- arr_mag D",'uni_constituent_fl','mag for mig','a computed Uni < 0 guarantees')
m('rf4',RF,"Ok (fold_left num_min2 l v)","Ok v",'np_min','first element only','a computed Tol >= 0 guarantees')
m('rf5',RF,"d <- np_sub r g ;; np_mul weight d.","d <- np_sub g r ;; np_mul weight d.",'tol_constituent_fl','difference reversed','a computed Tol >= 0 guarantees')
m('rf6',RF,"(fold_left num_min2 l v)","(fold_left num_max2 l v)",'np_min','maximum','a computed Tol >= 0 guarantees')
m('acm1',AC,"| CLt => py_lt s o | CLe => py_le s o","| CLt => py_le s o | CLe => py_lt s o",'py_cmp','< and <= exchanged','comparisons mean what they say')
m('acm2',AC,"(skipn (i * size t)","(skipn (S i * size t)",'arr_iter','pieces shifted by one','iteration yields the pieces')
m('ac3',AC,"| [_] => sum_from (ONum (PInt 0)) (adata (adat x))","| [_] => sum_from (ONum (PInt 0)) (tl (adata (adat x)))",'arr_sum','first element skipped','sum encloses')
m('ac4',AC,"| CNe => py_ne s o","| CNe => py_gt s o",'py_cmp','!= is >','comparisons mean what they say')
m('ac5',AC,"(firstn (size t)","(firstn (S (size t))",'arr_iter','one element too many','iteration yields the pieces')
m('ac6',AC,"n :: _ => Ok n end","n :: t => Ok (size (n :: t)) end",'arr_len','number of elements','len is the first dimension')
m('ae1',AE,"FSin => itv_sin L e | FCos => itv_cos L e","FSin => itv_cos L e | FCos => itv_sin L e",'elem_itv','sin and cos exchanged','np.sin of an array encloses')
m('ae2',AE,"if size s =? 0 then mraise ValueError else lift_arr (binop_arr (itv_pow L) (adat x) n)","if size s =? 0 then mraise ValueError else lift_arr (binop_arr (fun e _ => itv_pow L e (PInt 2)) (adat x) n)",'arr_pow','always the square','powers element by element')
m('ae3',AE,"r <- asinterval a ;; np_elem L f r.","r <- asinterval a ;; mret r.",'iv_elem','function not applied','the package functions enclose')
m('ra1','Ralgb5.v',"removelast vf ++ [fr]","fr :: removelast vf",'set_last','wrong end','code tolf')
m('ra2','Ralgb5.v',"last vf (n_zero OP) :: removelast vf","vf",'roll','not rolled','code tolf')
m('ra3','Ralgb5.v',"n_abs OP (n_sub OP fr a) :: t","n_sub OP fr a :: t",'set_first','no absolute value','code tolf')
SL='Slices.v'; ME='Memory.v'; GS='GetShape.v'
m('sl1',SL,"(if down then -1 else 0)%Z","0%Z",'clamp','lower bound 0 also for negative steps','slices select what Python says')
m('sl2',SL,"((stop - start - 1) / step + 1)%Z","((stop - start - 1) / step)%Z",'slice_indices','one position too few','slices select what Python says')
m('sl3',SL,"if b then k :: mask_positions (S k) bs' else mask_positions (S k) bs'","if b then k :: mask_positions (S k) bs' else mask_positions k bs'",'mask_positions','index not advanced at False','masks select the elements under True')
m('sl4',SL,"Many (seq 0 n) :: r","Many (seq 0 (n - 1)) :: r",'axes','missing components lose the last position','missing components select everything')
m('sl5',SL,"nth j p 0 :: sel_source r idx'","j :: sel_source r idx'",'sel_source','position not looked up','an item of a selection is the item selected')
m('sl6',SL,"if (k <? length s)%nat then strip k t else s","s",'strip','leading dimensions never dropped','values with extra leading 1s are accepted')
m('sl7',SL,"(indices (sshape c)) (adata a)","(tl (indices (sshape c))) (adata a)",'write','first element not written','assignment writes every selected element')
m('sl8',SL,"let z := if (z <? 0)%Z then (z + n)%Z else z in","",'clamp','negative bounds not counted from the end','slices select what Python says')
m('sl9',SL,"if sone c then RItv (elem","if negb (sone c) then RItv (elem",'get_sel','interval and array exchanged','an int key gives an interval')
m('me1',ME,"| Some x => Ok (bind m v x)\n                      | None => Err NameError\n                      end\n  | Call","| Some (Obj o) => Ok (alloc m v (adat (object m o)))\n                      | Some x => Ok (bind m v x)\n                      | None => Err NameError\n                      end\n  | Call",'exec AsInterval','asinterval copies an object','asinterval returns the same object')
m('me2',ME,"z <~ in_place rm p (object m o) c ;; Ok (rebind m o (adat z) (shp z))","z <~ in_place rm p (object m o) c ;; Ok (store m (fst (nth o (objs m) (0, []))) (adat z))",'exec InPlace','in-place operators write the buffer','data taken before += is detached')
m('me3',ME,"Ok (store m (fst (nth o (objs m) (0, []))) (adat z))","Ok (rebind m o (adat z) (shp z))",'exec SetItem','item assignment makes a new buffer','data stays live under item assignment')
m('me4',ME,"| Call v f w => o <~ get_obj m w ;; r <~ call f (object m o) ;;","| Call v MCopy w => o <~ get_obj m w ;; Ok (bind m v (Obj o))\n  | Call v f w => o <~ get_obj m w ;; r <~ call f (object m o) ;;",'exec Call','copy returns the same object','a copy is independent')
m('me5',ME,"let b := fst (nth o (objs m) (0, [])) in Ok (bind m v (View b (ashape (buffer m b)) (fun idx => idx)))","let b := fst (nth o (objs m) (0, [])) in Ok (bind (mkmem (bufs m ++ [buffer m b]) (objs m) (vars m)) v (View (length (bufs m)) (ashape (buffer m b)) (fun idx => idx)))",'exec Data','data is a copy','data is live')
m('me6',ME,"z <~ delitem (object m o) key ;; Ok (rebind m o (adat z) (shp z))","z <~ delitem (object m o) key ;; Ok (rebind m o (adat z) (shp (object m o)))",'exec DelItem','old shape kept','deletion updates the shape')
m('me7',ME,"View b s (fun idx => src (i :: idx))","View b s (fun idx => src (0 :: idx))",'piece','first row always','pieces are live')
m('me8',ME,"Definition rebind (m : mem) (o : nat) (a : arr itv) (s : list nat) : mem :=\n  mkmem (bufs m ++ [a]) (set_nth o (length (bufs m), s) (objs m)) (vars m).","Definition rebind (m : mem) (o : nat) (a : arr itv) (s : list nat) : mem :=\n  mkmem (bufs m ++ [a]) (objs m ++ [(length (bufs m), s)]) (vars m).",'rebind','in-place operators make a new object and forget it','in-place operators change the object')
m('gs1',GS,"(acc ++ [length l])","(length l :: acc)",'get_shape','dimensions in reverse order','get_shape is the shape')
m('gs2',GS,"| SNd s => Ok s","| SNd s => Ok (acc ++ s)",'get_shape','outer dimensions kept: the program becomes right','the refutation must fail')
m('gs3',GS,"else Err ValueError","else all_len n l'",'all_len','ragged lists accepted','ragged lists are rejected')
m('pa1',PP,"if Rlt_dec tol (Rabs (w - gamma))","if Rlt_dec (2 * tol) (Rabs (w - gamma))",'far','stops at twice the tolerance','the answer is within tol of a solution')
m('pa2',PP,"propagate f n Wc sc tc g","propagate f n true sc tc g",'propagate','change flag of W never cleared','PPS ends')
m('pa3',PP,"let c := negb (gs g i =? a)%Z in","let c := true in",'sets','rewriting a known sign counts as a change','PPS ends')
m('pa4',PP,"forallb (fun ij => if Req_EM_T (r_rad (Q (fst ij) (snd ij))) 0 then true else false)","forallb (fun ij => if Req_EM_T (r_rad (Q (fst ij) (fst ij))) 0 then true else false)",'exact_mat','only the diagonal is tested','the answer is within tol of a solution')
m('pa5',PP,"p' :: _, _ => pps_loop f (L, Lk) omega cst (Some (pg p'))","p' :: _, _ => pps_loop f (L, Lk) omega cst (Some (match ocenka with Some o => o | None => pg p' end))",'pps_loop','the estimate of the first iteration is kept','the answer is within tol of a solution')
m('pa6',PP,"let lower := upd2 (pQ p) im1 jm1 (r_point (rl q)) in","let lower := upd2 (pQ p) im1 jm1 (mkr (rl q) (r_mid q)) in",'descend','the lower child keeps half of the entry','iterations are bounded by the number of entries')
m('pa7',PP,"if Rlt_dec (f (argmax j f)) (f (S j)) then S j else argmax j f","if Rlt_dec (f (S j)) (f (argmax j f)) then S j else argmax j f",'argmax','smallest entry chosen','the entry split is uncertain')
m('pa8',PP,"if lt_inf gamma omega && ind then","if ind then",'split','signs propagated also for discarded descendants',"no claim (the propagation ends anyway)",expect=[])
m('pa9',PP,"(if fl then por (inverse Q) else POk Y0)","(if fl then POk Y0 else por (inverse Q))",'split','inverse recomputed in the wrong case','PPS encloses')
m('pe1',PS,"if zero_in idx Q then omega_of m (fun i => r_sub (b i) (rest idx A Q i)) Anu (V nu) else","if zero_in idx Q then omega_of m (fun i => r_sub (b i) (rest idx A V i)) Anu (V nu) else",'estimate','the product with the whole starting box','the bound is attained up to the tolerance')
m('pe2',PS,"if Rle_dec (sup - inf) (/ 10 ^ 15)","if Rle_dec (sup - inf) (/ 10 ^ 3)",'isect','slack of the intersection 1e-3','the bound is attained up to the tolerance')
m('pe3',PS,"if Rlt_dec (rh X / rl X) (- (1 / 2)) then 0 else r_mid X","if Rlt_dec (rh X / rl X) 0 then 0 else r_mid X",'cut','cut at zero however uneven the parts','the splitting ends after 2^(K (n-1)) iterations')
m('pe4',PS,"if Rlt_dec (wid (Q k)) (wid (Q j')) then j' else k","if Rlt_dec (wid (Q j')) (wid (Q k)) then j' else k",'widest','the narrowest component is taken','the bound is attained up to the tolerance')
m('pe5',PS,"kdiv (bAr i) (Anu i)) (filter (fun i => negb (classic_row (Anu i))) (seq 0 m))","kdiv (bAr i) (Anu i)) (filter (fun i => negb (classic_row (Anu i))) (seq 0 (m - 1)))",'omega_of','the last row left out of the Kahan divisions','the bound is attained up to the tolerance')
m('pe6',PS,"if full y then Some O else","if full y then None else",'first_full','stops when a box is left to split','the bound is attained up to the tolerance')
m('pe7',PS,"| None => head_q L3\n","| None => head_q L\n",'pss_loop','the old list is read at the end','the bound is attained')
m('pe8',PS,"Some (insort (mkitem Q r true) L, eta)","Some (insort (mkitem Q r false) L, eta)",'add_half','boxes with zeros not split further','the bound is attained up to the tolerance')
m('pe9',PS,"if Rlt_dec r omega then true else false | _ => false","if Rle_dec r omega then true else false | _ => false",'ov_lt','boxes whose bound equals omega are kept','none: the program becomes right, the refutation of the lost answer must fail')
m('gl1',SO,"ws <- vectorize_num wid (mkarr [length Y] Y) ;;","ws <- vectorize_num (fun e => w <- wid e ;; mul_ (PInt (-1)) w) (mkarr [length Y] Y) ;;",'glob_loop','the narrowest component is bisected','globopt reaches its tolerance')
m('gl2',SO,"ws <- vectorize_num wid (mkarr [length Y] Y) ;;","ws <- vectorize_num rad (mkarr [length Y] Y) ;;",'glob_loop','radii compared instead of widths (harmless)','globopt reaches its tolerance')
m('gl3',SO,"                    c <- mid e ;;\n                    e1 <- single","                    c <- mid e ;; c <- mret (lo e) ;;\n                    e1 <- single",'glob_loop','the component is cut at its lower end','globopt reaches its tolerance')
m('gl4',SO,"glob_loop f tol (insert_box (Y2, lo F2) (insert_box (Y1, lo F1) rest))","glob_loop f tol (insert_box (Y2, lo F2) (insert_box (Y1, lo F1) L))",'glob_loop','the bisected box stays in the list','globopt reaches its tolerance')
m('gl5',SO,"      if num_le tol w then\n        match fuel","      if num_le w tol then\n        match fuel",'glob_loop','loop condition inverted','globopt reaches its tolerance')
m('gl6',SO,"let Y1 := set_nth l e1 Y in let Y2 := set_nth l e2 Y in","let Y1 := set_nth 0 e1 Y in let Y2 := set_nth 0 e2 Y in",'glob_loop','the halves replace component 0','globopt reaches its tolerance')
m('gl7',SO,"L <- glob_loop (Z.to_nat (maxiter + 1)) tol [(x0, lo F)] ;;","L <- glob_loop (Z.to_nat maxiter / 2) tol [(x0, lo F)] ;;",'globopt','only half of the iterations','globopt reaches its tolerance')
m('gl8',SO,"| Some (l, _) =>\n                match nth_error Y l","| Some (_, _) =>\n                let l := 0 in match nth_error Y l",'glob_loop','always component 0 is bisected','globopt reaches its tolerance')
RP='Repr.v'
C80n='the endpoints are rounded to the nearest six digits'
m('rp1',RP,"if 2 * r <? den then q else if den <? 2 * r then q + 1 else if Z.even q then q else q + 1","q",'round_even','digits truncated instead of rounded',C80n)
m('rp2',RP,"if n =? 10 ^ 6 then (10 ^ 5, e + 1) else (n, e)","(n, e)",'six','carry to a seventh digit forgotten',C80n)
m('rp3',RP,'Ok ("\'[" ++ a ++ ", " ++ b ++ "]\'")%string','Ok ("\'[" ++ b ++ ", " ++ a ++ "]\'")%string','repr','endpoints swapped',C80n)
m('rp4',RP,"str (repeat 0 (Z.to_nat (- p)) ++ ds)%list","str ds",'layout','zeros after the point forgotten',C80n)
m('rp5',RP,'(if e <? 0 then "-"%char else "+"%char)','"+"%char','exponent','sign of the exponent lost',C80n)
m('rp6',RP,"exponent (p - 1)","exponent p",'layout','exponent off by one',C80n)
m('rp7',RP,'((if s then "-" else "") ++ fmt_pos m e)%string','fmt_pos m e','fmt','minus sign lost',C80n)
m('rp8',RP,"digits_of 6 n","digits_of 5 n",'fmt_pos','five digits shown',C80n)
m('rp9',RP,"b <~ fmt_num (hi X)","b <~ fmt_num (lo X)",'repr','lower endpoint shown twice',C80n)
m('rp10',RP,"str (ds ++ repeat 0 (Z.to_nat p - List.length ds)%nat)%list","str ds",'layout','trailing zeros before the point dropped',C80n)
m('rp11',RP,"if num <? 10 * den then 0","if num <=? 10 * den then 0",'exp_up','exact powers of ten get exponent one too small',C80n)
m('rp12',RP,"if Z.abs e <? 100 then digits_of 2 (Z.abs e) else digits_of 3 (Z.abs e)","digits_of 2 (Z.abs e)",'exponent','three-digit exponents cut',C80n)

m('rp13',RP,"if Z.even q then q else q + 1.","if Z.even q then q else q.",'round_even','ties rounded down','ties go to the even digit')
m('is1','Models.v',"else map (fun g => - w * g)","else map (fun g => - w + g)",'ispae_diff','weight added instead of multiplied','the vector is a subgradient for columns of order one')
m('is2','Models.v',"if Rle_dec (- rl c) (rh c)\n  then map (fun g => w * g)","if Rle_dec (rl c) (rh c)\n  then map (fun g => w * g)",'ispae_diff','side chosen by the wrong sign','the vector is a subgradient for columns of order one')
m('nm9','Estim.v',"fun i j => r_scale (w j) (A i j) | None => A end","fun i j => r_scale (w j) (A j i) | None => A end",'nm_A','matrix transposed when weights are given','half-widths fit the centre w*y')
m('nm10','Estim.v',"fun i j => r_scale (w j) (A i j) | None => A end","fun i j => r_scale (w i) (A i j) | None => A end",'nm_A','rows scaled instead of columns','half-widths fit the centre w*y')
HF='HbrFl.v'; C81n='every component contains the solution or is NaN for diagonal systems'
m('hf1',HF,"I1 <- f_interval (amap fneg beta) beta","I1 <- f_interval beta beta",'hbr_fl','interval [beta, beta]',C81n)
m('hf2',HF,"num <- arr_op OpAdd b1 (op_arr I1)","num <- arr_op OpSub b1 (op_arr I1)",'hbr_fl','numerator b - [-beta,beta]',C81n)
m('hf3',HF,"arr_op OpDiv num (op_arr den)","arr_op OpDiv den (op_arr num)",'hbr_fl','quotient upside down',C81n)
m('hf4',HF,"b1 <- f_matmul_itv C b ;;","b1 <- mret b ;;",'hbr_fl','right-hand side not preconditioned',C81n)
m('hf5',HF,"[nth 0 idx 0; nth 0 idx 0]).","[nth 0 idx 0; 0]).",'f_diag','first column instead of the diagonal',C81n)
m('hf6',HF,"den <- arr_op OpAdd dA (op_arr I2)","den <- arr_op OpMul dA (op_arr I2)",'hbr_fl','product instead of sum in the denominator',C81n)
m('hf7',HF,"dA <- mlift (diag A1 0)","dA <- mlift (diag A 0)",'hbr_fl','diagonal of the unpreconditioned matrix',C81n)
# joint keys, sums of pieces, Uni of WILS
m('jk1',SL,"if existsb (fun f => f) (skipn (run true rest) rest) then 0 else k","k",'place','common dimension never moved to the front','the common dimension stands in front when a slice is between')
m('jk2',SL,"if length p =? 1 then 0 else k","k",'joint_pos','a list of one position not reused','a single position serves for every element')
m('jk3',SL,"if forallb (Nat.eqb k) r then Ok k else Err IndexError","Ok k",'common','lengths not compared','lists of different lengths raise')
m('jk4',SL,"map (fun k => is_adv k || is_int k) key","map (fun k => is_adv k) key",'joint','ints keep their own dimension','ints take part in the common run')
m('jk5',SL,"firstn q idx ++ skipn (S q) idx","firstn q idx ++ skipn q idx",'select_joint','index along the common dimension not removed','the element at an index is the one the key names')
m('jk6',SL,"Definition is_adv (k : item) : bool := match k with KL _ | KM _ => true","Definition is_adv (k : item) : bool := match k with KL _ => true",'is_adv','masks treated as slices','masks take part in the common run')
m('sm1','ArrayCmp.v',"repeat (ONum (PInt 0)) (size t)","repeat (ONum (PInt 1)) (size t)",'arr_sum_nd','sum starts with 1','the sum of pieces contains the sums of members')
m('sm2','ArrayCmp.v',"r <- sum_pieces (repeat (ONum (PInt 0)) (size t)) ps","r <- sum_pieces (repeat (ONum (PInt 0)) (size t)) (tl ps)",'arr_sum_nd','first piece left out','the sum of pieces contains the sums of members')
m('wu1','Models.v',"then fun j => w mc * pick (x j) (supX mc j) (infX mc j) else fun j => - w mc * pick (x j) (infX mc j) (supX mc j)","then fun j => w mc * pick (x j) (infX mc j) (supX mc j) else fun j => - w mc * pick (x j) (supX mc j) (infX mc j)",'w_diff','Uni uses the vector of Tol','the Uni vector is a subgradient in the orthant')

m('me9',ME,"Err (if size sh =? 0 then ValueError else AssertionError)","Err (if size sh =? 1 then ValueError else AssertionError)",'setval_of','ValueError for one element instead of none','which error x[key] = y.data raises')
m('gs4',GS,"if n =? 0 then","if n =? 1 then",'shape_iarr','no elements taken for two','which error get_shape raises on an interval array')
m('sh1',R5,"n_sub OP (n_div OP (n_one OP) (alpha P)) (n_one OP)","n_add OP (n_div OP (n_one OP) (alpha P)) (n_one OP)",'main_loop','w = 1/alpha + 1','space is dilated by 1/alpha')
m('sh2',R5,"match h with O => true | _ => Nat.eqb (Nat.modulo cal h) 0 end","match h with O => true | _ => Nat.eqb (Nat.modulo cal h) 1 end",'mod0','step enlarged after other moves','the step is enlarged every nh moves')
m('sh3',R5,"let dg := m_tv OP B (v_sub OP g1 g0) in","let dg := m_tv OP B g1 in",'main_loop','dilation along the subgradient instead of the difference (the method of 1970)','dilation along the difference')
m('sh4',R5,"else main_loop fuel' (S nit) st B g1 vf","else main_loop fuel' (S nit) st B g0 vf",'main_loop','g0 = g1 forgotten','lines start against the last subgradient')
m('sh5',R5,"if Nat.eqb cal 1 then n_mul OP (s_hs st) (q1 P)","if Nat.leb cal 2 then n_mul OP (s_hs st) (q1 P)",'main_loop','step diminished after two moves too','when the step is diminished')
m('sh6',R5,"let x := v_sub OP (s_x st) (v_scale OP (s_hs st) dx) in","let x := v_sub OP (s_xr st) (v_scale OP (s_hs st) dx) in",'line_search','moves from the best point','moves from the current point')
m('sh7',R5,"let dx := m_v OP B (v_div OP g1 (v_norm OP g1)) in","let dx := m_v OP B (v_div OP g1 (v_norm OP g0)) in",'main_loop','normalized with the wrong norm','the direction has unit length in the metric')
m('sd20',SD,"if Rle_dec q norm_min_val then 1 else q","if Rle_dec q norm_min_val then 2 else q",'sd_step','wrong divisor for small norms','when the method stops')
m('sd21',SD,"Z.to_nat (maxiter + 1)","Z.to_nat maxiter",'subdiff','one step fewer','at most maxiter + 1 steps',0)
m('sd22',SD,"fun r => x r - d r * tau","fun r => x r - d r * (tau + 1)",'sd_step','relaxation ignored','steps use tau')
m('sd23',SD,"vsum n (fun i => r_mag (sd_res n A b x i))","vsum n (fun i => r_mag (sd_res n A b y i))",'sd_step','misfit of the new point: the program becomes right','the refutation must fail')
m('sd24',SD,"let a := r_mid (A (if","let a := rl (A (if",'super','lower endpoints instead of midpoints','the start is the formal solution of the centre')
C83n='C83: one step inside x0 proves a unique zero'
m('nv1',SO,"newton kraw_op (Z.to_nat (maxiter + 1)) tol x0","newton kraw_op (Z.to_nat (maxiter + 2)) tol x0",'krawczyk','one step more than the counter allows',C83n)
m('nv2',SO,"newton hs_op (Z.to_nat maxiter) tol x0","newton hs_op (Z.to_nat (maxiter + 1)) tol x0",'hansen_sengupta','<= instead of < in the loop test',C83n)
m('nv3',SO,"s <- py_mul (OItv B) (OItv d) ;;\n  py_add (OItv q) (OItv s).","s <- py_mul (OItv L) (OItv d) ;;\n  py_add (OItv q) (OItv s).",'kraw_op','slope instead of 1 - la L',C83n)
m('nv4',SO,"else g <- py_div (OItv b) (OItv A) ;;","else g <- py_div (OItv b) (OItv L) ;;",'hs_op','unscaled slope in the quotient',C83n)
m('nv5',SO,"  fc <- func c ;;\n  p <- py_mul (ONum la) (OItv fc) ;;","  fc <- func X ;;\n  p <- py_mul (ONum la) (OItv fc) ;;",'kraw_op','the function evaluated on the whole interval instead of its centre',C83n)
m('nv6',SO,"  p <- py_mul (ONum la) (OItv fc) ;;\n  q <- py_sub (OItv c) (OItv p) ;;","  p <- py_mul (ONum la) (OItv fc) ;;\n  q <- py_sub (OItv X) (OItv p) ;;",'kraw_op','X instead of c in the first term',C83n,expect='survive: the wider first term only makes the step weaker')
C84n='C84: longer runs never widen; exceptions prove emptiness'
m('xe1',SO,"if isnan_itv z then mraise GenericException else gs_sweep","if isnan_itv z || negb (contains_itv (pre k) bar) then mraise GenericException else gs_sweep",'gs_sweep','raises also when the new component sticks out of the old one',C84n)
m('xe2',SO,"  if py_contains F (ONum (PInt 0)) then\n    c <- mid_itv","  if py_contains F (ONum (PInt 1)) then\n    c <- mid_itv",'newton','tests the range for 1 instead of 0',C84n)
m('xe3',SO,"  if num_le tol d then\n    match fuel","  if num_le d tol then\n    match fuel",'gs_loop','loop test reversed',C84n)
m('xe4',SO,"      if num_lt tol err then\n        z <- op X c","      if num_lt err tol then\n        z <- op X c",'newton_loop','loop test reversed',C84n)
m('xe5',SO,"        Y <- intersect X z ;;","        Y <- mret z ;;",'newton_loop','no intersection',C84n)
m('xe6',SO,"gs_loop n f tol (distance n x' pre) A b x' x'","gs_loop n f tol (distance n x' pre) A b x' pre",'gs_loop','the previous box is not updated: every sweep starts from the same box',C84n,expect='survive: each sweep is the same, results only repeat')
m('xe7',SO,"| S f => x' <- gs_sweep n n 0 A b x pre ;;","| S f => x' <- gs_sweep n n 0 A b pre x ;;",'gs_loop','new and previous box swapped',C84n)
US='UssFl.v'; C34u='C34: Uss in floating point'
m('us1',US,"c <- f_of c0 ;; C0 <- arr_mid A ;;","c <- f_of c0 ;; C0 <- arr_rad A ;;",'uss_constituent_fl','A.rad instead of A.mid',C34u)
m('us2',US,"f_mv fdot r n G (amap fabs y)","f_mv fdot r n G y",'uss_constituent_fl','np.abs(x) dropped',C34u)
m('us3',US,"u <- f_bin fsub s (amap fabs d)","u <- f_bin fsub s d",'uss_constituent_fl','np.abs of the midpoint difference dropped',C34u)
m('us4',US,"s <- f_bin fadd q (","s <- f_bin fsub q (",'uss_constituent_fl','b.rad - A.rad @ |x| instead of a sum',C34u)
m('us5',US,"d <- f_bin fsub c (","d <- f_bin fadd c (",'uss_constituent_fl','b.mid + A.mid @ x',C34u)
m('us6',US,"np_mul weight (amap PFlt u)","np_mul weight (amap PFlt s)",'uss_constituent_fl','the midpoint term is not subtracted',C34u)
m('us7',US,"q0 <- arr_rad b ;;","q0 <- arr_wid b ;;",'uss_constituent_fl','b.wid instead of b.rad',C34u)
m('us8',"RecogFl.v","Ok (fold_left num_min2 l v)","Ok v",'np_min','the first element instead of the minimum','C33, C34 in floating point')
IK='Kernel.v'; C14n='C14: nested expressions are inclusion isotonic'
IA='C14: array operations and matrix products are inclusion isotonic'
m('ai1','Arrays.v',"  | (x, y) :: l' => p <- omul x y ;; s <- oadd acc p ;; dot_from s l'","  | (x, y) :: l' => p <- omul x y ;; s <- oadd acc p ;; dot_from p l'",'dot_from','the accumulator is dropped',IA)
m('ai2','Arrays.v',"  lift_arr (binop_arr (py_op o) (op_arr x) other).","  lift_arr (binop_arr (py_op o) other (op_arr x)).",'arr_op','operands swapped',IA)
m('ai3','Arrays.v',"  | OpSub => lift_arr (binop_arr (py_op OpSub) other (op_arr x))","  | OpSub => arr_op OpSub x other",'arr_rop','reflected subtraction not reflected',IA)
m('ai4','Arrays.v',"mapM (fun i => entry n (fun k => oget x [i; k]) (fun k => oget y [k])) (seq 0 r)","mapM (fun i => entry n (fun k => oget x [k; i]) (fun k => oget y [k])) (seq 0 r)",'matmul','matrix transposed in matrix-vector products',IA)
m('ai5','Arrays.v',"      if n =? n' then\n        l <- mapM (fun ij =>","      if n <=? n' then\n        l <- mapM (fun ij =>",'matmul','inner dimensions not compared for equality',IA)
PF='PssFl.v'; C45n='C45: PSS on doubles keeps the solutions (rounded)'
m('px1',PF,"else v <- div_ (hi a) (lo d) ;; u <- div_ (hi a) (hi d) ;;","else v <- div_ (hi a) (hi d) ;; u <- div_ (hi a) (lo d) ;;",'kdiv_fl','the two quotient ends exchanged',C45n)
m('px2',PF,"if num_eq (lo d) pn0 then v <- div_ (hi a) (hi d) ;;","if num_eq (lo d) pn0 then v <- div_ (lo a) (hi d) ;;",'kdiv_fl','wrong numerator end',C45n)
m('px3',PF,"if num_eq (lo d) pn0 then v <- div_ (lo a) (hi d) ;; X <- single_interval v pinf false false","if num_eq (lo d) pn0 then v <- div_ (lo a) (hi d) ;; X <- single_interval pninf v false false",'kdiv_fl','wrong half line',C45n)
m('px4',PF,"filter (fun l => num_le (fq l) eta) L","filter (fun l => num_lt (fq l) eta) L",'update_fl','elements equal to eta are dropped',C45n,expect='survive? eta may be the bound of an element')
m('px5',PF,"if num_lt (fq y) (fq x) then y ::","if num_lt (fq x) (fq y) then y ::",'insort_fl','list sorted the wrong way',C45n)
m('px6',PF,"  X2 <- single_interval c (hi X) false false ;;","  X2 <- single_interval (hi X) (hi X) false false ;;",'cut_fl','second half lost',C45n)
m('px7',PF,"(snd XX) (fQ it)) omega (fst r1)","(snd XX) (fQ it)) omega (delete_fl pos L)",'pss_loop_fl','the first half is forgotten',C45n)
m('px8',PF,"Z1 <- intersect X1 Y1 ;; Z2 <- intersect X2 Y2 ;;","Z1 <- intersect X1 Y2 ;; Z2 <- intersect X2 Y1 ;;",'meet_fl','pairs crossed',C45n)
m('px9',PF,"then nanmax2 a1 a2 else nanmin2 a1 a2","then nanmax2 a1 a2 else nanmax2 a1 a2",'answer_fl','largest instead of smallest lower end',C45n)
m('px10',PF,"b2 <- scale_rhs (-1) m b1","b2 <- scale_rhs 1 m b1",'pss_fl','right-hand side not negated in the second pass',C45n)
m('px11',PF,"s <- mul_ (PInt (-1)) q2","s <- mul_ (PInt 1) q2",'pss_fl','answer of the second pass not negated',C45n)
m('px12',PF,"bAr <- arr_op OpSub Wb (op_arr Ar)","bAr <- arr_op OpAdd Wb (op_arr Ar)",'omega_at','b + Ar instead of b - Ar',C45n)
m('px13',PF,"Am <- rest_mid_fl Q ;; eta <- omega_at fs Am","Am <- rest_mid_fl Q ;; eta <- mret pninf",'add_half_fl','eta too small',C45n)
m('px14',PF,"let eta := if num_le (snd r1) (snd r2) then snd r1 else snd r2 in","let eta := if num_le (snd r1) (snd r2) then snd r2 else snd r1 in",'pss_loop_fl','the larger eta',C45n,expect='survive: only weaker pruning')
m('px15',PF,"if contains_num a pn0 then X <- single_interval pninf pinf","if contains_num a pn0 then X <- single_interval pn0 pinf",'kdiv_fl','half line instead of the whole line',C45n)
m('px16',PF,"if j <? nu then j else S j","if j <=? nu then j else S j",'skip','off by one in the deleted column',C45n)
m('px17',PF,"| y :: L' => if ffull y then Some O else","| y :: L' => if negb (ffull y) then Some O else",'first_full_fl','elements bounded by the LP are split',C45n,expect='survive? splitting others is sound')
m('px18',PF,"if is_nan_num b1 && is_nan_num b2 then mret pinf","if is_nan_num b1 || is_nan_num b2 then mret pinf",'answer_fl','infinite when one of the two pieces is empty',C45n)
C85n='C85: operations on Kaucher intervals are one rounding of the exact ends'; C86n='C86: Kaucher arithmetic is inclusion isotonic'
C87n='C87: elementary functions of improper intervals are tight'; C88n='C88: powers of Kaucher intervals'
m('kk1',IK,"(match kd s with Classical => kd o | Kaucher => Kaucher end)","(kd s)",'itv_add','class of the sum taken from the left operand',C85n)
m('kk3',IK,"i <- with_rounding FE_DOWNWARD (sum_formula xip yip xsm ysm xsp yim xim ysp)","i <- with_rounding FE_UPWARD (sum_formula xip yip xsm ysm xsp yim xim ysp)",'mul_sum','lower end of the mixed product rounded up',C85n)
m('kk4',IK,"u <- with_rounding FE_UPWARD (max_formula xsp ysp xim yim xip ysm xsm yip)","u <- with_rounding FE_DOWNWARD (max_formula xsp ysp xim yim xip ysm xsm yip)",'mul_max','upper end of the Kaucher product rounded down',C85n)
m('kk5',IK,"  dsub_ (flt_max2 ab cd) (flt_max2 ef gh).","  dsub_ (flt_max2 ab cd) (flt_max2 gh gh).",'max_formula','one product left out',C85n)
m('kk6',IK,"  i <- with_rounding FE_DOWNWARD (sum_formula xip yip xsm ysm xsp yim xim ysp)","  i <- with_rounding FE_DOWNWARD (sum_formula xip yip xsm ysm xip yim xim ysp)",'kaucher_rmul','wrong part in the number product',C85n,1)
m('kk7',IK,"  i <- with_rounding FE_DOWNWARD (as_double (div_ pn1 (hi o))) ;;","  i <- with_rounding FE_UPWARD (as_double (div_ pn1 (hi o))) ;;",'recip','reciprocal of the upper end rounded up',C85n)
m('kk8',IK,"            iu <- recip o ;; mul_sum s (mkitv Kaucher (PFlt (fst iu)) (PFlt (snd iu)))","            iu <- recip o ;; mul_sum s (mkitv Kaucher (PFlt (snd iu)) (PFlt (fst iu)))",'itv_div','reciprocals exchanged (classical by Kaucher)',C85n)
m('kk9',IK,"mret (mkitv (kd s) (PFlt (round_down i)) (PFlt (round_up u)))","mret (mkitv (kd s) (PFlt (round_down (round_down i))) (PFlt (round_up u)))",'itv_exp','lower end of exp one double too low',C87n)
m('kk10',IK,"mret (mkitv (kd s) (PFlt (round_down i)) (PFlt (round_up u)))","mret (mkitv Classical (PFlt (round_down i)) (PFlt (round_up u)))",'itv_exp','class of the argument lost',C87n)
m('kk11',IK,"      u <- with_rounding FE_DOWNWARD (log_or_neginf mn) ;;\n      i <- with_rounding FE_UPWARD (log_or_neginf mx) ;;","      u <- with_rounding FE_UPWARD (log_or_neginf mn) ;;\n      i <- with_rounding FE_DOWNWARD (log_or_neginf mx) ;;",'itv_log','improper logarithm rounded inwards',C87n)
m('kk12',IK,"      mret (mkitv (kd s) (PFlt u) (PFlt i))\n  else mret","      mret (mkitv (kd s) (PFlt i) (PFlt u))\n  else mret",'itv_log','improper logarithm becomes proper',C87n)
m('kk13',IK,"    mret (mkitv (kd s) (PFlt u) (PFlt i)).","    mret (mkitv (kd s) (PFlt i) (PFlt u)).",'trig_range','sin of an improper interval becomes proper',C87n)
m('kk14',IK,"    u <- with_rounding FE_DOWNWARD (t <- tmax ;; mret (if t then f1 else round_down maxv)) ;;","    u <- with_rounding FE_DOWNWARD (t <- tmin ;; mret (if t then f1 else round_down maxv)) ;;",'trig_range','test for a minimum used for the maximum (improper)',C87n)
m('kk15',IK,"    i <- with_rounding FE_UPWARD (t <- tmin ;; mret (if t then fneg f1 else round_up minv)) ;;","    i <- with_rounding FE_UPWARD (t <- tmin ;; mret (if t then fneg f1 else round_up maxv)) ;;",'trig_range','greatest value at the upper end (improper)',C87n)
m('kk16',IK,"    u <- with_rounding FE_UPWARD (t <- tmax ;; mret (if t then f1 else round_up maxv)) ;;","    u <- with_rounding FE_UPWARD (t <- tmax ;; mret f1) ;;",'trig_range','upper end of sin always 1',C87n)
m('kk17',IK,"then mret (mkitv Classical pn0 (PFlt (flt_max2 i u)))","then mret (mkitv Classical pn0 (PFlt u))",'kaucher_pow','even power: upper end only',C88n)
m('kk18',IK,"then mret (mkitv Kaucher (PFlt (flt_max2 i u)) pn0)","then mret (mkitv Kaucher pn0 (PFlt (flt_max2 i u)))",'kaucher_pow','even power of an improper interval made proper',C88n)
m('kk19',IK,"        else if Z.even n && contains_num (pro s) (PInt 0) then","        else if contains_num (pro s) (PInt 0) then",'kaucher_pow','parity not tested',C88n)
m('kk20',IK,"        else if flt_ltb u i then mret (mkitv Kaucher (PFlt i) (PFlt u))","        else if flt_ltb u i then mret (mkitv Classical (PFlt u) (PFlt i))",'kaucher_pow','improper powers made proper: wrong for odd n',C88n)
m('kk21',IK,"        u <- with_rounding FE_UPWARD (as_double (pow_ (hi s) n)) ;;","        u <- with_rounding FE_DOWNWARD (as_double (pow_ (hi s) n)) ;;",'kaucher_pow','upper end rounded down',C88n)
m('kk22',IK,"  | Kaucher => mkitv Classical (num_min2 (lo s) (hi s)) (num_max2 (lo s) (hi s))","  | Kaucher => mkitv Classical (lo s) (hi s)",'pro','projection of an improper interval not sorted',C88n)
m('kk23',IK,"mret (flt_leb (c_ceil p) (c_floor q)).","mret (flt_leb (c_floor p) (c_floor q)).",'extremum_test','floor for ceil: a maximum is always found',C87n)
AR='ArrRepr.v'
C89n='C89 the printed form of an interval array'
m('ar1',AR,'slice 5 15 (np_repr','slice 6 15 (np_repr','arr_repr','opening bracket cut off',C89n)
m('ar2',AR,'slice 5 15 (np_repr','slice 5 14 (np_repr','arr_repr','comma not cut off',C89n)
m('ar3',AR,'"Interval" ++ slice','"interval" ++ slice','arr_repr','wrong name',C89n)
m('ar4',AR,'(last_line s) + 14)','(last_line s) + 13)','np_repr','line limit off by one',C89n)
m('ar5',AR,'(last_line s) + 14)','s + 14)','np_repr','length of the whole text tested',C89n)
m('ar6',AR,'if existsb (Ascii.eqb newline) (list_ascii_of_string t) then last_line t','if existsb (Ascii.eqb newline) (list_ascii_of_string t) then t','last_line','first line break instead of the last',C89n)
MO='Models.v'
C55n='C55 the bases are the usual polynomials'
m('ib1',MO,'| Legendre => ((2 * c + 1) * x * q - c * p) / (c + 1)','| Legendre => 2 * x * q - p','basis2','Legendre recurrence replaced by that of Chebyshev (still 1 at 1)',C55n)
m('ib2',MO,'| Laguerre => ((2 * c + 1 - x) * q - c * p) / (c + 1)','| Laguerre => (2 * c + 1 - x) * q - 2 * c * p','basis2','Laguerre recurrence without division (still 1 at 0)',C55n)
m('ib3',MO,'| Hermite => 2 * x * q - 2 * c * p','| Hermite => 2 * x * q - c * p','basis2','factor 2 missing in Hermite recurrence',C55n)
m('ib4',MO,'| Laguerre => ((2 * c + 1 - x) * q - c * p) / (c + 1)','| Laguerre => ((2 * c + 1 + x) * q - c * p) / (c + 1)','basis2','wrong sign in the Laguerre recurrence',C55n)
m('ib5',MO,'| Hermite => 2 * x | Laguerre => 1 - x end','| Hermite => 2 * x | Laguerre => 1 + x end','basis2','wrong sign in the first Laguerre polynomial',C55n)
m('rm1','Arrays.v','        i <- with_rounding FE_DOWNWARD (as_double (div_ (PInt 1) (hi s))) ;;\n        v <-','        fesetround FE_DOWNWARD ;;; i <- as_double (div_ (PInt 1) (hi s)) ;;\n        v <-','arr_op_itv','rounding mode left downward after dividing an array by an interval','C06 the rounding mode is restored')
AA='Arrays.v'
C90n='C90 unary properties of arrays'
m('au1',AA,'Definition arr_dual := arr_map (fun e => mret (dual e)).','Definition arr_dual := arr_map (fun e => mret (opp e)).','arr_dual','opp for dual',C90n)
m('au2',AA,'Definition arr_abs := arr_map abs_itv.','Definition arr_abs := arr_map (fun e => mret (pro e)).','arr_abs','abs returns the projection',C90n)
m('au3',AA,'lift_arr (amapM (fun e => mret (neg e)) (adat x)).','lift_arr (amapM (fun e => mret (opp e)) (adat x)).','arr_neg','-x takes the algebraic opposite',C90n)
m('au4',AA,'Definition arr_inv := arr_map inv.','Definition arr_inv := arr_map (fun e => r <- inv e ;; mret (dual r)).','arr_inv','ends of the inverse swapped',C90n)
m('au5','Kernel.v','if flt_leb a b then div_ (lo s) (hi s) else div_ (hi s) (lo s).','if flt_ltb b a then div_ (lo s) (hi s) else div_ (hi s) (lo s).','khi','larger end divided by the smaller',C90n)
m('au6','Kernel.v','if flt_leb a b then div_ (lo s) (hi s) else div_ (hi s) (lo s).','div_ (lo s) (hi s).','khi','ends not compared',C90n)
m('au7',AA,': M aitv := arr_ufunc o x (op_arr x).',': M aitv := arr_ufunc o x y.','np_arr_left','second operand used (still in the wrong order)','C11 with an array first the second argument is ignored')
m('au8','ArrayUnary.v','| ONum _ => mret (PInt 1) end','| ONum _ => mret (PFlt f1) end','u_khi','khi of a number is a float (repairs the truncation)',C90n)
m('au9','NewtonVec.v','(fun _ => mraise AttributeError)','(fun e => mret e)','arr_to_float','to_float returns the array',C90n)
m('am1',A,"vectorize_num mid (adat x).","vectorize_num rad (adat x).",'arr_mid','mid array holds radii','the mid array holds the midpoints',expect=['C29'])
m('am2',A,"vectorize_num wid (adat x).","vectorize_num rad (adat x).",'arr_wid','wid array holds radii','the wid array holds the widths',expect=['C29'])
m('am3',A,"vectorize_num rad (adat x).","vectorize_num wid (adat x).",'arr_rad','rad array holds widths','the rad array holds the radii',expect=['C29'])
CN='Constrained.v'
m('cn1',CN,"(r_x _ r, - r_f _ r).","(r_x _ r, r_f _ r).",'maximize_c','value not negated','the reported value is the functional minus the penalty',expect=['C91'])
m('cn2',CN,"  | Some _ => Some c\n","  | Some _ => match auto_mu n (c_rows c) (max_mag k n A) with None => None | Some mu => Some (mklc (c_rows c) (Some mu)) end\n",'ready','mu recomputed at every call','the coefficient of the first system is kept',expect=['C91'])
m('cn3',CN,"Some (mklc (c_rows c) (Some mu))","Some (mklc (c_rows c) None)",'ready','mu not stored','the coefficient of the first system is kept',expect=['C91'])
m('cn4',CN,"Some (f_div numerator (lmin a (a :: l)))","Some (f_div (/ 2 * numerator) (lmin a (a :: l)))",'auto_mu','half the coefficient','the automatic coefficient is large enough',expect=['C91'])
m('cn5',CN,"vmax k (fun i => fold_right Rmax 0 (map (fun j => r_mag (A i j)) (seq 0 n)))","vmin k (fun i => fold_right Rmax 0 (map (fun j => r_mag (A i j)) (seq 0 n)))",'max_mag','least row magnitude','the automatic coefficient is large enough',expect=['C91'])
m('cn6',CN,"map (fun j => r_mag (A i j)) (seq 0 n)","map (fun j => Rabs (rh (A i j))) (seq 0 n)",'max_mag','upper ends instead of magnitudes','the automatic coefficient is large enough',expect=['C91'])
m('cn7',CN,"(r_x _ r, r_f _ r).","(r_x _ r, - r_f _ r).",'minimize_c','value negated','ChebNorm reports the norm plus the penalty',expect=['C91'])
m('cn8',CN,"if flt_ltb (snd row) Cix then fsub mode_NE Cix (snd row) else f0","if flt_ltb (snd row) Cix then fsub mode_NE Cix (snd row) else f1",'fl_excess','satisfied rows count 1','a run with infinite mu returns NaN',expect=['C91'])
m('cn9','Recog.v',"(mu * lsum (map fst ps), fun j","(lsum (map fst ps), fun j",'linear_penalty','mu dropped','the penalty is mu times the violation')
m('cn10','Recog.v',"if Rlt_dec (snd row) Cix then (Cix - snd row, fst row)","if Rlt_dec (snd row) Cix then (snd row - Cix, fst row)",'penalty_row','sign of the excess','violated constraints are penalized')
m('cn11','Recog.v',"(f + p, fun j => g j + dp j)","(f - p, fun j => g j + dp j)",'with_penalty','penalty subtracted','violated constraints are penalized')
m('cn12',CN,"map (fun j => r_mag (A i j)) (seq 0 n)","map (fun j => r_mag (A i j)) (seq 1 n)",'max_mag','first column skipped','the automatic coefficient is large enough',expect=['C91'])
C92n='C92: the stated law of arithmetic holds for the returned intervals'
m('al1','Kernel.v',"u <- with_rounding FE_UPWARD (as_double (add_ (hi s) c)) ;;","u <- with_rounding FE_DOWNWARD (as_double (add_ (hi s) c)) ;;",'radd','upper end of X + c rounded down',C92n,expect=['C92'])
m('al2','Kernel.v',"as_double (sub_ c (hi s))","as_double (sub_ c (lo s))",'rsub','lower end of c - X computed from the lower end',C92n,expect=['C92'])
m('al3','Kernel.v',"mkitv (kd s) (num_neg (hi s)) (num_neg (lo s)).","mkitv (kd s) (num_neg (lo s)) (num_neg (hi s)).",'neg','ends of -X not swapped',C92n,expect=['C92'])
m('al4','Kernel.v',"(as_double (p <- mul_ c (lo s) ;; q <- mul_ c (hi s) ;; mret (num_max2 p q))) ;;","(as_double (q <- mul_ c (hi s) ;; mret q)) ;;",'classical_rmul','upper end of c * X is c times the upper end',C92n,expect=['C92'])
m('al5','Kernel.v',"mkitv (kd s) (PFlt i) (PFlt u)).\n\n(** pyx:496","mkitv (kd s) (lo s) (PFlt u)).\n\n(** pyx:496",'radd','lower end of X + c not updated',C92n,expect=['C92'])
m('al6','Kernel.v',"u <- with_rounding FE_UPWARD (as_double (v <- four_quotients x y ;; mret (max_of v))) ;;","u <- with_rounding FE_UPWARD (as_double (div_ (hi x) (lo y))) ;;",'div_classical','upper end of X / Y computed for positive operands only',C92n,expect=['C92'])
m('al7','Kernel.v',"| OItv y => r (lo s) (lo y) && r (hi s) (hi y)","| OItv y => r (lo s) (lo y)",'cmp_both','== compares the lower ends only',C92n)
RO='RecogOpt.v'
m('ro1',RO,"else if flt_ltb a b then b else a.","else if flt_ltb a b then a else b.",'f_max','minimum for maximum in Tol.calcfg','a non-negative Tol.maximize shows that every matrix sends x into b',expect=['C93'])
m('ro2',RO,"if flt_leb (fmul mode_NE i s) f0 then f0 else","if flt_leb i f0 then f0 else",'f_mig','mignitude tests only the lower end','a non-negative Uni.maximize shows that some matrix sends x into b',expect=['C93'])
m('ro3',RO,"if flt_ltb (fabs s) (fabs i) then fabs s else fabs i","if flt_ltb (fabs i) (fabs s) then fabs s else fabs i",'f_mig','larger end taken','a negative Uni.maximize shows that no matrix sends x into b',expect=['C93'])
m('ro4',RO,"v <- f_bin fsub (f_mv fdot r n C y) (f_mv fdot r n G (amap fabs y))","v <- f_bin fadd (f_mv fdot r n C y) (f_mv fdot r n G (amap fabs y))",'calc_parts','sups computed like infs','a non-negative Tol.maximize shows that every matrix sends x into b',expect=['C93'])
m('ro5',RO,"u <- f_bin fadd (f_mv fdot r n C y) (f_mv fdot r n G (amap fabs y))","u <- f_bin fadd (f_mv fdot r n C y) (f_mv fdot r n G y)",'calc_parts','absolute value of x dropped','a non-negative Tol.maximize shows that every matrix sends x into b',expect=['C93'])
m('ro6',RO,"if is_nan_num v || num_lt v bv then arg_from (S i) i v l' else","if is_nan_num v || num_lt bv v then arg_from (S i) i v l' else",'arg_from','argmax for argmin','the reported value is the least constituent',expect=['C93'])
m('ro7',RO,"| Ok (t, g) => (fneg t, map fneg g)","| Ok (t, g) => (t, map fneg g)",'objective','value not negated','the reported value is the least constituent',expect=['C93'])
m('ro8',RO,"(r_x _ r, fneg (r_f _ r)).","(x0, fneg (r_f _ r)).",'maximize_fl','starting point returned with the best value','the reported value belongs to the reported point',expect=['C93'])
m('ro9',RO,"g <- f_bin (fun _ => f_max) (amap fabs i) (amap fabs s) ;; d <- f_bin fsub q g","g <- f_bin (fun _ => f_max) i s ;; d <- f_bin fsub q g",'tol_calc','abs dropped in Tol.calcfg','a non-negative Tol.maximize shows that every matrix sends x into b',expect=['C93'])
m('ro10',RO,"g <- f_bin (fun _ => f_mig) i s ;; d <- f_bin fsub q g","g <- f_bin (fun _ => f_mig) i s ;; d <- f_bin fadd q g",'uni_calc','mignitude added','a non-negative Uni.maximize shows that some matrix sends x into b',expect=['C93'])
m('ro11',RO,"match aget weight [mc] with Some v => to_double v | None => Err IndexError end) ;;\n  let up","match aget weight [S mc] with Some v => to_double v | None => Err IndexError end) ;;\n  let up",'ends_grad','weight of the next row','a number is reported',expect=['C93'])
RC='RecogOptCon.v'
m('rc1',RC,"fsub mode_NE (cdot (fst row) x) (snd row) else f0.","fsub mode_NE (snd row) (cdot (fst row) x) else f0.",'excess_fl','violation with the wrong sign','the penalty lowers the value',expect=['C94'])
m('rc2',RC,"flt_ltb (snd row) (cdot (fst row) x).","flt_ltb (cdot (fst row) x) (snd row).",'beyond','feasible points are penalised','no penalty inside the constraint',expect=['C94'])
m('rc3',RC,"(fadd mode_NE f p, l_map2","(fsub mode_NE f p, l_map2",'objective_con','penalty rewards','the value is the functional minus the penalty',expect=['C94'])
m('rc4',RC,"(fmul mode_NE mu (csum (map (excess_fl x) rows)),","(csum (map (excess_fl x) rows),",'penalty_fl','mu dropped','the penalty is mu times the violation',expect=['C94'])
m('rc5',RC,"(r_x _ r, fneg (r_f _ r)).","(r_x _ r, r_f _ r).",'maximize_con','value not negated','the value is the functional minus the penalty',expect=['C94'])
m('rc6',RC,"maximize_con W P (fun x => uni_calc fdot A b x weight)","maximize_con W P (fun x => tol_calc fdot A b x weight)",'uni_maximize_con','Tol optimised by Uni','the value reported by Uni is that of Uni',expect=['C94'])
m('rh1','RohnTol.v','if flt_ltb v f0 then None','if flt_leb v f0 then None','rohn_tol_fl','raise also when the reported value is zero','Rohn raises exactly when the reported value is negative')
m('rh2','RohnTol.v','if String.eqb consistency "tol" then RunTol else RunRaise','RunTol','rohn_choice','every other word runs the tolerable branch','an unknown consistency raises')
m('rh3','RohnTol.v','Some e => mkr (num_val (lo e)) (num_val (hi e)) | None => mkr 0 0 end.','Some e => mkr (num_val (hi e)) (num_val (lo e)) | None => mkr 0 0 end.','end_mat','lower and upper ends exchanged','the returned ranges are those of the tolerable set')
m('rh4','RohnTol.v','if flt_ltb v f0 then None else','','rohn_tol_fl','the check of the reported value is dropped','Rohn raises exactly when the reported value is negative')
m('rh5','RohnTol.v','if String.eqb consistency "uni" then RunUni else if String.eqb consistency "tol" then RunTol','if String.eqb consistency "tol" then RunUni else if String.eqb consistency "uni" then RunTol','rohn_choice','the two branches exchanged','tol returns the range of the tolerable set')
m('ac1','RecogOpt.v','g <- f_bin (fun _ => f_max) (amap fabs i) (amap fabs s) ;; d <- f_bin fsub q g ;; np_mul weight (amap PFlt d).','g <- f_bin (fun _ => f_max) (amap fabs i) (amap fabs s) ;; d0 <- f_bin fsub q g ;; d <- f_bin fadd d0 d0 ;; np_mul weight (amap PFlt d).','tol_calc','the constituents are doubled (same sign)','the reported value is the amount by which the right-hand side can be narrowed')
m('ac2','RecogOpt.v','g <- f_bin (fun _ => f_mig) i s ;; d <- f_bin fsub q g ;; np_mul weight (amap PFlt d).','g <- f_bin (fun _ => f_mig) i s ;; d0 <- f_bin fsub q g ;; d <- f_bin fadd d0 d0 ;; np_mul weight (amap PFlt d).','uni_calc','the constituents are doubled (same sign)','the reported value is the amount by which the right-hand side can be narrowed')
G='if py_ge s (ONum (PInt 0)) then l <- itv_log s ;; h <- rmul l e ;; itv_exp h'
m('pw1',K,G,G.replace('py_ge','py_gt'),'classical_pow','self > 0 instead of self >= 0','X ** e of an interval starting at 0 contains the powers',expect=['C96'])
m('pw2',K,G,G.replace('py_ge s (ONum (PInt 0))','true'),'classical_pow','the sign of the base is not checked','a negative base raises ValueError',expect=['C96'])
m('pw3',K,G,G.replace('py_ge s (ONum (PInt 0))','true'),'kaucher_pow','the sign of the base is not checked','a negative base raises ValueError',nth=1,expect=['C96'])
m('pw4',K,G,G.replace('rmul l e','rmul (neg l) e'),'classical_pow','the logarithm is negated','X ** e contains the powers',expect=['C96'])
m('pw5',K,G,G.replace('itv_exp h','itv_exp l'),'classical_pow','the exponent is ignored','X ** e contains the powers',expect=['C96'])
m('pw6',K,"""      else general
  | PFlt _ => general""","""      else mret (mkitv Classical pn0 pn0)
  | PFlt _ => general""",'classical_pow','negative ints give zero','X ** -n contains the reciprocals of the powers',expect=['C96'])
m('pw7',K,"rmul l (PFlt fhalf)","rmul l (PFlt f1)",'itv_sqrt','sqrt forgets the half','X ** 0.5 is sqrt(X)',expect=['C96','C58'])
m('pw8',K,"(PFlt (round_down i)) (PFlt (round_up u))","(PFlt (round_down i)) (PFlt fmaxfloat)",'itv_exp','the upper end is the largest double','X ** e is tight',expect=['C96'])
WL='WilsFl.v'
m('wl1',WL,"(fmul mode_NE w (fsub mode_NE f1 alpha)) (fmul mode_NE alpha prev)","(fmul mode_NE w alpha) (fmul mode_NE alpha prev)",'smooth_step','alpha instead of 1 - alpha','without smoothing the weights are the given ones',expect=['C97'])
m('wl2',WL,"fmul mode_NE beta (fadd mode_NE (fmul mode_NE w (fsub mode_NE f1 alpha)) (fmul mode_NE alpha prev)).","let _ := beta in fadd mode_NE (fmul mode_NE w (fsub mode_NE f1 alpha)) prev.",'smooth_step','the previous weight is not scaled','smoothed weights stay within the bound of the given ones',expect=['C97'])
m('wl3',WL,"let v := smooth_step prev w in v :: smooth_rest v l' end.","let v := smooth_step prev w in v :: l' end.",'smooth_rest','the loop stops after one entry','smoothed weights with an alpha of 1/2 (second call)')
m('wl4',WL,"if negb (n =? k) then Err AssertionError else","",'wils_fit_fl','the dimensions are not compared','inconsistent dimensions raise AssertionError',expect=['C97'])
m('wl5',WL,"Ok (r_x _ r, fneg (r_f _ r), w)","Ok (r_x _ r, r_f _ r, w)",'wils_fit_fl','fr not negated','fr is the least weighted slack',expect=['C97'])
m('wl6',WL,"| Models.OUni => uni_calc fdot X y x w","| Models.OUni => tol_calc fdot X y x w",'residual_fl','Uni optimises Tol','fr is the least slack of the chosen objective',expect=['C97'])
m('wl7',WL,"(t, [mc])","(fneg t, [mc])",'wrap_norm_fl','sign of the least slack','fr is the least weighted slack',expect=['C97'])
m('wl8',WL,"(csum l, seq 0 (length l))","(csum (tl l), seq 0 (length l))",'wrap_norm_fl','the sum skips the first slack','with norm l1 fr is the sum of the slacks',expect=['C97'])
m('wl9',WL,"(fadd mode_NE f p, l_map2","(fsub mode_NE f p, l_map2",'wils_objective','the penalty rewards','fr is the norm less the penalty',expect=['C97'])
m('wl10',WL,"matmul (op_arr X) (mkarr [length xr] (map (fun a => ONum (PFlt a)) xr)).","matmul (op_arr X) (mkarr [length xr] (map (fun a => ONum (PFlt (fneg a))) xr)).",'wils_predict_fl','coefficients negated','predictions contain the values of the model',expect=['C97'])
m('wl11',WL,"w <~ smooth_fl weight ;;","w <~ (_ <~ smooth_fl weight ;; Ok weight) ;;",'wils_fit_fl','the smoothed weights are dropped','fr is computed with the smoothed weights; the array changes',expect=['C97'])
NE='RohnFl.v'
m('ne1',NE,"fsum (map (fun j => f_get a [nth 0 idx 0; j]) (seq 0 n))","fsum (map (fun j => f_get a [nth 0 idx 0; S j]) (seq 0 n))",'row_sums','the sum starts at the second entry of the row','the radius is the slack over the sum of the magnitudes of the row',expect=['C53'])
m('ne2',NE,"fsum (map (fun j => f_get a [nth 0 idx 0; j]) (seq 0 n))","fsum (map (fun j => f_get a [0; j]) (seq 0 n))",'row_sums','every sum is that of the first row','the radius is the slack over the sum of the magnitudes of its own row',expect=['C53'])
m('ne3',NE,"(mkitv Classical (PInt (-1)) (PInt 1))","(mkitv Classical (PInt (-2)) (PInt 2))",'neumaier_fl','the radius is doubled','the box has the radius slack over row sum',expect=['C53'])
m('ne4',NE,"e <- f_bin fsub t g ;;","e <- f_bin fadd t g ;;",'neumaier_fl','the misfit of the centre is added to the radius','the radius is the slack of the centre over the row sum',expect=['C53'])
m('ne5',NE,"(fun f e => radd e (PFlt f))","(fun f e => radd e (PFlt f0))",'neumaier_fl','the centre is forgotten','the box lies around the centre',expect=['C53'])
m('ne6',NE,"r <- f_bin fdiv e (row_sums m n a)","r <- f_bin fmul e (row_sums m n a)",'neumaier_fl','multiplied by the row sum','the radius is the slack over the row sum',expect=['C53'])
IS='IspaeFl.v'
m('isf1',IS,"fadd mode_NE a (fmul mode_NE (horner c' x) x)","fadd mode_NE a (horner c' x)",'horner','the factor x is missing','the value of a column is the range of its polynomial',expect=['C98'])
m('isf2',IS,"horner (f0 :: beta)","horner beta",'poly_fl','degrees start at 0 instead of 1','the value of a column is the range of its polynomial',expect=['C98'])
m('isf3',IS,"flt_leb l d && flt_leb d u","flt_leb l d && flt_ltb d u",'col_fl','the upper end is left out','the value of a column is the range of its polynomial',expect=['C98'])
m('isf4',IS,"(l :: u :: roots)","[l; u]",'col_fl','critical points are ignored','the value of a column is the range of its polynomial',expect=['C98'])
m('isf5',IS,"(PFlt (fold_left flt_max2 vs v))","(PFlt v)",'col_fl','the upper end is the value at the lower end','the value of a column is the range of its polynomial',expect=['C98'])
m('isf6',IS,"(fun d => flt_leb l d && flt_leb d u)","(fun d => flt_leb l d || flt_leb d u)",'col_fl','critical points outside the interval are used','the ends of the value of a column are near values of the polynomial',expect=['C98'])
m('isf7',IS,"vs <- cols_fl (skipn o beta) cols' ;;","vs <- cols_fl beta cols' ;;",'cols_fl','every column uses the first coefficients','the value of a row is the range of the sum of the polynomials',expect=['C98'])
m('isf9','Solvers.v',"s <- py_add (OItv acc) (OItv e) ;; sum_from s l'","s <- py_add (OItv acc) (OItv e) ;; sum_from e l'",'sum_from','the running sum is dropped','the value of a row is the range of the sum of the polynomials',expect=['C98'])
IO='IspaeFlObj.v'
m('io1',IO,'ITol => f_max (fabs i) (fabs s)','ITol => fabs s','ispae_residual','Tol looks at the upper end of the difference only','C99: Tol non-negative means all values fit')
m('io2',IO,'ITol => f_max (fabs i) (fabs s)','ITol => f_max i s','ispae_residual','absolute values dropped in Tol','C99: Tol non-negative means all values fit')
m('io3',IO,'ITol => f_max (fabs i) (fabs s)','ITol => f_mig i s','ispae_residual','Tol computed with the mignitude (as Uni)','C99: Tol non-negative means all values fit')
m('io4',IO,'IUni => f_mig i s','IUni => f_max (fabs i) (fabs s)','ispae_residual','Uni computed with the magnitude (as Tol)','C99: Uni negative means no value fits')
m('io5',IO,'q0 <- rad y ;;','q0 <- wid y ;;','ispae_residual','the width taken for the radius','C99: Tol non-negative means all values fit')
m('io6',IO,'c <- mid y ;;','let c := lo y in','ispae_residual','the lower end taken for the midpoint','C99: signs of Tol and Uni')
m('io7',IO,'i <- mlift (to_double (lo D)) ;; s <- mlift (to_double (hi D)) ;;','i <- mlift (to_double (hi D)) ;; s <- mlift (to_double (hi D)) ;;','ispae_residual','upper end used for both ends','C99: Tol non-negative means all values fit')
m('io8',IO,'(fsub mode_NE q (match','(fadd mode_NE q (match','ispae_residual','radius plus distance','C99: Tol negative means a value leaves')
m('io9',IO,'D <- py_sub (ONum c) V ;;','D <- py_add (ONum c) V ;;','ispae_residual','midpoint plus value','C99: signs')
m('io10',IO,'(r_x _ r, fneg (r_f _ r))','(r_x _ r, r_f _ r)','ispae_fit_fl','the sign of fr not changed back','C99_fit: fr is the value of the objective')
m('io11',IO,'Ok v => fneg v | Err','Ok v => v | Err','ispae_fit_fl','the objective is minimized instead of maximized','C99_fit: fr is the value of the objective')
m('io12',IO,'mapM (ispae_residual beta) rows','mapM (ispae_residual beta) (tl rows)','ispae_value','the first observation is skipped','C99: every row fits')
m('io13',IO,'(r_x _ r, fneg (r_f _ r))','(x0, fneg (r_f _ r))','ispae_fit_fl','the starting point reported as xr','C99_fit: fr belongs to xr')
m('io14','IspaeFlObj.v','wrap_norm_fl csum nm','wrap_norm_fl csum (match nm with Models.NInf => Models.NL1 | x => x end)','ispae_value','the norm argument ignored (sum always)','C99: every row fits')
m('ip1','IspaeFlPred.v','(seq 1 o)','(seq 0 o)','expand_fl','powers counted from degree zero','C99: predictions contain the values of the model')
m('ip2','IspaeFlPred.v','(seq 1 o)','(seq 2 o)','expand_fl','powers counted from degree two','C99: predictions contain the values of the model')
m('ip3','IspaeFlPred.v','mret (vs ++ ws)','mret (ws ++ vs)','expand_fl','columns expanded in the opposite order','C99: predictions contain the values of the model')
m('ip4','IspaeFlPred.v','repeat f0 (Nat.pred d) ++ [f1]','repeat f1 (Nat.pred d) ++ [f1]','monomial','lower powers included in a power','C99: predictions contain the values of the model')
m('ip5','IspaeFlPred.v','(map (fun c => ONum (PFlt c)) beta)','(map (fun c => ONum (PFlt c)) (rev beta))','predict_fl','coefficients in the opposite order','C99: predictions contain the values of the model')
m('ip6','IspaeFlPred.v','(fun d => col_fl (roots (monomial d)) (monomial d) l u)','(fun d => col_fl (roots (monomial d)) (monomial d) l l)','expand_fl','upper end of the column ignored','C99: predictions contain the values of the model')
m('rg1','RecogOpt.v','Definition nonneg (a : flt) : bool := flt_leb f0 a.','Definition nonneg (a : flt) : bool := flt_leb a f0.','nonneg','the sign of x tested the other way','C93: directions of Tol and Uni')
m('rg2','RecogOpt.v','(if up then w else fneg w)','(if up then fneg w else w)','ends_grad','sign of the direction exchanged','C93: directions of Tol and Uni')
m('rg3','RecogOpt.v','l <~ end_row (if Bool.eqb up tol then lo else hi) A mc k','l <~ end_row (if Bool.eqb up tol then hi else lo) A mc k','ends_grad','the same end for both signs of x','C93: directions of Tol and Uni')
m('rg4','RecogOpt.v','let up := flt_leb (fneg (f_get i [mc])) (f_get s [mc]) in','let up := flt_leb (f_get s [mc]) (fneg (f_get i [mc])) in','ends_grad','the smaller side of the residual chosen','C93: directions of Tol and Uni')
m('rg5','RecogOpt.v','(fmul mode_NE e (f_get C [mc; k])))) (seq 0 n))','(fmul mode_NE e (f_get C [mc; k])))) (seq n 0))','uss_grad','empty direction','C93: direction of Uss')
m('rg6','RecogOpt.v','(fmul mode_NE (f_sign (nth k x f0)) (f_get G [mc; k]))','(f_get G [mc; k])','uss_grad','sign of x dropped in the direction','C93: direction of Uss')
m('rg7','RecogOpt.v','if flt_ltb f0 a then f1 else if flt_ltb a f0 then fneg f1 else f0','if flt_ltb f0 a then f1 else if flt_ltb a f0 then f1 else f0','f_sign','sign of negative numbers is 1','C93: direction of Uss')
m('rg8','WilsFl.v','Models.OTol => ends_grad fdot true','Models.OTol => ends_grad fdot false','diff_fl','the direction of Uni used for Tol','C93: directions of WILS')
m('rg9','RecogOpt.v','(fmul mode_NE u (if nonneg a then f0 else f1))','(fmul mode_NE u (if nonneg a then f0 else f0))','by_sign','upper end dropped','C93: directions of Tol and Uni')
m('rg10','RecogOpt.v','(fun x => uni_calc fdot A b x weight) (ends_grad fdot false A b weight) x0','(fun x => uni_calc fdot A b x weight) (ends_grad fdot true A b weight) x0','uni_maximize_fl','Uni searches along the direction of Tol','C93: the optimizer is given the direction')
m('rg11','RecogOpt.v','| Ok (t, g) => (fneg t, map fneg g)','| Ok (t, g) => (fneg t, g)','objective','direction not negated','C93: the optimizer is given the direction')
m('rp1','RecogOptCon.v','(seq 0 (length x))','(seq 1 (length x))','penalty_fl','components of the direction shifted by one','C94: direction of the penalty')
m('rp2','RecogOptCon.v','if beyond x row then nth k (fst row) f0 else f0','nth k (fst row) f0','part_fl','rows that hold are penalised in the direction','C94: direction of the penalty')
m('rp3','RecogOptCon.v','map (fun k => fmul mode_NE mu (csum (map (part_fl x k) rows)))','map (fun k => csum (map (part_fl x k) rows))','penalty_fl','mu missing in the direction','C94: direction of the penalty')
m('rp4','RecogOptCon.v','l_map2 (fadd mode_NE) g dp','l_map2 (fsub mode_NE) g dp','objective_con','direction of the penalty subtracted','C94: the optimizer is given the direction')
m('rp5','RecogOptCon.v','(fadd mode_NE f p, l_map2 (fadd mode_NE) g dp)','(fadd mode_NE f p, g)','objective_con','direction of the penalty forgotten','C94: the optimizer is given the direction')
m('rw1','WilsFl.v','seq 0 (length l))','seq 1 (length l))','wrap_norm_fl','the first row left out of the direction','C97: the optimizer is given the direction')
m('rw2','WilsFl.v','sum_diffs diff (l_map2 (fadd mode_NE) acc d) l','sum_diffs diff d l','sum_diffs','only the direction of the last row kept','C97: the optimizer is given the direction')
json.dump(M,open('/verif/seeded/mutants.json','w'),indent=1)
print(len(M))
