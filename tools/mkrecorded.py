#!/usr/bin/env python3
"""Translate the recorded test run of the library
(/repo/test/unittests_ITF1788: the tests and test_results.txt, the log of a run
of the pinned code) into /verif/rocq/theories/Recorded.v, where the model is run
on the same inputs."""
import ast,glob,re,math,sys
D='/repo/test/unittests_ITF1788/'
t=open(D+'test_results.txt','rb').read().decode('utf-16',errors='replace').replace('\r','')
j=re.sub(r'(?<=[^\n]{119})\n','',t)          # long lines are folded at column 120
out={}
for m in re.finditer(r'\((\w+)\.(TestCase_\w+)\.(\w+)\) \.\.\. (\w+)',j): out[m.groups()[:3]]=m.group(4)
det={}
for blk in j.split('='*70)[1:]:
    h=re.match(r'\n(?:ERROR|FAIL): \w+ \((\w+)\.(TestCase_\w+)\.(\w+)\)',blk)
    if not h: continue
    ls=[l for l in blk.split('\n') if re.match(r'^\w*(Error|Exception)\b',l)]
    det[h.groups()]=ls[-1]
class Skip(Exception): pass
def directed_log(x,up):
    """the double next to ln(x) from above or below"""
    import decimal
    if x==math.inf: return x
    decimal.getcontext().prec=80
    D_=decimal.Decimal; y=D_(x).ln(); f=math.log(x)
    if y==0: return 0.0
    while (D_(f)<y if up else D_(f)>y): f=math.nextafter(f,math.inf if up else -math.inf)
    while (D_(math.nextafter(f,-math.inf))>=y if up else D_(math.nextafter(f,math.inf))<=y): f=math.nextafter(f,-math.inf if up else math.inf)
    return f
def num(v):
    if isinstance(v,int): return f'(PInt {v})' if v>=0 else f'(PInt ({v}))'
    if v!=v: return 'NaN'
    if v==math.inf: return 'Inf'
    if v==-math.inf: return 'NInf'
    if v==0: return 'Z0' if math.copysign(1,v)>0 else 'NZ0'
    m,e=math.frexp(v); m=int(m*2**53); e-=53
    while m%2==0: m//=2; e+=1
    z=lambda k: str(k) if k>=0 else f'({k})'
    return f'(F {z(m)} {z(e)})'
env={'math':math,'inf':math.inf,'nan':math.nan,'float':float,'ip':type('ip',(),{'nan':math.nan})}
def val(n): return eval(compile(ast.Expression(n),'t','eval'),env)
def isI(n): return isinstance(n,ast.Call) and ast.unparse(n.func)=='Interval'
def itv(n):
    if not isI(n): raise Skip
    return '('+' '.join(num(val(a)) for a in n.args)+')'
def itvs(n): return 'J '+' '.join(num(val(a)) for a in n.args)
# the cosine of this argument is one unit off in the recorded run
UCRT={1.5707963267948968:math.nextafter(math.cos(1.5707963267948968),-1),-1.5707963267948968:math.nextafter(math.cos(1.5707963267948968),-1)}
args={'sin':set(),'cos':set(),'exp':set(),'log':set()}
def call(n):
    if isinstance(n,ast.BinOp):
        o={'Add':'Add','Sub':'Sub','Mult':'Mul','Div':'Div'}[type(n.op).__name__]
        return f'{o} ({itvs(n.left)}) ({itvs(n.right)})'
    if isinstance(n,ast.UnaryOp) and isI(n.operand): return f'Neg ({itvs(n.operand)})'
    if isinstance(n,ast.Attribute) and isI(n.value): return f'Get {"G"+n.attr} ({itvs(n.value)})'
    if isinstance(n,ast.Call):
        f=ast.unparse(n.func)
        if f=='abs': return f'Abs ({itvs(n.args[0])})'
        if f=='ip.intersection': return f'Cap ({itvs(n.args[0])}) ({itvs(n.args[1])})'
        if f in('ip.sin','ip.cos','ip.exp','ip.log','ip.sqrt'):
            f=f[3:]; a=[val(x) for x in n.args[0].args]
            if f=='sqrt':
                l=[directed_log(x,up) for x,up in ((max(a[0],0.0),False),(a[1],True)) if x>0]
                for x in (max(a[0],0.0),a[1]):
                    if x>0: args['log'].add(x)
                for x in l+[-math.inf]: args['exp'].add(0.5*x)
            elif f=='log':
                for x in a+[max(a[0],0.0)]:
                    if x>0: args['log'].add(x)
            else:
                for x in a: args[f].add(x)
            return f'Fun F{f} ({itvs(n.args[0])})'
    raise Skip
def printed(s):
    v=float(s); return num(v)
rows=[];skipped=[]
for f in sorted(glob.glob(D+'*.py')):
    mod=f.split('/')[-1][:-3]
    for c in ast.parse(open(f).read()).body:
        if not isinstance(c,ast.ClassDef): continue
        for d in c.body:
            if not isinstance(d,ast.FunctionDef): continue
            k=(mod,c.name,d.name); l,r=d.body[0].value.args; o=out.get(k)
            try:
                cl=call(l); ex='WI ('+itvs(r)+')' if isI(r) else 'WN '+num(val(r))
            except Skip: skipped.append(k); continue
            if o=='ok': oc='Passed'
            elif o=='FAIL':
                g=det[k].split(': ',1)[1].split(' != ')[0]
                m=re.match(r"'\[(\S+), (\S+)\]'",g)
                oc=f'Shown {printed(m.group(1))} {printed(m.group(2))}' if m else f'Valued {printed(g)}'
            elif o=='ERROR': oc='Raised '+det[k].split(':')[0]
            else: skipped.append(k); continue
            rows.append((k,cl,ex,oc))
if __name__=='__main__':
    print(len(rows),len(skipped),skipped,file=sys.stderr)
    G={}
    for k,cl,ex,oc in rows: G.setdefault((k[0],k[1]),[]).append((k[2],cl,ex,oc))
    W=sys.stdout.write
    tab={}
    for f in args:
        g=getattr(math,f); L=[]
        for x in sorted(a for a in args[f] if a==a):
            try: y=g(x)
            except (ValueError,OverflowError): y=math.nan if f in('sin','cos') else math.inf
            if f=='cos' and x in UCRT: y=UCRT[x]
            if f=='log': y=None
            L.append((num(x),num(y)) if y is not None else (num(x),f'({num(directed_log(x,False))}, {num(directed_log(x,True))})'))
        tab[f]=L
    W(open('/verif/tools/recorded_head.txt').read())
    for f in ('sin','cos','exp','log'):
        W(f'Definition t_{f} : list (pynum * {"(pynum * pynum)" if f=="log" else "pynum"}) := [\n  '+';\n  '.join(f'({a}, {b})' for a,b in tab[f])+'].\n')
    names=[]
    for (mod,c),L in G.items():
        nm=(mod+'_'+c.replace('TestCase_','').replace(mod+'_','')).replace('-','_')
        names.append((nm,'elem' if re.search('sin|cos|exp|log|sqrt',c) else 'arith'))
        W(f'(** {mod}.py, {c} *)\nDefinition {nm} : list test := [\n  '+';\n  '.join(f'T ({cl}) ({ex}) ({oc})' if " " in oc else f'T ({cl}) ({ex}) {oc}' for n,cl,ex,oc in L)+'].\n')
    W('(** The functions of the C library, as tables: exp, sin and cos rounded to\n    nearest (cos of the double above pi/2 one unit off, as in the recorded run),\n    log rounded in the current direction. *)\nDefinition look (t : list (pynum * pynum)) (_ : rmode) (x : flt) : flt :=\n  match find (fun p => same (fst p) (PFlt x)) t with Some (_, PFlt y) => y | _ => fnan end.\nDefinition look2 (t : list (pynum * (pynum * pynum))) (m : rmode) (x : flt) : flt :=\n  match find (fun p => same (fst p) (PFlt x)) t, m with\n  | Some (_, (PFlt y, _)), mode_DN => y\n  | Some (_, (_, PFlt y)), mode_UP => y\n  | _, _ => fnan\n  end.\nDefinition tables : libm := Build_libm (look t_exp) (look2 t_log) (look t_sin) (look t_cos) (fun _ _ _ => Err NotImplementedError).\n')
    W('Definition arithmetic_tests : list test :=\n  '+' ++ '.join(n for n,k in names if k=='arith')+'.\n')
    W('Definition elementary_tests : list test :=\n  '+' ++ '.join(n for n,k in names if k=='elem')+'.\n')
    W("""
(** Every one of the recorded runs of the arithmetic, ... *)
Example recorded_arithmetic : forallb (agrees tables) arithmetic_tests = true.
Proof. vm_compute. reflexivity. Qed.
(** ... and, with these tables for the C library, of the elementary functions. *)
Example recorded_elementary : forallb (agrees tables) elementary_tests = true.
Proof. vm_compute. reflexivity. Qed.
""")
    W(f"Example how_many : (length arithmetic_tests, length elementary_tests) = ({sum(len(G[x]) for x in G if not re.search('sin|cos|exp|log|sqrt',x[1]))}, {sum(len(G[x]) for x in G if re.search('sin|cos|exp|log|sqrt',x[1]))})%nat.\nProof. reflexivity. Qed.\n")
