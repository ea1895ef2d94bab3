import re,glob,sys
src={}
for f in glob.glob('/verif/rocq/theories/*.v'):
    t=open(f).read()
    for m in re.finditer(r'(?:Lemma|Theorem)\s+(\w+)((?:(?!\nLemma|\nTheorem).)*?)(?:\n| )Proof',t,re.S):
        src.setdefault(m.group(1),m.group(2))
def thm(name,lemma,proof=None):
    """Theorem from lemma: binders before first ':' at depth 0."""
    b=src[lemma]
    d=0;i=0
    while True:
        c=b[i]
        if c in '([{': d+=1
        elif c in ')]}': d-=1
        elif c==':' and d==0: break
        i+=1
    binders=b[:i].strip(); st=b[i+1:].strip().rstrip('.').strip()
    q=('forall '+binders+', ') if binders else ''
    if binders and '\n' in st and not st.startswith('exists'): pass
    return f"Theorem {name} : {q}{st}.\nProof. exact {proof or lemma}. Qed.\nPrint Assumptions {name}.\n"
