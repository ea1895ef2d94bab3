"""Documented.v: the model run on the examples /repo itself documents
(test/test_basic.py, test/interval_properties.py, doc/src/*.rst,
test/optimization/intvalpy_result.txt)."""
import re, sys
from fractions import Fraction

def num(s):
    s = s.strip()
    if re.fullmatch(r'-?\d+', s): return f'(PInt ({s}))'
    f = Fraction(float(s))
    if f == 0: return 'Zf'
    m, d = f.numerator, f.denominator
    e = d.bit_length() - 1
    while m % 2 == 0: m //= 2; e -= 1
    return f'(F ({m}) ({-e}))'

OPS = {'+': 'py_add', '-': 'py_sub', '*': 'py_mul', '/': 'py_div'}
IV = r'Interval\(\s*([^,()\[\]]+),\s*([^,()\[\]]+?)(,\s*sortQ=False)?\s*\)'

def operand(s):
    m = re.fullmatch(IV, s.strip())
    if m: return f'(I {num(m[1])} {num(m[2])} {"false" if m[3] else "true"})'
    return f'(N {num(s)})'

def binary():
    out = []
    for n, line in enumerate(open('/repo/test/test_basic.py', encoding='utf8'), 1):
        t = line.split('#')[0].strip()
        if not t.startswith('assert') or '==' not in t or '@' in t: continue
        l, r = t[len('assert'):].split('==')
        m = re.fullmatch(rf'({IV})\s*\*\*\s*(-?\d+)', l.strip())
        if m:
            out.append(f'  Pow {operand(m[1])} {num(m[5])} {operand(r)}')
            continue
        m = re.fullmatch(rf'({IV}|-?[\d.]+)\s*([-+*/])\s*({IV}|-?[\d.]+)', l.strip())
        if '0.2' in r: continue   # test_div_inexact
        g = m.groups()
        out.append(f'  Bin {OPS[g[4]]} {operand(g[0])} {operand(g[5])} {operand(r)}')
    return out

def props():
    out = []
    for line in open('/repo/test/interval_properties.py', encoding='utf8'):
        t = line.strip()
        if not t.startswith('assert') or '.all()' in t or '==' not in t: continue
        l, r = t[len('assert'):].split('==')
        m = re.fullmatch(rf'({IV})\.(\w+)', l.strip())
        if not m: continue
        out.append(f'  Att A{m[5]} {operand(m[1])} {operand(r)}')
    return out

head = open('/verif/tools/documented_head.txt').read()
print(head.replace('(*BINARY*)', ';\n'.join(binary())).replace('(*PROPS*)', ';\n'.join(props())))
