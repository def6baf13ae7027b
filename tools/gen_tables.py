#!/usr/bin/env python3
"""Decode /repo/utide/data/ut_constants.npz (numpy pickles, read without numpy) into
rocq/theories/M_Tables.v.  Binary64 values are emitted as exact rationals."""
import zipfile, pickle, struct, io, math, os
from fractions import Fraction
class ND:
    def __init__(s, *a): pass
    def __setstate__(s, st): s.st = st
class DT:
    def __init__(s, *a): s.a = a
    def __setstate__(s, st): s.st = st
class Bn(dict):
    pass
class U(pickle.Unpickler):
    def find_class(s, m, n):
        if n == '_reconstruct': return lambda *a: ND()
        return {'ndarray': ND, 'dtype': DT, 'Bunch': Bn}[n]
def conv(x):
    if isinstance(x, dict): return {k: conv(v) for k, v in x.items()}
    if not isinstance(x, ND): return x
    ver, shape, dt, fort, raw = x.st
    d = dt.a[0]
    if d.startswith('O'): return [conv(v) for v in raw][0]
    b = raw if isinstance(raw, bytes) else raw.encode('latin1')
    if d.startswith('U'):
        n = int(d[1:]); assert dt.st[1] == '<'
        data = [b[i*4*n:(i+1)*4*n].decode('utf-32-le').rstrip('\0') for i in range(len(b)//(4*n))]
    else:
        c = {'f8': 'd', 'u1': 'B', 'i2': 'h'}[d]; assert dt.st[1] in '<|'
        data = list(struct.unpack('<%d%s' % (len(b)//struct.calcsize('='+c), c), b))
    if len(shape) == 2:
        r, k = shape
        data = [[data[j*r+i] if fort else data[i*k+j] for j in range(k)] for i in range(r)]
    return data
z = zipfile.ZipFile('/repo/utide/data/ut_constants.npz')
def load(n):
    b = z.read(n); assert b[:6] == b'\x93NUMPY'
    hl = struct.unpack('<H', b[8:10])[0]
    return conv(U(io.BytesIO(b[10+hl:]), encoding='latin1').load())
C, S, H = load('const.npy'), load('sat.npy'), load('shallow.npy')
def q(x):
    f = Fraction(x)
    return "(%d#%d)" % (f.numerator, f.denominator)
def oq(x): return "None" if math.isnan(x) else "Some %s" % q(x)
def nat(x): assert x == int(x) and x >= 0; return "%d" % x
def onat(x): return "None" if math.isnan(x) else "Some %s" % nat(x)
def zz(x): assert x == int(x); return "(%d)" % x if x < 0 else "%d" % x
def zrow(r): return "[" + ";".join(zz(x) for x in r) + "]"
def ozrow(r):
    n = [math.isnan(x) for x in r]
    if all(n): return "None"
    assert not any(n); return "Some " + zrow(r)
def st(s): return '"%s"' % s
out = []
def d(name, ty, f, data, scope, cite):
    out.append("(** %s (%d entries) *)" % (cite, len(data)))
    lines, cur = [], ""
    for x in data:
        t = f(x) + "; "
        if len(cur) + len(t) > 110: lines.append(cur); cur = ""
        cur += t
    lines.append(cur.rstrip("; "))
    out.append("Definition %s : list (%s) := [\n  %s\n]%%%s.\n" % (name, ty, "\n  ".join(lines), scope))
F = "utide/data/ut_constants.npz, "
d("const_name_raw", "string", st, C['name'], "string", F+"const.name (fixed width, blank padded)")
d("const_freq", "Q", q, C['freq'], "Q", F+"const.freq, cycles per hour")
d("const_df", "Q", q, C['df'], "Q", F+"const.df")
d("const_ikmpr", "option nat", onat, C['ikmpr'], "nat", F+"const.ikmpr, 1-based; None = NaN")
d("const_semi", "option Q", oq, C['semi'], "Q", F+"const.semi; None = NaN")
d("const_doodson", "option (list Z)", ozrow, C['doodson'], "Z", F+"const.doodson rows; None = a row of NaN")
d("const_ishallow", "option nat", onat, C['ishallow'], "nat", F+"const.ishallow, 1-based; None = NaN")
d("const_nshallow", "option nat", onat, C['nshallow'], "nat", F+"const.nshallow; None = NaN")
d("sat_iconst", "nat", nat, S['iconst'], "nat", F+"sat.iconst, 1-based")
d("sat_deldood", "list Z", zrow, S['deldood'], "Z", F+"sat.deldood rows")
d("sat_phcorr", "Q", q, S['phcorr'], "Q", F+"sat.phcorr, cycles")
d("sat_amprat", "Q", q, S['amprat'], "Q", F+"sat.amprat")
d("sat_ilatfac", "nat", nat, S['ilatfac'], "nat", F+"sat.ilatfac")
d("shallow_iconst", "nat", nat, H['iconst'], "nat", F+"shallow.iconst, 1-based")
d("shallow_iname", "nat", nat, H['iname'], "nat", F+"shallow.iname, 1-based")
d("shallow_coef", "Q", q, H['coef'], "Q", F+"shallow.coef")
hdr = """(** Generated by tools/gen_tables.py from /repo/utide/data/ut_constants.npz; do not edit.
    Every binary64 value is given exactly, as a rational number. *)
From Coq Require Import List String ZArith QArith.
Import ListNotations.

"""
open(os.path.join(os.path.dirname(os.path.abspath(__file__)), "../rocq/theories/M_Tables.v"), "w").write(hdr + "\n".join(out))
