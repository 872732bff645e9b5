#!/usr/bin/env python3
"""Generate the boundary functions of rocq/theories/BvalsModel.v from src/bvals_mhd.c.

The loops of reflect_*, outflow_*, periodic_*, conduct_*, pack_* and unpack_* are
transcribed one by one (configuration: MHD defined, BAROTROPIC not defined).  The result is
committed; this script only documents how the transcription was made.
"""
import re, sys
SRC = "/repo/src/bvals_mhd.c"
lines = open(SRC).read().split("\n")

def functions():
    out = []
    for n, l in enumerate(lines):
        m = re.match(r"static void (\w+)\(GridS \*pG(rid)?\)$", l)
        if m:
            e = n
            while lines[e] != "}":
                e += 1
            out.append((m.group(1), n + 1, e + 1, lines[n + 2:e]))
    return out

def preprocess(body):
    """take the MHD, non-barotropic branch; drop comments"""
    txt, skip = [], []
    for l in body:
        s = l.strip()
        if s.startswith("#if"):
            skip.append(False)
            continue
        if s.startswith("#endif"):
            skip.pop(); continue
        txt.append(l)
    t = "\n".join(txt)
    t = re.sub(r"/\*.*?\*/", "", t, flags=re.S)
    t = re.sub(r"\bint [^;]*;", "", t)
    t = re.sub(r"double \*p(Snd|Rcv);", "", t)
    t = t.replace("return;", "")
    return t

def ex(e):
    return re.sub(r"\s+", "", e).replace("nghost", "ng").replace("+", " + ").replace("-", " - ").replace("( - ", "(-")

def parse(t):
    """-> list of nodes: ('for',v,lo,hi,[nodes]) | ('stm',text) | ('ju',v)"""
    pos = 0
    def ws():
        nonlocal pos
        while pos < len(t) and t[pos].isspace():
            pos += 1
    def node():
        nonlocal pos
        ws()
        m = re.match(r"for \((\w)=([^;]*); \w<=([^;]*); \w\+\+\)\s*\{", t[pos:])
        if m:
            pos += m.end()
            ns = block()
            return ("for", m.group(1), ex(m.group(2)), ex(m.group(3)), ns)
        m = re.match(r"if \(pG(rid)?->Nx\[(\d)\] > 1\) (\w+)=([^;]*); else (\w+)=([^;]*);", t[pos:])
        if m:
            pos += m.end()
            return ("up", m.group(3), int(m.group(2)), ex(m.group(4)), ex(m.group(6)))
        m = re.match(r"for \(n=0; n<NSCALARS; n\+\+\) [^;]*;", t[pos:])
        if m:
            pos += m.end()
            return ("scal",)
        m = re.match(r"[^;{}]*;", t[pos:])
        assert m, t[pos:pos + 80]
        pos += m.end()
        return ("stm", re.sub(r"\s+", "", m.group(0)[:-1]))
    def block():
        nonlocal pos
        ns = []
        while True:
            ws()
            if pos >= len(t):
                return ns
            if t[pos] == "}":
                pos += 1
                return ns
            ns.append(node())
    return block()

IDX = r"pG(?:rid)?->(U|B1i|B2i|B3i)\[([^\]]*)\]\[([^\]]*)\]\[([^\]]*)\]"
def idx(m, o=0):
    return "(%s, %s, %s)" % (ex(m[1 + o]), ex(m[2 + o]), ex(m[3 + o]))

def bc_stms(stms):
    """assignments of one loop body -> (array, gallina list text)"""
    res, arr, i = [], None, 0
    while i < len(stms):
        s = stms[i]
        m = re.fullmatch(IDX + "=0.0", s)
        if m:
            arr = m.group(1); res.append("(%s, Const zero)" % idx(m.groups())); i += 1; continue
        m = re.fullmatch(IDX + "=(-?)" + IDX, s)
        assert m, s
        g = m.groups(); arr = g[0]
        assert g[0] == g[5]
        t, src = idx(g), idx(g, 5)
        i += 1
        if arr == "U":
            f = "c"
            while i < len(stms):
                m2 = re.fullmatch(IDX + r"\.(\w+)=-" + IDX + r"\.(\w+)", stms[i])
                if not m2:
                    break
                h = m2.groups()
                assert idx(h) == t and idx(h, 5) == t and h[4] == h[9], stms[i]
                f = "neg_%s %s" % (h[4], f if f == "c" else "(%s)" % f)
                i += 1
            res.append("(%s, Copy %s %s)" % (t, src, "same" if f == "c" else "(fun c => %s)" % f))
        else:
            res.append("(%s, Copy %s %s)" % (t, src, "neg" if g[4] == "-" else "same"))
    return arr, "[" + "; ".join(res) + "]"

def bc_nodes(ns, ind):
    parts, arr, stms = [], None, []
    def flush():
        nonlocal arr, stms
        if stms:
            arr, txt = bc_stms(stms); parts.append(txt); stms = []
    for n in ns:
        if n[0] == "stm":
            stms.append(n[1])
        else:
            flush()
            a, txt = bc_nodes(n[4], ind + "  ")
            arr = a
            parts.append("for_ (%s) (%s) (fun %s =>\n%s  %s)" % (n[2], n[3], n[1], ind, txt))
    flush()
    return arr, " ++ ".join(parts)

FLD = {"U": "fU", "B1i": "fB1", "B2i": "fB2", "B3i": "fB3"}
HEAD = ("  let ng := g_ng G in let is := g_is G in let ie := g_ie G in let js := g_js G in let je := g_je G in\n"
        "  let ks := g_ks G in let ke := g_ke G in\n")
def ups(ns):
    return "".join("  let %s := if (g_N%d G >? 1) then %s else %s in\n" % (n[1], n[2] + 1, n[3], n[4]) for n in ns if n[0] == "up")

def gen_bc(name, a, b, body):
    ns = parse(preprocess(body))
    per = {"U": [], "B1i": [], "B2i": [], "B3i": []}
    for n in ns:
        if n[0] == "for":
            arr, txt = bc_nodes([n], "    ")
            per[arr].append(txt)
    out = "(** src/bvals_mhd.c:%d-%d *)\nDefinition %s (G : geom) : prog :=\n" % (a, b, name) + HEAD + ups(ns)
    out += "  Prog\n" + "\n".join("    (%s)" % (" ++\n    ".join(per[k])) for k in per) + ".\n"
    return out

def pk_nodes(n, leaf):
    if n[0] == "for":
        inner = n[4]
        if inner[0][0] == "for":
            assert len(inner) == 1
            return "for_ (%s) (%s) (fun %s => %s)" % (n[2], n[3], n[1], pk_nodes(inner[0], leaf))
        return "for_ (%s) (%s) (fun %s => %s)" % (n[2], n[3], n[1], leaf(inner))
    assert False

ORDER = ["d", "M1", "M2", "M3", "E", "B1c", "B2c", "B3c"]
def leaf(pat1, pat2):
    def go(stms):
        if len(stms) == 1:
            m = re.fullmatch(pat1, stms[0][1]); assert m
            return "[%s]" % idx(m.groups())
        names, ix = [], None
        for s in stms:
            if s[0] == "scal":
                names.append("s"); continue
            m = re.fullmatch(pat2, s[1]); assert m, s
            ix = idx(m.groups()); names.append(m.group(5))
        assert names == ORDER + ["s"], names
        return "[%s]" % ix
    return go
pack_leaf = leaf(r"\*\(pSnd\+\+\)=" + IDX, r"\*\(pSnd\+\+\)=" + IDX + r"\.(\w+)")
unpack_leaf = leaf(IDX + r"=\*\(pRcv\+\+\)", IDX + r"\.(\w+)=\*\(pRcv\+\+\)")

def gen_pack(name, a, b, body):
    ns = [n for n in parse(preprocess(body)) if n[0] in ("for", "up")]
    out = "(** src/bvals_mhd.c:%d-%d *)\nDefinition %s (G : geom) : visit :=\n" % (a, b, name) + HEAD + ups(ns)
    fs = [n for n in ns if n[0] == "for"]
    assert len(fs) == 4
    lf = pack_leaf if name.startswith("pack") else unpack_leaf
    return out + "  Visit\n    (" + ")\n    (".join(pk_nodes(n, lf) for n in fs) + ").\n"
gen_unpack = gen_pack

HEADER = open(sys.argv[1]).read()
FOOTER = open(sys.argv[2]).read()
res = []
for name, a, b, body in functions():
    if re.match(r"(reflect|outflow|periodic|conduct)_", name):
        res.append(gen_bc(name, a, b, body))
    elif name.startswith("pack_"):
        res.append(gen_pack(name, a, b, body))
    elif name.startswith("unpack_"):
        res.append(gen_unpack(name, a, b, body))
sys.stdout.write(HEADER + "\n".join(res) + FOOTER)
