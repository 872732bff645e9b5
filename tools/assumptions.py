#!/usr/bin/env python3
"""Write ASSUMPTIONS.md: what Print Assumptions lists for each theorem of MANIFEST.json.
Needs the compiled files in rocq/theories."""
import json, os, re, subprocess, collections
here = os.path.dirname(os.path.abspath(__file__)); top = os.path.join(here, "..")
th = os.path.join(top, "rocq", "theories")
names = []
for c in json.load(open(os.path.join(top, "MANIFEST.json")))["claims"]:
    for t in c["theorems"]: names.append((c["property"], t))
where = {}
for f in sorted(os.listdir(th)):
    if f.endswith(".v"):
        for m in re.finditer(r"^\s*(?:Theorem|Lemma|Corollary)\s+([A-Za-z0-9_']+)", open(os.path.join(th, f)).read(), re.M):
            where.setdefault(m.group(1), f[:-2])
bymod = collections.OrderedDict()
for p, t in names: bymod.setdefault(where[t], []).append((p, t))
res = {}
for mod, ts in bymod.items():
    src = "From Verif Require %s.\n" % mod + "".join("Print Assumptions Verif.%s.%s.\n" % (mod, t) for _, t in ts)
    v = "/tmp/assum_%s.v" % mod
    open(v, "w").write(src)
    out = subprocess.run(["coqc", "-q", "-R", th, "Verif", v], capture_output=True, text=True)
    if out.returncode: raise SystemExit(mod + ": " + out.stderr)
    blocks = re.split(r"(?m)^(?=Axioms:|Closed under)", out.stdout)[1:]
    assert len(blocks) == len(ts), (mod, len(blocks), len(ts))
    for (_, t), b in zip(ts, blocks):
        res[t] = [] if b.startswith("Closed") else re.findall(r"(?m)^([A-Za-z_][\w.']*)\s*(?=:|\n\s+:)", b.split("\n", 1)[1])
short = {}
with open(os.path.join(top, "ASSUMPTIONS.md"), "w") as f:
    f.write("# What `Print Assumptions` lists for each theorem\n\nWritten by `tools/assumptions.py`. All axioms are of Coq's standard library:\n\n")
    allax = sorted({a for l in res.values() for a in l})
    for n, a in enumerate(allax):
        short[a] = "A%d" % (n + 1); f.write("* A%d: `%s`\n" % (n + 1, a))
    f.write("\n| Property | Theorem | File | Axioms |\n|---|---|---|---|\n")
    for p, t in names:
        f.write("| %s | `%s` | `%s.v` | %s |\n" % (p, t, where[t], ", ".join(short[a] for a in sorted(res[t])) or "closed under the global context"))
print(len(names), allax)
