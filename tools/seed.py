#!/usr/bin/env python3
"""Apply one edit to a scratch copy of the model and report what no longer proves.
usage: seed.py FILE.json   (list of {file, def, old, new, claim, tightened?})
Appends one line per edit to seeded/LOG.jsonl."""
import json, sys, os, shutil, subprocess, re
root = os.path.join(os.path.dirname(os.path.abspath(__file__)), "..")
scratch = "/tmp/seed"
def order():
    return [l.strip() for l in open(os.path.join(scratch, "_CoqProject")) if l.strip().endswith(".v")]
def deps(f):
    t = open(os.path.join(scratch, f)).read()
    r = []
    for m in re.finditer(r"From Verif Require (?:Import |Export )?([^.]*)\.", t):
        r += ["theories/%s.v" % x for x in m.group(1).split()]
    return r
def enclosing(f, line):
    name = None
    for i, l in enumerate(open(os.path.join(scratch, f)), 1):
        if i > line: break
        m = re.match(r"\s*(?:Theorem|Lemma|Example|Corollary|Definition|Fixpoint|Fact)\s+([\w']+)", l)
        if m: name = m.group(1)
    return name
def thms_of(files):
    out = []
    for f in files:
        out += re.findall(r"^(?:Theorem)\s+(C\d\d+\w*)", open(os.path.join(scratch, f)).read(), re.M)
    return out
def run(e):
    shutil.rmtree(scratch, ignore_errors=True)
    shutil.copytree(os.environ.get("SEED_SRC", os.path.join(root, "rocq")), scratch)
    p = os.path.join(scratch, "theories", e["file"])
    s = open(p).read()
    at = s.find(e["after"]) if "after" in e else 0
    n = s.count(e["old"], at) if at >= 0 else 0
    if n < 1 or (n > 1 and not (e.get("first") or "after" in e)):
        print("BAD EDIT", e["def"], n); return
    open(p, "w").write(s[:at] + s[at:].replace(e["old"], e["new"], 1))
    props, admitted = [], set()
    dirty, failed, blocked = {"theories/" + e["file"]}, [], []
    for f in order():
        ds = deps(f)
        if any(d in blocked or d in [x for x, _ in failed] for d in ds):
            blocked.append(f); continue
        if f in dirty or any(d in dirty for d in ds):
            dirty.add(f)
            # drop failing items one after the other so that every theorem is tried
            names = []
            while True:
                r = subprocess.run(["timeout", "900", "coqc", "-Q", "theories", "Verif", f], cwd=scratch,
                                   capture_output=True, text=True)
                if r.returncode == 0: break
                m = re.search(r'line (\d+), characters', r.stderr)
                if not m: names.append("?" + r.stderr[-200:]); break
                ln = int(m.group(1)); nm = enclosing(f, ln); names.append(nm)
                q = os.path.join(scratch, f); t = open(q).read().split("\n")
                # replace this item's proof by an Admitted in the scratch copy
                st = next((i for i in range(ln - 1, -1, -1)
                           if re.match(r"\s*(Theorem|Lemma|Example|Corollary|Fact)\s", t[i])), None)
                if st is None: names.append("(stuck)"); break
                pr = next((i for i in range(st, len(t)) if re.search(r"\bProof\b", t[i])), None)
                qe = next((i for i in range(pr or st, len(t)) if re.search(r"\b(Qed|Defined)\.", t[i])), None)
                if pr is None or qe is None or pr > ln: names.append("(statement)"); break
                head = t[pr].split("Proof")[0]
                t[pr:qe + 1] = [head, "Admitted."] + [""] * (qe - pr - 1)
                open(q, "w").write("\n".join(t))
            admitted.update(n for n in names if n)
            pa = re.findall(r"^Print Assumptions ([\w']+)\.", open(os.path.join(scratch, f)).read(), re.M)
            out = re.split(r"^(?=Closed under|Axioms:)", r.stdout, flags=re.M)[1:]
            for nm, o in zip(pa, out):
                if nm in admitted or any(re.search(r"^(?:\w+\.)*%s\b" % re.escape(a), o, re.M) for a in admitted):
                    props.append(nm)
            if names:
                e.setdefault("fails", []).append({"file": os.path.basename(f), "items": names})
                if r.returncode != 0: failed.append((f, names))
    e["survives"] = not e.get("fails")
    rec = {"definition": e["def"], "file": e["file"], "edit": {"old": e["old"], "new": e["new"]},
           "claim_broken": e["claim"],
           "theorems_failed": props,
           "items_failed": [x for g in e.get("fails", []) for x in g["items"]],
           "not_rebuilt": [os.path.basename(b) for b in blocked],
           "theorems_tightened": e.get("tightened", [])}
    if e.get("note"): rec["note"] = e["note"]
    print(json.dumps(rec)[:600]); print()
    open(os.path.join(root, "seeded/LOG.jsonl"), "a").write(json.dumps(rec) + "\n")
for e in json.load(open(sys.argv[1])): run(e)
