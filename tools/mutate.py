#!/usr/bin/env python3
"""Seeded-bug runner.  usage: mutate.py muts.json [ids...]
Each entry: {"id","file","definition","old","new","claim"}.  For each one the rocq
tree is copied to a scratch directory, the edit applied, and everything rebuilt.
A proof that fails is replaced by Admitted and the build continues, so that Print
Assumptions tells which Props theorems depend on a failed proof.  Prints one JSON
line per mutant: failing lemmas and property theorems."""
import json, sys, re, subprocess, shutil, os
SRC = os.environ.get("MUTSRC", "/verif/rocq"); TOP = os.environ.get("MUTDIR", "/tmp/mut"); DST = TOP + "/rocq"
def run(cmd):
    return subprocess.run(cmd, shell=True, cwd=DST, capture_output=True, text=True)
def listed():
    return [l.strip() for l in open(SRC + "/_CoqProject") if l.strip().endswith(".v")]
def order():
    """the files, each one after those it requires"""
    d = deps(); out = []; seen = set()
    def go(v):
        if v in seen: return
        seen.add(v)
        for x in d.get(v, []): go(x)
        out.append(v)
    for v in listed(): go(v)
    return out
def deps():
    out = subprocess.run("coqdep -Q theories Verif " + " ".join(listed()), shell=True, cwd=SRC, capture_output=True, text=True).stdout
    d = {}
    for l in out.splitlines():
        m = re.match(r"(theories/\w+)\.vo \S.*?: (.*)", l) or re.match(r"(theories/\w+)\.vo[^:]*: (.*)", l)
        if m: d[m.group(1) + ".v"] = [x[:-1] for x in m.group(2).split() if x.endswith(".vo") and x.startswith("theories")]
    return d
def mutate(m, dep):
    if os.path.exists(TOP): shutil.rmtree(TOP)
    shutil.copytree(SRC, DST)
    f = m["file"]; p = DST + "/" + f
    t = open(p).read()
    assert t.count(m["old"]) >= 1, ("old not found", m["id"])
    if t.count(m["old"]) > 1 and "nth" not in m: raise SystemExit("ambiguous " + m["id"])
    if "nth" in m:
        parts = t.split(m["old"]); k = m["nth"]
        t = m["old"].join(parts[:k+1]) + m["new"] + m["old"].join(parts[k+1:])
    else: t = t.replace(m["old"], m["new"])
    open(p, "w").write(t)
    # admit-mode build
    dirty = {f}; failed = []; broken = []
    for v in order():
        if v in dirty or any(x in dirty for x in dep.get(v, [])):
            dirty.add(v)
            for _ in range(400):
                try:
                    r = subprocess.run("ulimit -v 5000000; timeout 300 coqc -Q theories Verif " + v, shell=True, cwd=DST, capture_output=True, text=True)
                except Exception as e:
                    broken.append((v, str(e))); break
                if r.returncode == 0: break
                e = re.search(r'File "\./?(theories/\w+\.v)", line (\d+), characters [^\n]*\n(?!Warning)', r.stderr)
                if not e:
                    broken.append((v, r.stderr[-200:])); break
                ln = int(e.group(2)); lines = open(DST + "/" + v).read().split("\n")
                # enclosing lemma
                s = None
                for i in range(ln - 1, -1, -1):
                    if re.match(r"\s*(Lemma|Theorem|Corollary|Example|Fact|Remark)\b", lines[i]): s = i; break
                q = None
                if s is not None:
                    for i in range(s, len(lines)):
                        if re.search(r"\b(Qed|Defined|Abort|Admitted)\.", lines[i]): q = i; break
                if s is None or q is None or q < ln - 1:
                    broken.append((v, "line %d: %s" % (ln, lines[ln-1][:80]))); break
                name = re.match(r"\s*\w+\s+(\w+)", lines[s]).group(1)
                txt = "\n".join(lines[s:q+1])
                pm = re.search(r"\bProof\b[^.]*\.", txt)
                if not pm or lines[s:q+1][-1].strip().startswith("Admitted"):
                    broken.append((v, name)); break
                head = txt[:pm.start()]
                failed.append(name)
                lines[s:q+1] = (head + "Proof. Admitted.").split("\n")
                open(DST + "/" + v, "w").write("\n".join(lines))
    # which property theorems rest on admitted lemmas
    bad = []
    for v in order():
        if "/Props" in v and v in dirty:
            names = re.findall(r"^(?:Theorem|Corollary) (C\d+\w+)", open(DST + "/" + v).read(), re.M)
            if any(b[0] == v for b in broken): continue
            mod = v.split("/")[1][:-2]
            q = "From Verif Require Import %s.\n" % mod + "".join("Print Assumptions %s.\n" % n for n in names)
            open(DST + "/q.v", "w").write(q)
            o = run("coqc -Q theories Verif q.v").stdout
            chunks = re.split(r"^(?=Axioms:|Closed under)", o, flags=re.M)[1:]
            for n, c in zip(names, chunks):
                if n in failed or any(re.search(r"\b%s\b" % re.escape(x), c) for x in failed): bad.append(n)
    return {"id": m["id"], "failed_lemmas": failed, "property_theorems_failed": bad, "broken": broken}
if __name__ == "__main__":
    ms = json.load(open(sys.argv[1])); ids = sys.argv[2:]
    dep = deps()
    for m in ms:
        if ids and m["id"] not in ids: continue
        r = mutate(m, dep)
        print(json.dumps(r), flush=True)
