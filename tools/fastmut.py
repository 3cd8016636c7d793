#!/usr/bin/env python3
"""Fast wrong-program runner for automut.py output: stops at the first proof that fails.
usage: MUTSRC=built-tree MUTDIR=scratch fastmut.py muts.json part nparts"""
import json, sys, re, subprocess, os, shutil
sys.path.insert(0, os.path.dirname(__file__))
import mutate
SRC, TOP, DST = mutate.SRC, mutate.TOP, mutate.DST
ms = json.load(open(sys.argv[1])); part, n = int(sys.argv[2]), int(sys.argv[3])
subprocess.run("rm -rf %s; mkdir -p %s && cp -a %s %s" % (TOP, TOP, SRC, DST), shell=True, check=True)
dep = mutate.deps(); order = mutate.order()
for i, m in enumerate(ms):
    if i % n != part: continue
    t = open(SRC + "/" + m["file"]).read(); p = m["pos"]
    assert t[p:p+len(m["old"])] == m["old"]
    open(DST + "/" + m["file"], "w").write(t[:p] + m["new"] + t[p+len(m["old"]):])
    dirty = {m["file"]}; res = {"id": m["id"], "result": "survived"}
    for v in order:
        if v in dirty or any(x in dirty for x in dep.get(v, [])):
            dirty.add(v)
            r = subprocess.run("ulimit -v 5000000; timeout 300 coqc -Q theories Verif " + v, shell=True, cwd=DST, capture_output=True, text=True)
            if r.returncode == 0: continue
            e = re.search(r'File "\./?(theories/\w+\.v)", line (\d+), characters [^\n]*\n(?!Warning)', r.stderr)
            if v == m["file"]: res["result"] = "invalid"; break
            ln = int(e.group(2)) if e else 0; name = "?"
            lines = open(DST + "/" + v).read().split("\n")
            for j in range(ln - 1, -1, -1):
                k = re.match(r"\s*(Lemma|Theorem|Corollary|Example|Fact|Remark|Definition|Fixpoint)\s+(\w+)", lines[j])
                if k: name = k.group(2); break
            res["result"] = "killed"; res["by"] = v.split("/")[1] + ":" + name; break
    print(json.dumps(res), flush=True)
    for v in dirty:
        for x in (v, v + "o", v + "os", v + "ok", v[:-2] + ".glob"):
            if os.path.exists(SRC + "/" + x): shutil.copy2(SRC + "/" + x, DST + "/" + x)
