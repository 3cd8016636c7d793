#!/usr/bin/env python3
"""Generates small edits of the model (token level) for the wrong-program tests.
usage: automut.py out.json FILE.v ...   (run in rocq/theories)
Only edits inside definitions; comments are skipped."""
import re, sys, json
RULES = [
 (r"\bnltb\b", "nleb"), (r"\bnleb\b", "nltb"), (r"\bnadd\b", "nsub"), (r"\bnsub\b", "nadd"), (r"\bnmul\b", "ndiv"), (r"\bndiv\b", "nmul"),
 (r"\bvadd\b", "vsub"), (r"\bvsub\b", "vadd"), (r"\bneqb\b", "nleb"),
 (r"Z\.ltb", "Z.leb"), (r"Z\.leb", "Z.ltb"), (r"Nat\.ltb", "Nat.leb"), (r"Nat\.leb", "Nat.ltb"), (r"Nat\.eqb", "Nat.leb"), (r"Z\.eqb", "Z.leb"),
 (r"<=\?", "<?"), (r"<\?", "<=?"), (r"=\?(?!\S*=)", "<=?"),
 (r"\bandb\b", "orb"), (r"\borb\b", "andb"), (r"&&", "||"), (r"\|\|", "&&"), (r"\bnegb\b", "id"),
 (r"\bexistsb\b", "forallb"), (r"\bforallb\b", "existsb"), (r"\bfst\b", "snd"), (r"\bsnd\b", "fst"),
 (r"\btrue\b", "false"), (r"\bfalse\b", "true"), (r"\bMethodExn\b", "ValueErr"), (r"\bValueErr\b", "TypeErr"), (r"\bTypeErr\b", "KeyErr"), (r"\bIndexErr\b", "ValueErr"), (r"\bKeyErr\b", "MethodExn"), (r"\bAttrErr\b", "MethodExn"),
 (r"(?<![\w.'])0(?![\w.])", "1"), (r"(?<![\w.'])1(?![\w.])", "2"), (r"(?<![\w.'])2(?![\w.])", "3"), (r"(?<![\w.'])100(?![\w.])", "10"), (r"(?<![\w.'])5(?![\w.])", "4"),
 (r" \+ ", " - "), (r" - ", " + "), (r"\bnmin\b", "nmax"), (r"\bnmax\b", "nmin"), (r"_lb\b", "_ub"), (r"_ub\b", "_lb"), (r"_ideal\b", "_nadir"), (r"_nadir\b", "_ideal"),
 (r"\bideal\b", "nadir"), (r"\bnadir\b", "ideal"), (r"np_min0", "np_max0"), (r"np_max0", "np_min0"), (r"np_min", "np_max"), (r"np_max", "np_min"),
 (r"\bnone_or_all\b", ""), (r"\bfirstn\b", "skipn"), (r"\bskipn\b", "firstn"), (r"\bhd\b", "last"), (r"\bNone\b", "NONE_"), (r"\brev \b", " "), (r"\bS \(", "("), (r"\bpred\b", "id"),
 (r"\bmap2\b", "map2"), (r"smod \(fun \w+ => [^)]*\)", "sret tt"), (r"\(fun a b =>", "(fun b a =>"), (r"\(fun x y =>", "(fun y x =>"),
]
out = []
for f in sys.argv[2:]:
    t = open(f).read()
    # comment spans
    com = []; d = 0; i = 0
    while i < len(t) - 1:
        if t[i:i+2] == "(*": 
            if d == 0: s = i
            d += 1; i += 2; continue
        if t[i:i+2] == "*)":
            d -= 1; i += 2
            if d == 0: com.append((s, i))
            continue
        i += 1
    inside = lambda p: any(a <= p < b for a, b in com)
    defs = [(m.start(), m.group(2)) for m in re.finditer(r"^\s*(Definition|Fixpoint|Local Definition)\s+(\w+)", t, re.M) if not inside(m.start())]
    ends = []
    for s, n in defs:
        e = re.search(r"\.(\s|$)", t[s:])
        # end at ". newline" outside comments
        p = s
        while True:
            e = re.search(r"\.\s*(\n|$)", t[p:])
            q = p + e.end()
            if not inside(p + e.start()): break
            p = q
        body = t.find(":=", s)
        ends.append((n, body, q))
    k = 0
    for n, a, b in ends:
        for r, new in RULES:
            for m in re.finditer(r, t[a:b]):
                p = a + m.start()
                if inside(p): continue
                if new == "NONE_" or m.group(0) == new: continue
                k += 1
                ctx_a = t.rfind("\n", 0, p) + 1
                ctx_b = t.find("\n", p); 
                out.append({"id": "%s_%03d" % (f[:-2], k), "file": "theories/" + f, "definition": n, "pos": p, "old": m.group(0), "new": new,
                            "line": t[ctx_a:ctx_b].strip(), "mutline": (t[ctx_a:p] + new + t[p+len(m.group(0)):ctx_b]).strip()})
json.dump(out, open(sys.argv[1], "w"), indent=0)
print(len(out))
