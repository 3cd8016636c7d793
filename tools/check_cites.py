import re,sys,glob
for f in sorted(glob.glob("M*.v")):
    t=open(f).read().split("\n")
    for i,l in enumerate(t):
        m=re.match(r"\s*(Definition|Fixpoint|Record|Inductive|Variant|Function|Notation)\s+(\S+)",l)
        if m and m.group(1)!="Notation":
            # comment directly above (allow notations/other simple lines between?) 
            j=i-1
            c=""
            if t[j].rstrip().endswith("*)"):
                k=j
                while "(*" not in t[k]: k-=1
                c=" ".join(x.strip() for x in t[k:j+1])
            ok=re.search(r"\.py",c) and re.search(r"\d",c)
            if not ok: print(f,i+1,m.group(2),"|",c[:150])
