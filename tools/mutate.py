#!/usr/bin/env python3
"""Mutation test: apply one edit to a scratch copy of rocq/, rebuild, admit (in the scratch copy
only) each lemma whose proof breaks until everything builds, and report which property theorems
then rest on an admitted lemma.
usage: mutate.py FILE OLD NEW [--log JSONFIELDS]   (run many: mutate.py --batch batch.json)
batch entries: {"file","old","new","definition","edit","claim"}"""
import sys,os,re,json,shutil,subprocess,tempfile
ROOT=os.path.dirname(os.path.dirname(os.path.abspath(__file__)))
def run(entry,scratch):
    if os.path.exists(scratch): shutil.rmtree(scratch)
    subprocess.run(["cp","-rp",ROOT+"/rocq",scratch],check=True)
    f=scratch+"/theories/"+entry["file"]
    s=open(f).read()
    n=s.count(entry["old"])
    if n==0 or (n>1 and not entry.get("all")): return {"error":"old text occurs %d times"%n}
    s=s.replace(entry["old"],entry["new"]) if entry.get("all") else s.replace(entry["old"],entry["new"],1)
    open(f,"w").write(s)
    broken=[];dropped=[]
    for it in range(60):
        r=subprocess.run("coq_makefile -f _CoqProject -o Makefile >/dev/null 2>&1; timeout 1500 make -j4 2>&1",shell=True,cwd=scratch,capture_output=True,text=True)
        out=r.stdout
        m=re.search(r'File "\./theories/(\w+)\.v", line (\d+), characters [^\n]*\nError',out)
        if r.returncode==0: break
        if not m:
            return {"error":"build stopped: "+out[-300:],"broken":broken}
        fn=scratch+"/theories/%s.v"%m.group(1); L=int(m.group(2))
        lines=open(fn).read().split("\n")
        i=L-1
        while i>=0 and not re.match(r"\s*(Lemma|Theorem|Corollary|Example|Fact|Remark)\s",lines[i]): 
            if re.match(r"\s*(Definition|Fixpoint|Inductive|Record)\s",lines[i]): return {"error":"definition breaks: %s:%d"%(m.group(1),L),"broken":broken}
            i-=1
        if i<0: return {"error":"no enclosing lemma %s:%d"%(m.group(1),L),"broken":broken}
        name=re.match(r"\s*\w+\s+(\w+)",lines[i]).group(1)
        # from line i to the first line containing Qed. or Defined.
        j=i
        while j<len(lines) and not re.search(r"\b(Qed|Defined)\.",lines[j]): j+=1
        text="\n".join(lines[i:j+1])
        k=text.find("Proof")
        if k<0: return {"error":"no proof for "+name,"broken":broken}
        text=text[:k]+"Proof. Admitted."
        lines[i:j+1]=text.split("\n")
        open(fn,"w").write("\n".join(lines))
        if name in broken: return {"error":"cannot admit "+name,"broken":broken}
        broken.append(name)
    else: return {"error":"too many rounds","broken":broken}
    # audit
    r=subprocess.run(["coqc","-Q","theories","Verif","theories/Audit.v"],cwd=scratch,capture_output=True,text=True)
    aud=open(scratch+"/theories/Audit.v").read()
    names=re.findall(r"Print Assumptions (\w+)\.",aud)
    parts=re.split(r"(?=Closed under the global context|^Axioms:)",r.stdout,flags=re.M)
    parts=[p for p in parts if p.strip()]
    failed=[n for n,p in zip(names,parts) if p.startswith("Axioms:")]
    return {"broken":broken,"failed":failed,"n_audited":len(parts)}
if __name__=="__main__":
    if sys.argv[1]=="--batch":
        es=json.load(open(sys.argv[2]))
        sc=sys.argv[3] if len(sys.argv)>3 else "/tmp/mut"
        for e in es:
            r=run(e,sc)
            print(json.dumps({**{k:e[k] for k in ("definition","edit","claim") if k in e},**r}),flush=True)
    else:
        print(json.dumps(run({"file":sys.argv[1],"old":sys.argv[2],"new":sys.argv[3]},"/tmp/mut"),indent=1))
