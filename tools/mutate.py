#!/usr/bin/env python3
"""mutate.py batch.json : each item {file, old, new, claim, expect?}. Edits a scratch copy of rocq/,
rebuilds, records which lemmas/theorems fail. Appends to seeded/LOG.jsonl with --log."""
import json,sys,os,re,shutil,subprocess
V="/verif"; items=json.load(open(sys.argv[1])); log="--log" in sys.argv
D="/tmp/mutscratch"
out=[]; B="/tmp/mutbase"; shutil.rmtree(B,ignore_errors=True); shutil.copytree(V+"/rocq",B)
for n,it in enumerate(items):
    shutil.rmtree(D,ignore_errors=True); shutil.copytree(B,D)
    p=f"{D}/theories/{it['file']}.v"; s=open(p).read()
    c=s.count(it['old'])
    if c==0: print("!! no match",it); continue
    k=it.get('occ',1)
    parts=s.split(it['old']); s=it['old'].join(parts[:k])+it['new']+it['old'].join(parts[k:])
    open(p,'w').write(s)
    # enclosing definition
    pos=len(it['old'].join(parts[:k]))
    defs=re.findall(r"(?:Definition|Fixpoint|Inductive|Record)\s+(\w+)",s[:pos+1]); d=defs[-1] if defs else it['file']
    r=subprocess.run("timeout 300 make -k -j4 2>&1",shell=True,cwd=D,capture_output=True,text=True)
    fails=[]
    for m in re.finditer(r'File "\./theories/(\w+)\.v", line (\d+)',r.stdout):
        f,l=m.group(1),int(m.group(2))
        src=open(f"{D}/theories/{f}.v").read().split("\n")[:l]
        nm="?"
        for x in reversed(src):
            mm=re.match(r"\s*(?:Lemma|Theorem|Example|Corollary|Fact|Definition|Fixpoint)\s+(\w+)",x)
            if mm: nm=mm.group(1);break
        if "Warning" in r.stdout[m.end():m.end()+60]: continue
        fails.append(f"{f}.{nm}")
    if r.returncode==124 and not fails:
        late=[f[:-2] for f in sorted(os.listdir(D+"/theories")) if f.endswith(".v") and (not os.path.exists(D+"/theories/"+f+"o") or os.path.getmtime(D+"/theories/"+f+"o")<os.path.getmtime(p))]
        fails=[f+" (proof no longer terminates within 300 s)" for f in late if f.startswith(it['file'][:3]) and "Proof" in f]
    props=sorted({m for m in re.findall(r"theories/(Props_\w+)\.vo",r.stdout)}) 
    notbuilt=[f for f in os.listdir(D+"/theories") if f.startswith("Props_") and f.endswith(".v") and not os.path.exists(D+"/theories/"+f+"o")]
    nb=[]
    for f in sorted(x for x in os.listdir(D+"/theories") if x.startswith("Props_") and x.endswith(".v")):
        vo=D+"/theories/"+f+"o"
        if not os.path.exists(vo) or (fails and os.path.getmtime(vo)<os.path.getmtime(p)):
            # stale: depends on the mutated file?
            dep=subprocess.run(f"coqdep -Q theories Verif theories/*.v | grep 'theories/{f}o'",shell=True,cwd=D,capture_output=True,text=True).stdout
            nb.append(f[:-2])
    res=dict(definition=f"{it['file']}.{d}",edit=f"{it['old']}  ==>  {it['new']}",claim=it['claim'],failed=sorted(set(fails)),caught=bool(fails),tightened=it.get('tightened',[]))
    if it.get('note'): res['note']=it['note']
    print(("CAUGHT " if fails else "SURVIVED ")+json.dumps(res)); sys.stdout.flush()
    out.append(res)
if log:
    with open(V+"/seeded/LOG.jsonl","a") as f:
        for r in out: f.write(json.dumps(r)+"\n")
