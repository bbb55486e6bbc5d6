#!/usr/bin/env python3
"""pmutate.py batch.json [--log] : like mutate.py, several edits at a time; the build of an edited copy stops at its first failure, which is what is recorded."""
import json,sys,os,re,shutil,subprocess,threading,queue
from concurrent.futures import ThreadPoolExecutor
V="/verif"; items=json.load(open(sys.argv[1])); log="--log" in sys.argv; W=int(os.environ.get("W","4"))
B=f"/tmp/pm{os.getpid()}"; shutil.rmtree(B,ignore_errors=True); os.makedirs(B); shutil.copytree(V+"/rocq",B+"/base")
lock=threading.Lock(); ids=queue.Queue()
for i in range(W): ids.put(i)
def run(it):
    i=ids.get()
    try:
        D=f"{B}/w{i}"; subprocess.run(["rm","-rf",D]); subprocess.run(["cp","-a",B+"/base",D])
        p=f"{D}/theories/{it['file']}.v"; s=open(p).read()
        if it['old'] not in s: print("!! no match",it); return
        k=it.get('occ',1); parts=s.split(it['old']); pre=it['old'].join(parts[:k])
        open(p,'w').write(pre+it['new']+it['old'].join(parts[k:]))
        defs=re.findall(r"(?:Definition|Fixpoint|Inductive|Record)\s+(\w+)",pre+" "); d=defs[-1] if defs else it['file']
        r=subprocess.run("ulimit -v 6000000; timeout 600 make -j1 2>&1",shell=True,cwd=D,capture_output=True,text=True)
        m=[x for x in re.finditer(r'File "\./theories/(\w+)\.v", line (\d+)[^\n]*\n(?!Warning)',r.stdout)]
        fails=[]
        if m and r.returncode:
            f,l=m[0].group(1),int(m[0].group(2)); nm="?"
            for x in reversed(open(f"{D}/theories/{f}.v").read().split("\n")[:l]):
                mm=re.match(r"\s*(?:Lemma|Theorem|Example|Corollary|Fact|Definition|Fixpoint)\s+(\w+)",x)
                if mm: nm=mm.group(1);break
            fails=[f"{f}.{nm}"]
            if f==it['file']: print("ILLTYPED",json.dumps(it),r.stdout[-300:]); sys.stdout.flush(); return
        elif r.returncode: print("TIMEOUT",json.dumps(it)); sys.stdout.flush(); return
        res=dict(definition=f"{it['file']}.{d}",edit=f"{it['old']}  ==>  {it['new']}",claim=it['claim'],failed=fails,caught=bool(fails),tightened=it.get('tightened',[]))
        if it.get('note'): res['note']=it['note']
        with lock:
            print(("CAUGHT " if fails else "SURVIVED ")+json.dumps(res)); sys.stdout.flush()
            if log and fails: open(V+"/seeded/LOG.jsonl","a").write(json.dumps(res)+"\n")
    finally: ids.put(i)
with ThreadPoolExecutor(W) as ex: list(ex.map(run,items))
shutil.rmtree(B); print("done",len(items))
