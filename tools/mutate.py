#!/usr/bin/env python3
"""Mutation testing of the model: usage mutate.py MUTANTS.py [first-index]
MUTANTS.py defines M = [(file, definition, old, new, claim), ...]. Each mutant is applied in a
scratch copy, dependents are rebuilt with make -k, and a JSON line is appended to
/verif/seeded/LOG.jsonl."""
import sys,os,re,subprocess,json,shutil
ns={}; exec(open(sys.argv[1]).read(),ns)
nums=[int(x) for x in sys.argv[2:] if x.isdigit()]
start=nums[0] if nums else 0
S='/tmp/mut'; P='/tmp/mut0'
if not os.path.exists(P) or '--fresh' in sys.argv:
    shutil.rmtree(P,ignore_errors=True); shutil.copytree('/verif/rocq',P)
    subprocess.run('coq_makefile -f _CoqProject -o Makefile && make -j4 >/dev/null 2>&1',shell=True,cwd=P)
def restore():
    shutil.rmtree(S,ignore_errors=True); subprocess.run(['cp','-a',P,S])
def encl(f,ln):
    src=open(f'{S}/{f}').read().split('\n')
    for i in range(min(ln,len(src))-1,-1,-1):
        m=re.match(r'(Lemma|Theorem|Example|Corollary|Fixpoint|Definition|Inductive|Record) (\w+)',src[i])
        if m: return m.group(2)
    return '?'
for k,(f,defn,old,new,claim) in enumerate(ns['M']):
    if k<start: continue
    restore()
    p=f'{S}/theories/{f}'; src=open(p).read()
    if src.count(old)<1: print(k,'NOT FOUND',old); continue
    open(p,'w').write(src.replace(old,new,1))
    r=subprocess.run('timeout 1500 make -j3 2>&1',shell=True,cwd=S,capture_output=True,text=True)
    fails=[]
    for m in re.finditer(r'File "\./(theories/\w+\.v)", line (\d+)[^\n]*\n(Error)',r.stdout):
        fails.append(f"{encl(m.group(1),int(m.group(2)))}")
    notbuilt=[x for x in re.findall(r"\[Makefile:\d+: theories/(\w+)\.vo\]",r.stdout)]
    # all claim files that could not be rebuilt
    missing=[]
    for l in open(f'{S}/_CoqProject'):
        m=re.match(r'theories/(\w+)\.v',l)
        if m:
            vo=f'{S}/theories/{m.group(1)}.vo'
            if not os.path.exists(vo): missing.append(m.group(1))
    r2=subprocess.run('make -q -k 2>/dev/null; make -n -k 2>/dev/null | grep -o "theories/[A-Za-z0-9_]*.v" | sort -u',shell=True,cwd=S,capture_output=True,text=True)
    stale=[x.split('/')[1][:-2] for x in r2.stdout.split()]
    killed=bool(fails)
    rec=dict(definition=f"{f}: {defn}",edit=f"{old}  ==>  {new}",claim=claim,theorems_failed=fails,files_not_rebuilt=sorted(set(stale)),theorems_tightened=[],result='killed' if killed else 'SURVIVED')
    print(k,rec['result'],defn,fails,flush=True)
    if killed or '--log-all' in sys.argv:
        with open('/verif/seeded/LOG.jsonl','a') as o: o.write(json.dumps(rec,ensure_ascii=False)+'\n')
