#!/usr/bin/env python3
"""Check the citations in the models: 'file.rs:a-b [name]' must be a range in which a
definition of `name` starts (with its attributes and doc comment) and ends."""
import re,glob,os,sys
root='/repo/src'
files={}
for p in glob.glob(root+'/**/*.rs',recursive=True):
    files[os.path.relpath(p,root)]=open(p).read().split('\n')
def find(name):
    c=[f for f in files if f==name or f.endswith('/'+name)]
    return c
def defs(lines,name):
    out=[]
    for i,l in enumerate(lines,1):
        if re.search(r'\b(fn|struct|enum|trait|const|type|macro_rules!)\s+'+re.escape(name)+r'\b',l):
            # end by brace counting
            d=0;started=False
            for j in range(i,len(lines)+1):
                t=re.sub(r"'.'|\"[^\"]*\"|//.*",'',lines[j-1])
                d+=t.count('{')-t.count('}')
                if '{' in t: started=True
                if started and d<=0: break
                if not started and t.rstrip().endswith(';'): break
            out.append((i,j))
    return out
n=bad=0
for v in sorted(glob.glob('/verif/rocq/theories/*Model.v')):
    src=open(v).read()
    for m in re.finditer(r'([\w/]+\.rs):(\d+)(?:-(\d+))?(?:, \d+(?:-\d+)?)*\s+\[([\w:]+)\]',src):
        f,a,b,name=m.group(1),int(m.group(2)),int(m.group(3) or m.group(2)),m.group(4).split('::')[-1]
        n+=1
        line=src[:m.start()].count('\n')+1
        fs=find(f)
        if not fs: print(f'{v}:{line}: no file {f}'); bad+=1; continue
        ok=False; near=[]
        for g in fs:
            for (i,j) in defs(files[g],name):
                near.append((g,i,j))
                if a-1<=i<=b and abs(a-i)<=6 and abs(b-j)<=1: ok=True
        if not ok: print(f'{os.path.basename(v)}:{line}: {f}:{a}-{b} [{name}] defs {near}'); bad+=1
print(n,'citations with a name,',bad,'to look at')
if '--fix' in sys.argv:
    for v in sorted(glob.glob('/verif/rocq/theories/*Model.v')):
        src=open(v).read()
        def sub(m):
            f,a,b,name=m.group(1),int(m.group(2)),int(m.group(3) or m.group(2)),m.group(5).split('::')[-1]
            if m.group(4): return m.group(0)
            c=[(i,j) for g in find(f) for (i,j) in defs(files[g],name) if j>i]
            if len(c)!=1 or name in('handle','add'): return m.group(0)
            i,j=c[0]
            if a-1<=i<=b and abs(a-i)<=6 and abs(b-j)<=1: return m.group(0)
            return m.group(0).replace(f'{f}:{m.group(2)}'+(f'-{m.group(3)}' if m.group(3) else ''),f'{f}:{i}-{j}')
        new=re.sub(r'([\w/]+\.rs):(\d+)(?:-(\d+))?((?:, \d+(?:-\d+)?)*)\s+\[([\w:]+)\]',sub,src)
        if new!=src: open(v,'w').write(new)
