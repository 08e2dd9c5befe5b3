# writes /tmp/Audit.v (compile with coqc -Q rocq/theories Verif) : Print Assumptions for every property theorem
import re,glob,os
d='/verif/rocq/theories/'
out=['(** Generated by tools/gen_audit.py: what each property theorem rests on. *)']
body=[]
for f in sorted(glob.glob(d+'C[0-9]*.v')):
    m=os.path.basename(f)[:-2]
    out.append('From Verif Require %s.'%m)
    for t in re.findall(r'^Theorem (C\d\d_\w+)',open(f).read(),re.M):
        body.append('Print Assumptions %s.%s.'%(m,t))
open('/tmp/Audit.v','w').write('\n'.join(out+body)+'\n')
