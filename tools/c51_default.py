# Writes to stdout a Coq file that evaluates the run of C51_Bug.v for the default configuration
# (elm_var_occ = 20000, 84 variables); the evaluation takes three minutes and is not part of the build:
#   python3 c51_default.py > P.v; coqc -Q ../rocq/theories Verif P.v
# The answer is Err (XSolver SolverBug).
import sys,itertools
H, NP, evo = 71, 142, 20000
names='z1,z2,x0,x,x2,a,g,H,y2,y3,l,l2,v,u'.split(',')
names=[k for n in names for k in (['h%d'%i for i in range(1,H+1)] if n=='H' else [n])]
pairorder='x,x2,z1,x0,z2'.split(',')
V={n:i+1 for i,n in enumerate(names)}
def L(s): return -V[s[1:]] if s[0]=='-' else V[s]
cs=[]
def c(*ls): cs.append(sorted([L(s) for s in ls],key=abs))
h=lambda i:'h%d'%((i-1)%H+1)
pairs=([(i,i+1) for i in range(1,H+1)]+[(i,i+2) for i in range(1,H+1)])[:NP]
for i,j in pairs: c('g',h(i),h(j),'y2','y3')
for i,j in pairs: c(h(i),h(j),'g','-y2','-y3')
for i in range(1,H+1): c('-'+h(i),'-'+h(i+7),'g')
for w in ('u','v'):
    for i in (1,2): c(h(i),'g',w)
    for i in (3,4,5): c(h(i),'g','-'+w)
for i,w in ((1,'u'),(2,'u'),(3,'v'),(4,'v')): c('-g','-'+w,h(i))
c('g',*[h(3*i) for i in range(3,11)])
c('-a','-l','-l2','-y2','-y3','u','v')
c('-a',*[h(3*i) for i in range(3,11)])
for i in (1,2,3,4,5):
    c('-l','g','-u',h(i)); c('-l2','g','-v',h(i)); c('-a','g','-v',h(i))
d=dict(z1='y2',z2='y3',x='l',x2='l2',x0='a')
for x in pairorder: c(x,d[x]); c('-'+x,d[x])
body="; ".join("["+"; ".join(map(str,k))+"]" for k in cs)
n=len(names)
pre="""From Coq Require Import String List Arith Bool Lia ZArith.
From Verif Require Import Base HeapModel AsgModel CdbModel PropModel ConflictModel ElimModel VivifyModel LitModel BuildModel LubyModel SolveModel C01_Solve C04_Build QueueModel KSolveModel C52_Queue C51_Bug Spec Text.
Import ListNotations.
Open Scope list_scope.
Open Scope nat_scope.
Definition bug : list zclause := [%s]%%Z.
Definition select_initial (a : asg) (d : cdb) : list nat :=
  let seen := fold_left (fun (f : lit -> option nat) c =>
    if dead d c then f
    else let l0 := nth 0 (lits (cl d c)) 0 in
         if match f l0 with None => 0 | Some c' => length (lits (cl d c')) end <? length (lits (cl d c)) then upd f l0 (Some c) else f)
    (seq 1 (ncl d - 1)) (fun _ => None) in
  rev (flat_map (fun l => match seen l with Some c => [c] | None => [] end) (seq 0 (2 * (nv a + 1)))).
Definition tg := Eval vm_compute in match solver_try_from orc0 bug with BOk a d => select_initial a d | _ => [] end.
Definition cfb := mkConfig true 0 %d %d.
Definition limb : klim := mkKlim %d 800 64 skip_ex (fun a d => 65 * n_cl d).
Definition ib : kin := mkKin limb [] (fun _ => false) (fun _ => false).
Definition pb : prep := mkPrep tg [] (fun v => (%d <=? v) && (v <=? %d)) (stage_new 1).
"""%(body,evo,n,evo,V['g'],V['h%d'%H])
post="""
Time Eval vm_compute in k_certificate cfb pb ib (repeat (h0, ib) 110) orc0 bug.
"""
print(pre)
print(post)
