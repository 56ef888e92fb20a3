"""Prints a Coq file that compares Float64 with Python floats: compile it with coqc -R rocq/theories Verif; the second component must be []."""
import random, math
random.seed(5)
def z(x):
    m,e=math.frexp(x); return int(m*2**53), e-53
out=[]
for i in range(400):
    k=random.random()
    if k<.3: a=random.uniform(-1000,1000); b=random.choice([-1,1])*random.uniform(.01,50)
    elif k<.6: a=random.randint(1,4000)/random.choice([1,2,3,5,7,10]); b=a/random.randint(1,300)*random.choice([1,1,-1])
    elif k<.8: a=random.randint(-100,100)*0.1; b=random.randint(1,50)*.1
    else: a=random.uniform(-1,1)*2**random.randint(-30,60); b=random.uniform(.5,1)*2**random.randint(-3,15)
    if b==0: continue
    ma,ea=z(a); mb,eb=z(b); q=int(a//b)
    s=a+b; p=a*b; d=a/b; f=a-b
    out.append("((%d,%d),(%d,%d),%d,[%s])"%(ma,ea,mb,eb,q,";".join("(%d,%d)"%z(v) for v in (s,f,p,d))))
print("From Coq Require Import ZArith List Bool. Import ListNotations. From Flocq Require Import IEEE754.BinarySingleNaN. From Verif Require Import Base Num Float64. Open Scope Z_scope.")
print("Definition n p : b64 := binary_normalize 53 1024 prec_ok emax_ok mode_NE (fst p) (snd p) false.")
print("Definition data := ["+";\n".join(out)+"].")
print("Definition ok t := match t with (a,b,q,[s;f;p;d]) => (bfloordiv (n a) (n b) =? q) && Beqb (badd (n a) (n b)) (n s) && Beqb (bsub (n a) (n b)) (n f) && Beqb (bmul (n a) (n b)) (n p) && Beqb (bdiv (n a) (n b)) (n d) | _ => false end.")
print("Time Eval vm_compute in (List.length data, filter (fun t => negb (ok t)) data).")
