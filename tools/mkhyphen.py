#!/usr/bin/env python3
"""HyphenData.v: the patterns and exceptions of /repo/src/pdfje/vendor/hyphenate.py, line by line."""
import ast
src=open("/repo/src/pdfje/vendor/hyphenate.py").read()
vals={}
lines={}
for n in ast.parse(src).body:
    if isinstance(n,ast.Assign) and n.targets[0].id in("patterns","exceptions"):
        vals[n.targets[0].id]=ast.literal_eval(n.value); lines[n.targets[0].id]=(n.lineno,n.end_lineno)
out=["(** * HyphenData: the patterns and exceptions of /repo/src/pdfje/vendor/hyphenate.py","    (generated by tools/mkhyphen.py, one string per line of the file) *)",
"From Coq Require Import String.","From Verif Require Import Base Hyphen.","Local Open Scope list_scope.","Open Scope nat_scope.",
"(** [s.split()], for text whose only white space is spaces and newlines *)",
"Definition words_in (l : string) : list str := filter (fun w => negb (str_eqb w [])) (re_split (fun c => c =? 32)%N (bs l)).",
"Local Open Scope string_scope."]
for k in("patterns","exceptions"):
    out.append(f"(** {lines[k][0]}-{lines[k][1]} *)")
    ls=[l for l in vals[k].split("\n") if l.strip()]
    assert all(set(l)<=set("abcdefghijklmnopqrstuvwxyz.0123456789- ") for l in ls)
    out.append(f"Definition {k}_text : list string := [\n  "+";\n  ".join('"'+l+'"' for l in ls)+"].")
    out.append(f"Definition english_{k} : list str := flat_map words_in {k}_text.")
open("/verif/rocq/theories/HyphenData.v","w").write("\n".join(out)+"\n")
print(len(vals["patterns"].split()),len(vals["exceptions"].split()))
