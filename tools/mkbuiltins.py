"""Generates rocq/theories/BuiltinTables.v from /repo/src/pdfje/fonts/builtins.py (as text)."""
import ast
src=open('/repo/src/pdfje/fonts/builtins.py').read()
t=ast.parse(src)
ifn=[n for n in t.body if isinstance(n,ast.If)][0]
fonts=[]
for s in ifn.orelse:
    for f in s.value.args:
        name,fid,w,k=f.args
        fonts.append((ast.literal_eval(name).decode(),w,k))
out=[]
seen={}
def emit(kind,name,txt):
    if (kind,txt) in seen: return seen[(kind,txt)]
    n=f'{kind}_{name.replace("-","_")}'
    seen[(kind,txt)]=n
    return n
def fill(items,per):
    return ';\n   '.join('; '.join(items[i:i+per]) for i in range(0,len(items),per))
print('''(** * BuiltinTables: the metrics of the standard fonts.
    GENERATED by tools/mkbuiltins.py from /repo/src/pdfje/fonts/builtins.py; each table
    says the lines it is copied from.  A table that occurs twice with the same contents is
    written once (Helvetica and Helvetica-Oblique, Helvetica-Bold and -BoldOblique). *)
From Verif Require Import Base.
Open Scope Z_scope.
Open Scope N_scope.''')
which=[]
for name,w,k in fonts:
    if not isinstance(w,ast.Call) or ast.unparse(w.func)!='dictget': continue
    d,df=w.args
    wl=[(ord(ast.literal_eval(a)),ast.literal_eval(b)) for a,b in zip(d.keys,d.values)]
    assert len(set(a for a,_ in wl))==len(wl)
    new=('w',str(wl)) not in seen
    wn=emit('w',name,str(wl))
    if new: print(f'(** builtins.py {w.lineno}-{w.end_lineno} *)\nDefinition {wn} : list (N * Z) :=\n  [{fill([f"({a}, {b}%Z)" for a,b in wl],8)}].')
    else: print(f'(** builtins.py {w.lineno}-{w.end_lineno}: the widths are those of {wn} *)')
    wd=ast.literal_eval(df)
    d,df=k.args
    assert ast.literal_eval(df)==0
    kl=[(tuple(map(ord,ast.literal_eval(a))),ast.literal_eval(b)) for a,b in zip(d.keys,d.values)]
    dd={}
    for a,b in kl: dd[a]=b
    if len(dd)!=len(kl): print('(* duplicate keys in kerning of',name,'*)')
    # grouped by the first character
    g={}
    for (a,b),v in dd.items(): g.setdefault(a,[]).append((b,v))
    key=str(sorted(dd.items()))
    new=('k',key) not in seen
    kn=emit('k',name,key)
    if new:
        print(f'(** builtins.py {k.lineno}-{k.end_lineno}, grouped by the first character *)\nDefinition {kn} : list (N * list (N * Z)) :=\n  ['+';\n   '.join(f'({a}, [{fill([f"({b}, {v}%Z)" for b,v in l],9)}])' for a,l in g.items())+'].')
    else: print(f'(** builtins.py {k.lineno}-{k.end_lineno}: the pairs are those of {kn} *)')
    which.append((name,wn,wd,kn))
print('(** what each font uses, with the default width *)')
for name,wn,wd,kn in which:
    print(f'Definition metrics_{name.replace("-","_")} : list (N * Z) * Z * list (N * list (N * Z)) := ({wn}, {wd}%Z, {kn}).')
