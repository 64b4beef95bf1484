#!/usr/bin/env python3
"""Runs Print Assumptions on every theorem of MANIFEST.json and writes the grouped
result between the markers in DESIGN.md. Needs a finished build in rocq/."""
import json,re,subprocess,os,glob
root=os.path.dirname(os.path.dirname(os.path.abspath(__file__)))
th=sorted({t for c in json.load(open(root+'/MANIFEST.json'))['claims'] for t in c['theorems']})
mods=[os.path.basename(l.strip())[:-2] for l in open(root+'/rocq/_CoqProject') if l.startswith('theories/')]
where={}
for m in mods:
    s=open(f'{root}/rocq/theories/{m}.v').read()
    for t in re.findall(r'(?:Theorem|Lemma|Corollary|Example)\s+(\w+)',s): where.setdefault(t,m)
out='From Coq Require Import String.\n'+''.join(f'From Verif Require {m}.\n' for m in mods)
out+=''.join(f'Check "mark_{t}"%string.\nPrint Assumptions {where[t]}.{t}.\n' for t in th)
open('/tmp/pa.v','w').write(out)
r=subprocess.run(['coqc','-Q',root+'/rocq/theories','Verif','/tmp/pa.v'],capture_output=True,text=True,cwd='/tmp')
assert r.returncode==0,r.stderr[-2000:]
groups={}
parts=re.split(r'"mark_(\w+)"(?:%string)?\s*: string',r.stdout)
for t,body in zip(parts[1::2],parts[2::2]):
    ax=tuple(sorted({re.sub(r'\s*:$','',a.split(':')[0].strip()) for a in re.findall(r'^([A-Za-z_][\w.]*)\s*(?::|$)',body,re.M)}-{'Axioms'}))
    if 'Closed under the global context' in body: ax=()
    groups.setdefault(ax,[]).append(t)
assert sum(map(len,groups.values()))==len(th),(len(th),{k:len(v) for k,v in groups.items()})
txt=''
for ax,ts in sorted(groups.items(),key=lambda g:(len(g[0]),g[0])):
    txt+=f'* **{", ".join(ax) if ax else "closed under the global context (no axioms)"}** ({len(ts)} theorems): '+', '.join(ts)+'.\n'
d=open(root+'/DESIGN.md').read()
d=re.sub(r'(<!-- assumptions:begin -->\n).*?(<!-- assumptions:end -->)',lambda m:m.group(1)+txt+m.group(2),d,flags=re.S)
open(root+'/DESIGN.md','w').write(d)
print({k:len(v) for k,v in groups.items()})
