#!/usr/bin/env python3
"""Print Assumptions for every theorem of the manifest (needs a finished build in rocq/)."""
import json,subprocess,glob,re,os
here=os.path.dirname(os.path.dirname(os.path.abspath(__file__)))
th=os.path.join(here,'rocq','theories')
names=[]
for c in json.load(open(os.path.join(here,'MANIFEST.json')))['claims']:
    for t in c['theorems']:
        if t not in names: names.append(t)
where={}
for f in glob.glob(th+'/*.v'):
    for m in re.finditer(r'^\s*(?:Theorem|Lemma|Example|Corollary)\s+([A-Za-z0-9_\']+)',open(f).read(),re.M): where[m.group(1)]=os.path.basename(f)[:-2]
src='\n'.join(f'From Verif Require {x}.' for x in sorted(set(where[n] for n in names)))+'\n'
for n in names: src+=f'Goal True. idtac "@@{n}". exact I. Qed.\nPrint Assumptions {where[n]}.{n}.\n'
open('/tmp/assum.v','w').write(src)
r=subprocess.run(f'cd {th} && coqc -Q . Verif /tmp/assum.v',shell=True,capture_output=True,text=True)
print(r.stdout); print(r.stderr)
