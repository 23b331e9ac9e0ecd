#!/usr/bin/env python3
"""Generate DESIGN.md from tools/design_head.md, tools/design.json, properties.jsonl, MANIFEST.json and the proof files."""
import json,re,glob,os
root=os.path.join(os.path.dirname(os.path.abspath(__file__)),'..')
rd=lambda p: open(os.path.join(root,p)).read()
D=json.loads(rd('tools/design.json'))
P=[json.loads(l) for l in rd('properties.jsonl').splitlines() if l.strip()]
M={c['property']:c for c in json.loads(rd('MANIFEST.json'))['claims']}
marks={}
for f in sorted(glob.glob(os.path.join(root,'rocq/theories/*.v'))):
    b=os.path.basename(f)
    if b.startswith('Props'): continue
    for m in re.finditer(r'\(\*! (C\d+)((?:(?!\*\)).)*)\*\)\s*Lemma (\w+)_l\b',open(f).read(),re.S):
        marks[m.group(3)]=(b,' '.join(m.group(2).split()).lstrip(': '))
out=[rd('tools/design_head.md').rstrip(),'','## 4. Property by property','',
 'For each property: what of the code is modelled for it, how it is proved, and what each theorem says.','']
for p in P:
    c=M[p['id']]; mod,how=D.get(p['id'],['',''])
    out.append(f"### {p['id']} {p['title']} ({c['status']})\n")
    if mod: out.append(f"*Modelled:* {mod}.  ")
    if how: out.append(f"*Proof:* {how}\n")
    if c['note']: out.append(f"*Status:* {c['note']}\n")
    for t in c['theorems']:
        b,txt=marks.get(t,('',''))
        out.append(f"- `{t}` ({b}): {txt}")
    out.append('')
open(os.path.join(root,'DESIGN.md'),'w').write('\n'.join(out))
