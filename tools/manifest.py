#!/usr/bin/env python3
"""Regenerates MANIFEST.json: collects the theorems named Cnn_* from rocq/theories/Prop*.v,
takes status and note from tools/status.json (default: derived from the theorem suffixes)."""
import re,glob,json
props=[json.loads(l) for l in open('/verif/properties.jsonl')]
thms={}
for f in sorted(glob.glob('/verif/rocq/theories/Prop*.v')):
    for m in re.finditer(r'^\s*(?:Theorem|Corollary)\s+((C\d\d+)_\w+)',open(f).read(),re.M):
        thms.setdefault(m.group(2),[]).append(m.group(1))
try: st=json.load(open('/verif/tools/status.json'))
except FileNotFoundError: st={}
claims=[]
for p in props:
    i=p['id']; t=thms.get(i,[])
    s=st.get(i,{})
    if not t and 'status' not in s: continue
    ref=[x for x in t if x.endswith('_refuted')]
    par=[x for x in t if x.endswith('_partial')]
    status=s.get('status') or ('partial' if (ref or par) else 'proved')
    note=s.get('note','')
    if ref and 'efuted' not in note: note=(note+' ' if note else '')+'Refuted parts (findings): '+', '.join(ref)+'.'
    if par and 'artial' not in note: note=(note+' ' if note else '')+'Partial: '+', '.join(par)+'.'
    claims.append(dict(property=i,status=status,theorems=t,note=note))
json.dump(dict(claims=claims),open('/verif/MANIFEST.json','w'),indent=1)
print({c['property']:c['status'] for c in claims})
