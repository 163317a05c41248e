#!/usr/bin/env python3
"""Regenerate rocq/_CoqProject and MANIFEST.json.

A theorem named Cnn_... in a *Props.v file belongs to property Cnn.  Status and
note come from tools/notes.json (default status: proved if the property has at
least one theorem without suffix _partial or _refuted)."""
import json, re, pathlib
root = pathlib.Path(__file__).resolve().parent.parent
th = root / 'rocq' / 'theories'
areas = sorted(p.name for p in th.glob('*.v'))
(root / 'rocq' / '_CoqProject').write_text('-Q theories Verif\n' + ''.join('theories/%s\n' % a for a in areas))
props = [json.loads(l)['id'] for l in (root / 'properties.jsonl').read_text().splitlines() if l.strip()]
notes = json.loads((root / 'tools' / 'notes.json').read_text())
thms = {}
for f in sorted(th.glob('*Props.v')):
    for m in re.finditer(r'^Theorem\s+((C\d+)_\w+)', f.read_text(), re.M):
        thms.setdefault(m.group(2), []).append(m.group(1))
claims = []
for p in props:
    t = thms.get(p, [])
    n = notes.get(p, {})
    pos = [x for x in t if not x.endswith('_partial') and not x.endswith('_refuted')]
    default = 'proved' if pos else ('partial' if t else 'not_applicable')
    claims.append({'property': p, 'status': n.get('status', default), 'theorems': t,
                   'note': n.get('note', '' if t else 'not modelled yet')})
for p in thms:
    if p not in props:
        print('theorems without property:', p)
(root / 'MANIFEST.json').write_text(json.dumps({'claims': claims}, indent=1) + '\n')
print({s: sum(c['status'] == s for c in claims) for s in ('proved', 'partial', 'not_applicable')})
