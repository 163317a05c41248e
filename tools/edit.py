#!/usr/bin/env python3
"""edit.py < json: {"props": {id: {field: value}}, "notes": {id: note}}"""
import json, sys, pathlib
root = pathlib.Path(__file__).resolve().parent.parent
d = json.load(sys.stdin)
p = root / 'properties.jsonl'
rows = [json.loads(l) for l in p.read_text().splitlines() if l.strip()]
ids = {r['id']: r for r in rows}
for k, v in d.get('props', {}).items():
    if k in ids:
        ids[k].update(v)
    else:
        r = {'id': k}; r.update(v); rows.append(r); ids[k] = r
p.write_text(''.join(json.dumps(r) + '\n' for r in rows))
n = root / 'tools' / 'notes.json'
notes = json.loads(n.read_text())
for k, v in d.get('notes', {}).items():
    notes.setdefault(k, {})['note'] = v
n.write_text(json.dumps(notes, indent=1) + '\n')
