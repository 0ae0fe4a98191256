# usage: upd.py; reads /tmp/upd.json: {"Cnn": {fields}}, merges or appends in properties.jsonl
import json
p='/verif/properties.jsonl';L=[json.loads(l) for l in open(p)]
U=json.load(open('/tmp/upd.json'))
ids={d['id'] for d in L}
for d in L:
    if d['id'] in U: d.update(U[d['id']])
for k,v in U.items():
    if k not in ids: L.append(dict(id=k,**v))
L.sort(key=lambda d:d['id'])
open(p,'w').write(''.join(json.dumps(d)+'\n' for d in L))
