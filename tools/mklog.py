"""Writes seeded/LOG.jsonl from the mutants in seeded/mutants/*.json and the outputs of
mut.py in DIR/*.out (usage: mklog.py DIR).  seeded/notes.json: id -> {tightened, note}."""
import json,glob,sys
M={}
for f in sorted(glob.glob('/verif/seeded/mutants/*.json')):
    for m in json.load(open(f)): M[m['id']]=m
N=json.load(open('/verif/seeded/notes.json'))
R={}
for f in sorted(glob.glob(sys.argv[1]+'/*.out')):
    for l in open(f):
        try: d=json.loads(l)
        except ValueError: continue
        if f.endswith('/f.out'): d['id']=('fe' if d['id'][0]=='f' else 'rh')+d['id'][1:]   # ids renamed after the run
        R.setdefault(d['id'],[]).append((f,d))
out=[]
for i,m in M.items():
    rs=[d for f,d in R.get(i,[]) if 'error' not in d]
    # survivors first (they came before a theorem was tightened)
    rs.sort(key=lambda d: d['verdict']!='SURVIVED')
    n=N.get(i,{})
    for k,d in enumerate(rs):
        first=d['verdict']=='SURVIVED'
        e=dict(id=i,definition='%s: %s'%(m['file'],m['def']),edit=m['edit'],old=m['old'] if 'old' in m else [a for a,b in m['edits']],new=m['new'] if 'new' in m else [b for a,b in m['edits']],
               claim=m['claim'],theorems_failed=d.get('claim_failed',[]),other_theorems_failed=sorted(set(d.get('failed',[]))-set(d.get('claim_failed',[])))[:12],
               tightened=n.get('tightened',[]) if first else [],verdict=d['verdict'])
        if n.get('note') and (first or len(rs)==1): e['note']=n['note']
        out.append(e)
open('/verif/seeded/LOG.jsonl','w').write(''.join(json.dumps(e)+'\n' for e in out))
from collections import Counter
print(len(out),Counter(e['verdict'] for e in out),'missing',[i for i in M if not [1 for f,d in R.get(i,[]) if 'error' not in d]])
