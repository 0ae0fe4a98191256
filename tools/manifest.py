#!/usr/bin/env python3
# Regenerates MANIFEST.json from tools/claims.txt:
#   Cnn|status|theorem,theorem,...|note
import json
cl=[]
for l in open('/verif/tools/claims.txt'):
    l=l.rstrip('\n')
    if not l or l.startswith('#'): continue
    a,b,c,d=l.split('|',3)
    cl.append(dict(property=a,status=b,theorems=[x for x in c.split(',') if x],note=d))
json.dump({"claims":cl},open('/verif/MANIFEST.json','w'),indent=1)
print(len(cl))
