#!/usr/bin/env python3
"""Mutation testing of the theorems.

usage: mut.py MUTANTS.json [id ...]

MUTANTS.json: list of {id, file, def, old, new, edit, claim: [..]}.  For each mutant a
scratch copy of the theories is made outside /verif, the edit is applied to the model
file, and every file depending on it is recompiled; a lemma whose proof fails is
admitted (in the scratch copy only) and compilation goes on, so that Print Assumptions
under each theorem tells which theorems still hold with a complete proof and which rest
on something that no longer proves."""
import sys, os, re, json, subprocess, shutil, time
SRC='/verif/rocq'
HEAD=re.compile(r'^[ \t]*(?:Local |Global |#\[[^\]]*\] *)*(Lemma|Theorem|Corollary|Example|Fact|Remark|Proposition)\s+([\w\']+)',re.M)
claims={}
for l in open('/verif/tools/claims.txt'):
    l=l.strip()
    if l:
        a=l.split('|'); claims[a[0]]=a[2].split(',')
def deps():
    out=subprocess.run('cd %s && coqdep -Q theories Verif theories/*.v'%SRC,shell=True,capture_output=True,text=True).stdout
    d={}
    for l in out.splitlines():
        m=re.match(r'theories/(\w+)\.vo[^:]*:(.*)',l)
        if m: d[m.group(1)]=set(re.findall(r'theories/(\w+)\.vo\b',m.group(2)))
    return d
D=deps()
def order(root):
    need={root}
    ch=True
    while ch:
        ch=False
        for f,ds in D.items():
            if f not in need and ds&need: need.add(f); ch=True
    res=[]
    while need-set(res):
        for f in sorted(need-set(res)):
            if not (D[f]&need)-set(res)-{f}: res.append(f)
    return res
def compile1(w,f,timeout):
    p=subprocess.Popen('cd %s && exec timeout %d coqc -time -Q theories Verif theories/%s.v'%(w,timeout,f),shell=True,stdout=subprocess.PIPE,stderr=subprocess.PIPE,text=True)
    o,e=p.communicate()
    return p.returncode,o,e
def run(mu,timeout=400):
    w='/tmp/mut_%s'%mu['id']
    shutil.rmtree(w,ignore_errors=True); shutil.copytree(SRC,w)
    root=mu['file'].replace('.v','')
    p=w+'/theories/%s.v'%root
    s=open(p).read()
    eds=mu.get('edits') or [[mu['old'],mu['new']]]
    for a,b in eds:
        if s.count(a)!=1: return dict(error='old text occurs %d times: %s'%(s.count(a),a))
        s=s.replace(a,b)
    open(p,'w').write(s)
    broken={}; status={}
    for f in order(root):
        if f in os.environ.get('MUT_SKIP','').split(): continue
        p=w+'/theories/%s.v'%f
        while True:
            rc,o,e=compile1(w,f,timeout)
            if rc==0: break
            s=open(p).read()
            ms=list(re.finditer(r'line (\d+), characters (\d+)-(\d+):\s*\nError',e))   # not a warning's
            m=ms[-1] if ms else None
            if m:
                off=sum(len(x)+1 for x in s.split('\n')[:int(m.group(1))-1])
            elif rc in (124,137,-9,143):
                ms=re.findall(r'Chars (\d+) - (\d+)',o)
                off=len(s.encode()[:int(ms[-1][1])].decode())+3 if ms else 0
            else: return dict(error=f+': '+e[-400:])
            hs=[h for h in HEAD.finditer(s) if h.start()<=off]
            if not hs: return dict(error=f+': '+e[-600:])
            h=hs[-1]; q=re.compile(r'\b(Qed|Defined)\.').search(s,h.start())
            pr=re.compile(r'\bProof\b').search(s,h.start())
            if not q or not pr or pr.start()>q.start() or off>q.end() or off<pr.start() and 'def' not in e and m is None:
                return dict(error=f+': '+e[-600:])
            if off<s.index('Proof',h.start())-1 and m and (off+int(m.group(3)))<pr.start()-1:
                return dict(error='statement of %s: '%h.group(2)+e[-600:])
            broken.setdefault(f,[]).append((h.group(2),e.strip().split('\n')[1:2]))
            s=s[:pr.start()]+'Admitted.'+s[q.end():]
            open(p,'w').write(s)
        # Print Assumptions output, in order
        names=re.findall(r'Print Assumptions ([\w\']+)',s if False else open(p).read())
        txt=re.sub(r'^Chars \d+ - \d+ .*$','\x00',o,flags=re.M)
        blocks=re.findall(r'Chars \d+ - \d+ \[Print~?\w*Assump.*?\]',o)
        cur=[]; res=[]
        # split output per sentence
        for part in re.split(r'^Chars \d+ - \d+ (.*)$',o,flags=re.M): cur.append(part)
        # cur = [out0, sent1, out1, ...]; output of a sentence comes before its Chars line
        i=0; k=0
        for j in range(1,len(cur),2):
            if cur[j].startswith('[Print~Assumptions') or cur[j].startswith('[Print~A'):
                outp=cur[j-1]
                nm=names[k] if k<len(names) else '?'; k+=1
                status[nm]=outp
    adm={n for L in broken.values() for n,_ in L}
    failed=[]; ok=[]
    for nm,outp in status.items():
        ax=set(re.findall(r'^([\w\.\']+)\s*(?::|$)',outp,re.M))
        ax={a.split('.')[-1] for a in ax}
        (failed if (ax&adm or nm in adm) else ok).append(nm)
    shutil.rmtree(w,ignore_errors=True)
    return dict(broken={f:[n for n,_ in L] for f,L in broken.items()},failed=failed,ok=ok)
if __name__=='__main__':
    M=json.load(open(sys.argv[1]))
    ids=set(sys.argv[2:])
    for mu in M:
        if ids and mu['id'] not in ids: continue
        t=time.time(); r=run(mu)
        r['id']=mu['id']; r['claim']=mu['claim']; r['secs']=int(time.time()-t)
        if 'failed' in r:
            ct=[x for c in mu['claim'] for x in claims.get(c,[])]
            r['claim_failed']=[x for x in ct if x in r['failed']]
            r['claim_ok']=[x for x in ct if x in r['ok']]
            r['verdict']='KILLED' if r['claim_failed'] else ('SURVIVED' if ct else 'noclaim')
        print(json.dumps(r),flush=True)
        open('/tmp/mut_results.jsonl','a').write(json.dumps(r)+'\n')
