#!/usr/bin/env python3
"""Generic mutation of a model file: usage automut.py OUT N File.v ...

Makes up to N one-token edits in each model file (a comparison, connective, boolean,
number, string, sum or condition changed), drops those that do not type, and compiles
what depends on the file up to the first failure.  A mutant for which everything still
compiles is a survivor and is printed with its context; it is then read by hand.
The scratch copy is outside /verif."""
import sys, os, re, json, subprocess, shutil, random, time, hashlib
sys.argv_, sys.argv = sys.argv, [sys.argv[0], '/dev/null']
SRC='/verif/rocq'
def deps():
    out=subprocess.run('cd %s && coqdep -Q theories Verif theories/*.v'%SRC,shell=True,capture_output=True,text=True).stdout
    d={}
    for l in out.splitlines():
        m=re.match(r'theories/(\w+)\.vo[^:]*:(.*)',l)
        if m: d[m.group(1)]=set(re.findall(r'theories/(\w+)\.vo\b',m.group(2)))
    return d
D=deps()
def order(root):
    need={root}; ch=True
    while ch:
        ch=False
        for f,ds in D.items():
            if f not in need and ds&need: need.add(f); ch=True
    res=[]
    pre=root[:2]
    while need-set(res):
        av=[f for f in need-set(res) if not (D[f]&need)-set(res)-{f}]
        av.sort(key=lambda f:(f[:2]!=pre,f)); res.append(av[0])
    return res
def mask(s):
    out=list(s); i=0; dep=0; st=False
    while i<len(s):
        if dep==0 and s[i]=='"': st=not st
        elif not st and s.startswith('(*',i): dep+=1
        if dep: out[i]=' ' if s[i]!='\n' else '\n'
        if not st and dep and s.startswith('*)',i): 
            out[i]=out[i+1]=' '; dep-=1; i+=1
        i+=1
    return ''.join(out)
def sites(s):
    m=mask(s); r=[]
    body=[(x.start(),x.end()) for x in re.finditer(r'\b(?:Definition|Fixpoint|with)\b.*?\.(?=\s)',m,re.S)]
    inside=lambda p:any(a<=p<b for a,b in body)
    strs=[(x.start(),x.end()) for x in re.finditer(r'"[^"]*"',m)]
    instr=lambda p:any(a<p<b-1 for a,b in strs)
    def add(rx,f):
        for x in re.finditer(rx,m):
            if inside(x.start()) and not instr(x.start()):
                n=f(x)
                if n is not None and n!=x.group(0): r.append((x.start(),x.end(),n))
    add(r'<=\?',lambda x:'<?'); add(r'(?<![<=])<\?',lambda x:'<=?')
    add(r'&&',lambda x:'||'); add(r'\|\|',lambda x:'&&')
    add(r'\bnegb\b',lambda x:'id'); add(r'(?<![|:] )\btrue\b(?! *=>)',lambda x:'false'); add(r'\bfalse\b(?! *=>)',lambda x:'true')
    add(r'(?<![\w.])\d+(?![\w.])(?!\s*=>)',lambda x:str(int(x.group(0))+1))
    add(r'"[^"]+"',lambda x:x.group(0)[:-2]+chr(ord(x.group(0)[-2])^1)+'"' if ord(x.group(0)[-2])^1 not in (34,) else None)
    add(r'(?<= )\+(?= )',lambda x:'-'); add(r'(?<= )-(?= )',lambda x:'+')
    add(r'\bif ((?:(?!\bif\b|\bthen\b|\bmatch\b|:=).)+?) then\b',lambda x:'if negb (%s) then'%x.group(1))
    add(r'\bfilter\b',lambda x:None); add(r'\bexistsb\b',lambda x:'forallb'); add(r'\bforallb\b',lambda x:'existsb')
    add(r'\bfst\b',lambda x:'snd'); add(r'\bsnd\b',lambda x:'fst'); add(r'\brev\b',lambda x:'id')
    add(r'\bSome (\w+)(?! *=>)',lambda x:'None'); add(r'\bmax\b',lambda x:'min'); add(r'\bmin\b',lambda x:'max')
    add(r'=> \[\](?= *(?:\||end))',lambda x:None)
    add(r'(\w+) :: (?=\w+ \w)',lambda x:'')
    add(r'(\b[\w\']+) ++ ([\w\']+\b)',lambda x:None)
    return r
def coqc(w,f,t):
    p=subprocess.run('cd %s && ulimit -v 4000000; exec timeout %d coqc -Q theories Verif theories/%s.v'%(w,t,f),shell=True,capture_output=True,text=True)
    return p.returncode,p.stderr
def main(out,n,files):
    w='/tmp/am/'+hashlib.md5(out.encode()).hexdigest()[:8]
    shutil.rmtree(w,ignore_errors=True); shutil.copytree(SRC,w)
    o=open(out,'a')
    for file in files:
        root=file.replace('.v',''); s=open('%s/theories/%s'%(SRC,file)).read(); od=order(root)
        ss=sites(s); random.seed(int(os.environ.get('SEED','7'))); random.shuffle(ss)
        cnt=dict(ill=0,killed=0,survived=0); done=0; base={}
        for a,b,new in ss:
            if done>=n: break
            t=s[:a]+new+s[b:]; touched=[]
            open('%s/theories/%s'%(w,file),'w').write(t)
            res='survived'
            for f in od:
                touched.append(f); t0=time.time()
                rc,e=coqc(w,f,base.get(f,300))
                if rc:
                    res='ill' if f==root else 'killed'; break
            for f in touched:
                for x in ('.v','.vo','.glob','.vos','.vok'):
                    p='%s/theories/%s%s'%(SRC,f,x)
                    if os.path.exists(p): shutil.copy2(p,'%s/theories/%s%s'%(w,f,x))
            cnt[res]+=1
            if res!='ill': done+=1
            if res=='survived':
                ln=s.count('\n',0,a)+1
                o.write('SURVIVED %s:%d [%s]->[%s] | %s\n'%(file,ln,s[a:b].replace('\n',' '),new.replace('\n',' '),s.split('\n')[ln-1].strip()[:150])); o.flush()
        o.write('DONE %s %s of %d sites\n'%(file,cnt,len(ss))); o.flush()
if len(sys.argv_)>3: main(sys.argv_[1],int(sys.argv_[2]),sys.argv_[3:])
