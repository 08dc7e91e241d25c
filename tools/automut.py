#!/usr/bin/env python3
"""Automatic mutation of the model: one small edit per definition, fail-fast build.
usage: automut.py gen OUT.json SEED   |   automut.py run IN.json RESULTS.jsonl
Test files are left out of the build, so that only theorems can reject a mutant."""
import json,os,re,subprocess,sys,shutil,random,glob
SRC=os.environ.get('SEED_SRC','/verif/rocq'); W=os.environ.get('SEED_DIR','/tmp/automut'); J=os.environ.get('SEED_J','2')
OPS=[(r'<\?','<=?'),(r'<=\?','<?'),(r'&&','||'),(r'\|\|','&&'),(r'\btrue\b','false'),(r'\bfalse\b','true'),(r'negb \(','id ('),
 (r'\+ 1\b','+ 2'),(r'- 1\b','- 0'),(r'\bfirstn\b','skipn'),(r'\bskipn\b','firstn'),(r'\bS n\b','n'),
 (r'(?<![\w.%\'])(\d+)(?![\w.\'])',None)]
def strip(s):
    out=list(s); d=0; i=0
    while i<len(s):
        if s.startswith('(*',i): d+=1; out[i]=out[i+1]=' '; i+=2; continue
        if s.startswith('*)',i) and d: d-=1; out[i]=out[i+1]=' '; i+=2; continue
        if d and s[i]!='\n': out[i]=' '
        i+=1
    return ''.join(out)
def gen(out,seed):
    random.seed(seed); muts=[]
    for f in sorted(glob.glob(SRC+'/theories/M*.v')):
        s=open(f).read(); t=strip(s)
        ms=list(re.finditer(r'^(?:Definition|Fixpoint|Function|with)\s+([\w\']+)',t,re.M))
        ends=[m.start() for m in re.finditer(r'^(?:Definition|Fixpoint|Function|with|Lemma|Theorem|Example|Inductive|Record|Section|End|Notation|Arguments|Proof)\b',t,re.M)]+[len(t)]
        for m in ms:
            e=min(x for x in ends if x>m.start()); body=t[m.start():e]
            k=body.find(':=')
            if k<0: continue
            sites=[]
            for pat,rep in OPS:
                for x in re.finditer(pat,body[k+2:]):
                    r=rep if rep is not None else str(int(x.group(1))+1)
                    sites.append((m.start()+k+2+x.start(),m.start()+k+2+x.end(),r))
            if not sites: continue
            a,b,r=random.choice(sites)
            muts.append({'file':os.path.basename(f),'definition':m.group(1),'pos':[a,b],'old':s[a:b],'new':r,'line':s.count('\n',0,a)+1,'context':s[max(0,a-40):b+30].replace('\n',' ')})
    random.shuffle(muts); json.dump(muts,open(out,'w'),indent=0); print(len(muts))
def lemma_at(path,line):
    name=None
    for i,l in enumerate(open(path),1):
        if i>line: break
        m=re.match(r'\s*(Theorem|Lemma|Corollary|Example|Definition|Fixpoint|Fact|Remark)\s+([\w\']+)',l)
        if m: name=m.group(1)+' '+m.group(2)
    return name
def run(inp,res):
    done={(d['file'],tuple(d['pos']),d['new']) for d in map(json.loads,open(res))} if os.path.exists(res) else set()
    for mu in json.load(open(inp)):
        if (mu['file'],tuple(mu['pos']),mu['new']) in done: continue
        shutil.rmtree(W,ignore_errors=True); subprocess.run(['cp','-a',SRC,W],check=True)
        p=f"{W}/theories/{mu['file']}"; s=open(p).read(); a,b=mu['pos']
        open(p,'w').write(s[:a]+mu['new']+s[b:])
        q=W+'/_CoqProject'; lines=[l for l in open(q) if not l.startswith('theories/Test')]; open(q,'w').write(''.join(lines))
        subprocess.run('coq_makefile -f _CoqProject -o Makefile',shell=True,cwd=W,check=True,stdout=subprocess.DEVNULL)
        r=subprocess.run(f'timeout 2400 make -j{J} COQC="timeout 500 coqc" 2>&1',shell=True,cwd=W,stdout=subprocess.PIPE,text=True)
        fails=[]
        for m in re.finditer(r'File "\./theories/(\w+\.v)", line (\d+)',r.stdout):
            x=(m.group(1),lemma_at(f'{W}/theories/{m.group(1)}',int(m.group(2))))
            if x not in fails: fails.append(x)
        if r.returncode==0: v='SURVIVED'
        elif any(f==mu['file'] and (n or '').split()[-1:]==[mu['definition']] for f,n in fails): v='illtyped'
        else: v='killed'
        mu['verdict']=v; mu['by']=[f'{f}:{n}' for f,n in fails][-3:]
        open(res,'a').write(json.dumps(mu)+'\n')
if sys.argv[1]=='gen': gen(sys.argv[2],int(sys.argv[3]))
else: run(sys.argv[2],sys.argv[3])
