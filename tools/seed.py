#!/usr/bin/env python3
"""Seeded-bug runner.  usage: seed.py mutants.json [first]
Copies /verif/rocq (with compiled files) to a scratch directory, applies each
edit to the model, rebuilds with make -k and appends one line per mutant to
/verif/seeded/LOG.jsonl.  mutants.json: list of
 {"id","file","old","new","definition","claim","props":[..],"tightened":[..]}"""
import json,os,re,subprocess,sys,shutil
SRC=os.environ.get('SEED_SRC','/verif/rocq'); W=os.environ.get('SEED_DIR','/tmp/seed'); J=os.environ.get('SEED_J','2')
man={c['property']:c['theorems'] for c in json.load(open('/verif/MANIFEST.json'))['claims']}
def lemma_at(path,line):
    name=None
    for i,l in enumerate(open(path),1):
        if i>line: break
        m=re.match(r'\s*(?:Local |#\[[^]]*\] *)?(Theorem|Lemma|Corollary|Example|Definition|Fixpoint|Fact|Remark|Instance)\s+([\w\']+)',l)
        if m: name=m.group(2)
    return name
where={}
for f in os.listdir(SRC+'/theories'):
    if f.endswith('.v'):
        for m in re.finditer(r'^\s*(?:Theorem|Lemma|Corollary|Example|Fact)\s+([\w\']+)',open(f'{SRC}/theories/{f}').read(),re.M):
            where.setdefault(m.group(1),f)
muts=json.load(open(sys.argv[1])); first=sys.argv[2] if len(sys.argv)>2 else None
os.makedirs(W,exist_ok=True)
go=first is None
for mu in muts:
    if not go:
        if mu['id']==first: go=True
        else: continue
    shutil.rmtree(W,ignore_errors=True); subprocess.run(['cp','-a',SRC,W],check=True)
    p=f"{W}/theories/{mu['file']}"; s=open(p).read()
    if s.count(mu['old'])!=1:
        print('BAD',mu['id'],s.count(mu['old'])); continue
    open(p,'w').write(s.replace(mu['old'],mu['new']))
    subprocess.run('coq_makefile -f _CoqProject -o Makefile',shell=True,cwd=W,check=True,stdout=subprocess.DEVNULL)
    # everything after the mutated file must be rebuilt; make sees the new mtime
    r=subprocess.run(f'timeout 2400 make -k -j{J} COQC="timeout 400 coqc" 2>&1',shell=True,cwd=W,stdout=subprocess.PIPE,text=True)
    fails=[]
    for m in re.finditer(r'File "\./theories/(\w+\.v)", line (\d+).*?\n(?:.*\n){0,1}?Error|File "\./theories/(\w+\.v)", line (\d+)[^\n]*\nError',r.stdout):
        f=m.group(1) or m.group(3); ln=int(m.group(2) or m.group(4))
        fails.append((f,lemma_at(f'{W}/theories/{f}',ln)))
    failed_files={f for f,_ in fails}
    for m in re.finditer(r'Makefile[^\]]*: theories/(\w+)\.vo\] ',r.stdout): failed_files.add(m.group(1)+'.v')
    unbuilt=set()
    for f in os.listdir(W+'/theories'):
        if f.endswith('.v'):
            vo=f'{W}/theories/{f}o'
            if f in failed_files or not os.path.exists(vo): unbuilt.add(f)
    # files whose dependencies failed are not rebuilt: find them from make's dependency file
    deps={}
    d=open(W+'/.Makefile.d').read() if os.path.exists(W+'/.Makefile.d') else ''
    for l in d.splitlines():
        m=re.match(r'theories/(\w+)\.vo .*?: (.*)',l)
        if m: deps[m.group(1)+'.v']=[os.path.basename(x)[:-1] for x in m.group(2).split() if x.endswith('.vo') and x.startswith('theories/')]
    ch=True
    while ch:
        ch=False
        for f,ds in deps.items():
            if f not in unbuilt and any(x in unbuilt for x in ds): unbuilt.add(f); ch=True
    lost=sorted(t for ts in man.values() for t in ts if where.get(t) in unbuilt)
    claim_lost=sorted(t for c in mu['props'] for t in man.get(c,[]) if where.get(t) in unbuilt)
    claim_kept=sorted(t for c in mu['props'] for t in man.get(c,[]) if where.get(t) not in unbuilt)
    entry={"definition":mu['definition'],"file":mu['file'],"edit":mu['old'].strip()+"  ==>  "+mu['new'].strip(),
      "claim_broken":mu['claim'],"properties":mu['props'],"first_failing":[f"{f}:{l}" for f,l in fails],
      "theorems_failed":claim_lost,"theorems_of_the_claim_still_proved":claim_kept,"all_manifest_theorems_lost":len(lost),
      "tightened":mu.get('tightened',[]),"verdict":"caught" if claim_lost else ("caught elsewhere" if lost else "SURVIVED")}
    open('/verif/seeded/LOG.jsonl','a').write(json.dumps(entry)+"\n")
    print(mu['id'],entry['verdict'],entry['first_failing'][:4],claim_kept,flush=True)
