#!/usr/bin/env python3
"""Run seeded-bug experiments: mutate.py MUTANTS.json  (list of [file, definition, old, new, claim]).
Each mutant is applied to a scratch copy of the built tree, rebuilt with make -k, and logged to
/verif/seeded/LOG.jsonl with the lemmas/theorems at which the build first fails in each file."""
import json,sys,os,re,subprocess,shutil
muts=json.load(open(sys.argv[1])); W=sys.argv[2] if len(sys.argv)>2 else '/tmp/mut'
log=open('/verif/seeded/LOG.jsonl','a')
for f,d,old,new,claim in muts:
    shutil.rmtree(W,ignore_errors=True)
    subprocess.run(['cp','-a',os.environ.get('MUTBASE','/verif/rocq'),W],check=True)
    p=f'{W}/theories/{f}'; s=open(p).read()
    if s.count(old)<1: print('NO MATCH',f,d,old); continue
    # apply inside the definition
    k=re.search(r'^(?:Definition|Fixpoint|with) '+re.escape(d)+r'\b',s,re.M)
    if not k: print('NO DEF',f,d); continue
    i=k.start(); j=s.find(old,i); e=re.search(r'\n(?:Definition|Fixpoint|\(\*\*) ',s[i+5:]); e=i+5+e.start() if e else len(s)
    if j<0 or j>=e: print('NO MATCH in def',f,d,old); continue
    s=s[:j]+new+s[j+len(old):]; open(p,'w').write(s)
    r=subprocess.run(['make','-k','-j3'],cwd=W,capture_output=True,text=True)
    failed=[]
    for m in re.finditer(r'File "\./theories/(\w+\.v)", line (\d+)',r.stdout+r.stderr):
        if 'Error' not in (r.stdout+r.stderr)[m.end():m.end()+60]: continue
        src=open(f'{W}/theories/{m.group(1)}').read().split('\n')
        n=None
        for l in src[:int(m.group(2))]:
            k=re.match(r'(?:Lemma|Theorem|Example|Definition|Fixpoint|Corollary) (\w+)',l)
            if k: n=k.group(1)
        failed.append(f'{m.group(1)}:{n}')
    nb=[x[:-2] for x in sorted(os.listdir(W+'/theories')) if x.startswith('Prop') and x.endswith('.v') and not os.path.exists(f'{W}/theories/{x}o')]
    # stale .vo are removed by coq on failure of the file itself; dependants are older than their deps
    if any(x.startswith(f+':') for x in failed): print('INVALID',d,old,new); continue
    rec=dict(definition=f'{f}:{d}',edit=f'{old}  ==>  {new}',breaks=claim,failed=failed,tightened=[])
    log.write(json.dumps(rec)+'\n'); log.flush()
    print('KILLED' if failed else 'SURVIVED',d,'|',new[:50],'|',failed,flush=True)
