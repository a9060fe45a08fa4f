#!/usr/bin/env python3
"""Automatic seeded bugs: automut.py BASE WORKDIR SEED COUNT [FILE ...]
BASE is a built copy of /verif/rocq in which the Examples are left unproved (so that only lemmas and
theorems can notice an edit).  Each round picks a definition of a model file at random, edits one token
of it (boundary, constant, connective, branch, argument order, text, dropped step), rebuilds until the
first failure, and logs the result to OUT (default /tmp/automut.jsonl)."""
import json,sys,os,re,subprocess,random
BASE,W,seed,count=sys.argv[1],sys.argv[2],int(sys.argv[3]),int(sys.argv[4])
files=sys.argv[5:] or sorted(x for x in os.listdir(BASE+'/theories') if re.match(r'\w*Model\.v$|HeapObjects\.v$|HeapEqual\.v$',x))
OUT=os.environ.get('OUT','/tmp/automut.jsonl')
rnd=random.Random(seed)
def defs(s):
    starts=[m for m in re.finditer(r'^(?:Definition|Fixpoint|with) (\w+)',s,re.M)]
    out=[]
    for m in starts:
        e=re.search(r'\n(?:Definition|Fixpoint|with|\(\*|Section|End|Context|Variable|Notation|Record|Inductive|Class|Global|Instance|Arguments|Local|Lemma)\b|\n\n|\n\(\*',s[m.end():])
        j=m.end()+e.start() if e else len(s)
        k=s.find(':=',m.end(),j)
        if k>0: out.append((m.group(1),k+2,j))
    return out
def muts(b):
    r=[]
    def add(i,j,new): r.append((i,j,new))
    com=[(m.start(),m.end()) for m in re.finditer(r'\(\*.*?\*\)',b,re.S)]
    strs=[(m.start(),m.end()) for m in re.finditer(r'"(?:[^"]|"")*"',b)]
    inn=lambda i,l: any(a<=i<c for a,c in l)
    for m in re.finditer(r'<\?|<=\?|=\?|&&|\|\||\bnegb\b|\btrue\b|\bfalse\b|(?<![\w.])\d+(?![\w.%])| \+ | - |\bOk\b|\bErr\b|\bS\b|\[\]|\bNone\b| \+\+ |\bif\b',b):
        i,j,t=m.start(),m.end(),m.group()
        if inn(i,com) or inn(i,strs): continue
        if t=='<?': add(i,j,'<=?')
        elif t=='<=?': add(i,j,'<?')
        elif t=='=?': add(i,j,'<=?'); add(i,j,'<?')
        elif t=='&&': add(i,j,'||')
        elif t=='||': add(i,j,'&&')
        elif t=='negb': add(i,j,'id')
        elif t=='true': add(i,j,'false')
        elif t=='false': add(i,j,'true')
        elif t.isdigit(): add(i,j,str(int(t)+1)); (int(t)>0 and add(i,j,str(int(t)-1)))
        elif t==' + ': add(i,j,' - ')
        elif t==' - ': add(i,j,' + ')
        elif t=='if': add(i,j,'if negb (if') if False else None
    # condition negation
    for m in re.finditer(r'\bif (?!negb)([^()]*?|[^()]*?\([^()]*\)[^()]*?) then',b):
        if not inn(m.start(),com): add(m.start(1),m.end(1),'negb ('+m.group(1)+')'); 
    # dropped step
    for m in re.finditer(r'_ (?:<-|<==) [^;]*? ;;\s*',b):
        if not inn(m.start(),com): add(m.start(),m.end(),'')
    for m in re.finditer(r'[^;\n(]*? ;;==\s*',b):
        if not inn(m.start(),com): add(m.start(),m.end(),'')
    # dropped piece of text
    for m in re.finditer(r'(?:\[c_nl\]|lit "(?:[^"]|"")*"|ln \(lit "(?:[^"]|"")*"\)) \+\+ ',b): add(m.start(),m.end(),'')
    for a,c in strs:
        if c-a>3: add(a,c,'"'+b[a+1:c-2].rstrip('"')+'"')
    # swapped arguments
    for m in re.finditer(r'(?<=[ (])([a-z]\w*|\([^()]*\)) ([a-z]\w*|\([^()]*\))(?=[ )\n])',b):
        if inn(m.start(),com) or inn(m.start(),strs): continue
        x,y=m.group(1),m.group(2)
        if x!=y and x not in('if','match','fun','let','in','then','else','with','end','return','fix','as','forall') and y not in('then','else','with','end','in','as','return','if','match'): add(m.start(),m.end(),y+' '+x)
    # other variable
    vs=sorted(set(re.findall(r'\b[a-z]\w*\b',re.sub(r'"[^"]*"|\(\*.*?\*\)','',b))))
    return r
src={f:open(f'{BASE}/theories/{f}').read() for f in files}
D=[(f,d,i,j) for f in files for d,i,j in defs(src[f])]
seen=set()
if not os.path.exists(W): subprocess.run(['cp','-a',BASE,W],check=True)
def sync():
    subprocess.run(['rsync','-a','--delete',BASE+'/',W+'/']) if subprocess.run(['which','rsync'],capture_output=True).returncode==0 else (subprocess.run(['rm','-rf',W]),subprocess.run(['cp','-a',BASE,W],check=True))
done=0
prev={}
while done<count:
    f,d,i,j=rnd.choice(D)
    b=src[f][i:j]; ms=muts(b)
    if not ms: continue
    a,c,new=rnd.choice(ms)
    key=(f,d,a,new)
    if key in seen or prev.get((f,d),0)>=2: continue
    seen.add(key)
    sync()
    s=src[f]; s=s[:i]+b[:a]+new+b[c:]+s[j:]
    open(f'{W}/theories/{f}','w').write(s)
    line=s[:i+a].count('\n')+1
    r=subprocess.run(['timeout','240','coqc','-q','-Q','theories','Verif',f'theories/{f}'],cwd=W,capture_output=True,text=True)
    if r.returncode!=0: continue
    prev[(f,d)]=prev.get((f,d),0)+1
    try:
        r=subprocess.run(['timeout','2400','make','-j'+os.environ.get('J','2')],cwd=W,capture_output=True,text=True); out=r.stdout+r.stderr
    except Exception as e: out=str(e)
    failed=[]
    for m in re.finditer(r'File "\./theories/(\w+\.v)", line (\d+)[^\n]*\n(?=Error)',out):
        L=open(f'{W}/theories/{m.group(1)}').read().split('\n'); n=None
        for l in L[:int(m.group(2))]:
            k=re.match(r'\s*(?:Local |Global )?(?:Lemma|Theorem|Example|Definition|Fixpoint|Corollary|Instance) (\w+)',l)
            if k: n=k.group(1)
        failed.append(f'{m.group(1)}:{n}')
    ctx=lambda p,q,t: (b[max(0,p-40):p]+t+b[q:q+40]).replace('\n',' ')
    rec=dict(definition=f'{f}:{d}',line=line,edit=ctx(a,c,b[a:c])+'  ==>  '+ctx(a,c,new),rc=r.returncode,failed=failed)
    open(OUT,'a').write(json.dumps(rec)+'\n'); done+=1
    print('KILLED' if failed else 'SURVIVED' if r.returncode==0 else 'ODD',f'{f}:{line}:{d}','|',b[a:c],'->',new,'|',failed[:2],flush=True)
