#!/usr/bin/env python3
"""Expand @{function} placeholders in theories/*.v into file:first-last citations."""
import re,glob,sys,os
idx={}
for f in glob.glob('/repo/source/*.c')+glob.glob('/repo/source/extensions/*.c'):
    L=open(f,errors='replace').read().split('\n')
    i=0
    while i<len(L):
        m=re.match(r'^[A-Za-z].*?\b(\w+)\s*\(',L[i])
        if m and not L[i].startswith(('#','//','typedef')):
            j=i; proto=False
            while j<len(L) and '{' not in L[j]:
                if ';' in L[j]: proto=True;break
                j+=1
            if not proto and j<len(L):
                k=j
                while k<len(L) and L[k]!='}': k+=1
                idx[m.group(1)]=(os.path.relpath(f,'/repo/'),i+1,k+1)
                i=k
        i+=1
bad=0
for f in glob.glob('/verif/rocq/theories/*.v'):
    t=open(f).read()
    def r(m):
        global bad
        n=m.group(1)
        if n not in idx: print('unknown',n,f); bad+=1; return m.group(0)
        a,b,c=idx[n]
        return f'{a}:{b}-{c} {n}'
    t2=re.sub(r'@\{(osl\w+)\}',r,t)
    if t2!=t: open(f,'w').write(t2)
sys.exit(bad)
