#!/usr/bin/env python3
"""Re-reads the inline assembly of bitpack_aarch64.h and prints it as the Coq
instruction lists of BitpackA64.v, to compare the transcription mechanically."""
import re,sys
src=open('/repo/larq_compute_engine/core/bitpacking/bitpack_aarch64.h').read().split('\n')
def tr(s):
    s=s.strip()
    m=re.match(r'ld2 \{v(\d+)\.8h, v(\d+)\.8h\}, \[%\[in_ptr\]\], #32$',s)
    if m: assert int(m[2])==int(m[1])+1; return 'LD2H %s'%m[1]
    m=re.match(r'ld2 \{v(\d+)\.16b, v(\d+)\.16b\}, \[%\[in_ptr\]\], #32$',s)
    if m: assert int(m[2])==int(m[1])+1; return 'LD2B %s'%m[1]
    m=re.match(r'(uzp[12]|sqsub) v(\d+)\.16b, v(\d+)\.16b, v(\d+)\.16b$',s)
    if m: return '%s %s %s %s'%(m[1].upper(),m[2],m[3],m[4])
    m=re.match(r'sri v(\d+)\.16b, v(\d+)\.16b, #(\d+)$',s)
    if m: return 'SRI %s %s %s'%(m[1],m[2],m[3])
    m=re.match(r'st1 \{v(\d+)\.4s\}, \[%\[out_ptr\]\], #16$',s)
    if m: return 'ST1 %s'%m[1]
    m=re.match(r'dup v(\d+)\.16b, ',s)
    if m: return 'DUPZ %s'%m[1]
    if s=='sub %[n], %[n], #1': return 'SUBN'
    m=re.match(r'cmp %\[n\], #(\d)$',s)
    if m: return 'CMPN %s'%m[1]
    if s in('beq 1f','bge 2b','1:','2:'): return '@'+s
    return '???'+s
out=[];cur=[]
for n,l in enumerate(src,1):
    m=re.match(r'\s*"(.*)\\n"',l)
    if m: cur.append((n,tr(m[1])))
    elif cur and l.strip().startswith(':'): out.append(cur);cur=[]
if len(sys.argv)>1:
    for p in out:
        for x in p: print(*x)
coq=open('/verif/rocq/theories/BitpackA64.v').read()
def prog(name):
    m=re.search(r'Definition %s : list instr :=\s*\[(.*?)\]\.'%name,coq,re.S)
    return [re.sub(r'\s+',' ',x.strip()) for x in m[1].split(';')]
for p,nm in zip(out,['float','int8']):
    segs=[[]]
    for n,i in p:
        if i.startswith('@'):
            segs.append([])
            print(nm,n,i)
        else: segs[-1].append(i)
    segs=[s for s in segs if s]
    want=[prog(nm+x) for x in ('_pro','_body','_epi')]
    print(nm,'match' if segs==want else 'DIFFER',[len(x) for x in segs],[len(x) for x in want], [(p[0][0],p[-1][0])])
