#!/usr/bin/env python3
"""Preprocesses kernels_aarch64.h, translates every instruction of the two asm
blocks into the constructors of A64.v and compares, for each output type and
MAX_STREAMING setting, with the programs k44 / k84 of A64Bgemm.v as printed by Coq."""
import re,subprocess,sys,tempfile,os
src='/repo/larq_compute_engine/core/bgemm/kernels_aarch64.h'
d=tempfile.mkdtemp()
open(d+'/k.h','w').write(re.sub(r'(?m)^#include.*$','',open(src).read()))
def blocks(opt):
    t=subprocess.run(['cpp','-P','-DRUY_PLATFORM_NEON_64=1','-DRUY_OPT_ASM=1','-DRUY_OPT_MAX_STREAMING=%d'%opt,'-DRUY_OPT(x)=RUY_OPT_##x',
        '-DRUY_STR_(x)=#x','-DRUY_STR(x)=RUY_STR_(x)',d+'/k.h'],capture_output=True,text=True,check=True).stdout
    out=[]
    for m in re.finditer(r'asm volatile\((.*?)\n\s*: \[lhs_col_ptr\]',t,re.S):
        s=''.join(re.findall(r'"((?:[^"\\]|\\.)*)"',m[1]))
        out.append([l.strip() for l in s.split('\\n') if l.strip()])
    return out
def select(lines,ty):
    out=[];stack=[]   # (active, taken)
    def ev(c): return any({'float':'float_output','int8':'int8_output','bits':'bitpacked_output'}[ty] in x for x in c.split('||'))
    for l in lines:
        if l.startswith('.if '): v=ev(l); stack.append([v,v])
        elif l.startswith('.elseif '):
            t=stack[-1]; v=ev(l) and not t[1]; stack[-1]=[v,t[1] or v]
        elif l=='.endif': stack.pop()
        elif all(a for a,_ in stack): out.append(l)
    return out
OPS={'%[params]':'PARAMS','%[lhs_col_ptr]':'LHS_COL','%[rhs_col_ptr]':'RHS_COL','%[lhs_ptr]':'LHS','%[rhs_ptr]':'RHS','%[dst_col_ptr]':'DST_COL','%[dst_ptr]':'DST',
 '%w[row]':'ROW','%x[row]':'ROW','%w[col]':'COL','%w[dst_rows]':'DST_ROWS','%w[dst_cols]':'DST_COLS','%[dst_tmp_buf]':'TMPBUF'}
def x(r):
    r=r.strip()
    if r in OPS: return OPS[r]
    m=re.fullmatch(r'[xw](\d+)',r); return '(Xr %s)'%m[1]
def isw(r): r=r.strip(); return r.startswith('w') or r.startswith('%w')
def imm(s): z=int(s.strip().lstrip('#')); return str(z) if z>=0 else '(%d)'%z
def tr(l):
    m=re.fullmatch(r'(\d+):',l)
    if m: return 'LBL %s'%m[1]
    m=re.fullmatch(r'b(eq|lt|ge|le)? (\d+)[fb]',l)
    if m: return ('BC %s %s'%(m[1].upper(),m[2])) if m[1] else 'B %s'%m[2]
    m=re.fullmatch(r'movi v(\d+)\.16b, #0',l)
    if m: return 'V (VZERO %s)'%m[1]
    m=re.fullmatch(r'(eor|addp) v(\d+)\.16b, v(\d+)\.16b, v(\d+)\.16b',l)
    if m: return 'V (V%s %s %s %s)'%(m[1].upper(),m[2],m[3],m[4])
    m=re.fullmatch(r'and v(\d+)\.(16b|8b), v(\d+)\.\2, v(\d+)\.\2',l)
    if m: return 'V (VAND%s %s %s %s)'%('' if m[2]=='16b' else '8',m[1],m[3],m[4])
    for pat,f in [(r'cnt v(\d+)\.16b, v(\d+)\.16b','VCNT'),(r'uaddlp v(\d+)\.8h, v(\d+)\.16b','VUADDLP'),(r'uadalp v(\d+)\.4s, v(\d+)\.8h','VUADALP4'),
        (r'uadalp v(\d+)\.8h, v(\d+)\.16b','VUADALP2'),(r'scvtf v(\d+)\.4s, v(\d+)\.4s','VSCVTF'),(r'fcvtns v(\d+)\.4s, v(\d+)\.4s','VFCVTNS'),
        (r'sqxtn v(\d+)\.4h, v(\d+)\.4s','VSQXTN4H'),(r'sqxtn2 v(\d+)\.8h, v(\d+)\.4s','VSQXTN8H'),(r'sqxtn v(\d+)\.8b, v(\d+)\.8h','VSQXTN8B'),
        (r'xtn v(\d+)\.4h, v(\d+)\.4s','VXTN'),(r'xtn2 v(\d+)\.8h, v(\d+)\.4s','VXTN2'),(r'addv h(\d+), v(\d+)\.8h','VADDV')]:
        m=re.fullmatch(pat,l)
        if m: return 'V (%s %s %s)'%(f,m[1],m[2])
    m=re.fullmatch(r'(smax|smin|fmul|fadd|cmgt) v(\d+)\.4s, v(\d+)\.4s, v(\d+)\.4s',l)
    if m: return 'V (V%s %s %s %s)'%(m[1].upper(),m[2],m[3],m[4])
    m=re.fullmatch(r'shl v(\d+)\.4s, v(\d+)\.4s, #(\d+)',l)
    if m: return 'V (VSHL4 %s %s %s)'%(m[1],m[2],m[3])
    m=re.fullmatch(r'(uxtl|ushll) v(\d+)\.4s, v(\d+)\.4h(?:, #(\d+))?',l)
    if m: return 'V (VUSHLL %s %s %s)'%(m[2],m[3],m[4] or 0)
    m=re.fullmatch(r'(uxtl2|ushll2) v(\d+)\.4s, v(\d+)\.8h(?:, #(\d+))?',l)
    if m: return 'V (VUSHLL2 %s %s %s)'%(m[2],m[3],m[4] or 0)
    m=re.fullmatch(r'ld1 \{(.*)\}, \[(.*?\]?)\](?:, #(\d+))?',l)
    if m:
        rs=re.findall(r'v(\d+)\.4s',m[1]); assert len(rs)==len(m[1].split(','))
        if m[3]: assert int(m[3])==16*len(rs),l
        return 'LD1 [%s] %s %s'%('; '.join(rs),x(m[2]),'true' if m[3] else 'false')
    m=re.fullmatch(r'ld1r \{v(\d+)\.4s\}, \[(x\d+)\]',l)
    if m: return 'LD1R %s %s'%(m[1],x(m[2]))
    m=re.fullmatch(r'dup v(\d+)\.4s, (w\d+)',l)
    if m: return 'DUP %s %s'%(m[1],x(m[2]))
    m=re.fullmatch(r'ins v(\d+)\.d\[([01])\], (x\d+)',l)
    if m: return 'INSD %s %s %s'%(m[1],'true' if m[2]=='1' else 'false',x(m[3]))
    m=re.fullmatch(r'mov v(\d+)\.b\[0\], (w\d+)',l)
    if m: return 'INSB %s %s'%(m[1],x(m[2]))
    m=re.fullmatch(r'str ([qds])(\d+), \[(x\d+)(?:, #(\d+))?\]',l)
    if m: return 'STR %s %s %s %s'%(m[2],{'q':16,'d':8,'s':4}[m[1]],x(m[3]),m[4] or 0)
    m=re.fullmatch(r'st1 \{v(\d+)\.b\}\[0\], \[(x\d+)\](?:, (x\d+))?',l)
    if m: return 'ST1B %s %s %s'%(m[1],x(m[2]),'(Some %s)'%x(m[3]) if m[3] else 'None')
    m=re.fullmatch(r'ldr ([xw]\d+), \[%\[params\], #(\d+)\]',l)
    if m: return 'LDR%s %s %s'%(m[1][0].upper(),x(m[1]),m[2])
    m=re.fullmatch(r'(ldr|str)(b?) (w\d+), \[(x\d+), (x\d+)(?:, lsl #(\d))?\]',l)
    if m: return '%sT %s %s %s %s %s'%(m[1].upper(),x(m[3]),1 if m[2] else 4,x(m[4]),x(m[5]),m[6] or 0)
    m=re.fullmatch(r'mov (\S+), #?(\d+)',l)
    if m: return 'MOVI %s %s'%(x(m[1]),m[2])
    m=re.fullmatch(r'mov (\S+), (\S+)',l)
    if m: assert isw(m[1])==isw(m[2]) or m[2][0]=='%' ; return 'MOV%s %s %s'%('W' if isw(m[1]) else 'X',x(m[1]),x(m[2]))
    m=re.fullmatch(r'add (\S+), (\S+), #(\d+)',l)
    if m: return 'ADD%sI %s %s %s'%('W' if isw(m[1]) else 'X',x(m[1]),x(m[2]),m[3])
    m=re.fullmatch(r'add (\S+), (\S+), (\S+?)(?:, lsl #(\d+))?',l)
    if m: assert not isw(m[1]); return 'ADDX %s %s %s %s'%(x(m[1]),x(m[2]),x(m[3]),m[4] or 0)
    m=re.fullmatch(r'(sub|subs) (\S+), (\S+), #(\d+)',l)
    if m: assert isw(m[2]); return '%sWI %s %s %s'%(m[1].upper(),x(m[2]),x(m[3]),m[4])
    m=re.fullmatch(r'sub (\S+), (\S+), (\S+)',l)
    if m: assert isw(m[1]); return 'SUBW %s %s %s'%(x(m[1]),x(m[2]),x(m[3]))
    m=re.fullmatch(r'and (w\d+), (w\d+), #(-?\d+)',l)
    if m: return 'ANDWI %s %s %s'%(x(m[1]),x(m[2]),imm(m[3]))
    m=re.fullmatch(r'lsl (x\d+), (x\d+), #(\d+)',l)
    if m: return 'LSLXI %s %s %s'%(x(m[1]),x(m[2]),m[3])
    m=re.fullmatch(r'lsl (w\d+), (w\d+), (w\d+)',l)
    if m: return 'LSLW %s %s %s'%(x(m[1]),x(m[2]),x(m[3]))
    m=re.fullmatch(r'cmp (\S+), #(\d+)',l)
    if m: assert isw(m[1]); return 'CMPWI %s %s'%(x(m[1]),m[2])
    m=re.fullmatch(r'cmp (\S+), (\S+)',l)
    if m: assert isw(m[1]) and isw(m[2]); return 'CMPW %s %s'%(x(m[1]),x(m[2]))
    m=re.fullmatch(r'csel (w\d+), (w\d+), (w\d+), (\w\w)',l)
    if m: return 'CSELW %s %s %s %s'%(x(m[1]),x(m[2]),x(m[3]),m[4].upper())
    m=re.fullmatch(r'ccmp (w\d+), (w\d+), 0, eq',l)
    if m: return 'CCMPEQ %s %s'%(x(m[1]),x(m[2]))
    return '??? '+l
cases=[('k44 false DFloat',0,0,'float'),('k44 false DInt8',0,0,'int8'),('k44 true DFloat',1,0,'float'),('k44 true DInt8',1,0,'int8'),
       ('k84 DFloat',1,1,'float'),('k84 DInt8',1,1,'int8'),('k84 DBits',1,1,'bits')]
v='From Coq Require Import ZArith List.\nImport ListNotations.\nOpen Scope Z_scope.\nFrom Verif Require Import A64 A64Bgemm.\nSet Printing Width 100000.\nSet Printing Depth 100000.\n'
for c,*_ in cases: v+='Eval vm_compute in (%s).\n'%c
open(d+'/P.v','w').write(v)
o=subprocess.run(['coqc','-Q','/verif/rocq/theories','Verif','P.v'],cwd=d,capture_output=True,text=True)
if o.returncode: print(o.stderr); sys.exit(1)
outs=re.findall(r'= (\[.*?\])\s*: list',o.stdout,re.S)
norm=lambda s: re.sub(r'%nat|%Z','',re.sub(r'\s+',' ',s)).replace('(Xr','(Xr')
bad=0
for (name,opt,bi,ty),s in zip(cases,outs):
    s=norm(s)[1:-1]
    coq=[];depth=0;cur=''
    for ch in s:
        if ch in '[(': depth+=1
        if ch in '])': depth-=1
        if ch==';' and depth==0: coq.append(cur.strip());cur=''
        else: cur+=ch
    coq.append(cur.strip())
    hdr=[tr(l) for l in select(blocks(opt)[bi],ty)]
    n=[i for i,(a,b) in enumerate(zip(hdr,coq)) if a!=b]
    ok=hdr==coq
    print(name,'match' if ok else 'DIFFER',len(hdr),len(coq))
    if not ok:
        bad=1
        for i in n[:5]: print('  ',i,hdr[i],'|',coq[i])
sys.exit(bad)
