#!/usr/bin/env python3
"""Translates the asm statement of core/bgemm/kernels_arm32.h (BinaryKernelNeonOutOfOrder4x4,
32-bit Arm) into the constructors of A64.v and compares it with A32.k32 as printed by
Coq, for float and int8 outputs. `add rd, rn, #imm` is ADDWI on integers and ADDXI on
pointers in the model; the comparison does not distinguish them. The stack frame
set-up and tear-down (sub sp / add sp) is not part of the model."""
import re,subprocess,sys,tempfile
d=tempfile.mkdtemp()
t=re.sub(r'(?m)^#include.*$','',open('/repo/larq_compute_engine/core/bgemm/kernels_arm32.h').read())
open(d+'/k.h','w').write('#define RUY_STR2(s) #s\n#define RUY_STR(s) RUY_STR2(s)\n'+t)
t=subprocess.run(['cpp','-P','-D__arm__=1','-DRUY_PLATFORM_NEON=1','-DRUY_PLATFORM_NEON_32=1','-DRUY_OPT(x)=1',d+'/k.h'],capture_output=True,text=True,check=True).stdout
ms=list(re.finditer(r'\basm volatile\s*\(',t)); assert len(ms)==1
body=t[ms[0].end():]; body=body[:re.search(r'"\s*:\s*\[',body).end()]
s=''.join(re.findall(r'"((?:[^"\\]|\\.)*)"',body))
lines=[re.sub(r'\s+',' ',l.replace('\\t','')).strip() for l in s.split('\\n') if l.strip()]
def sel(ty):
    out=[];on=True
    for l in lines:
        if l.startswith('.if ') or l.startswith('.elseif '): on=('%c[float_output]' in l)==(ty=='DFloat')
        elif l=='.endif': on=True
        elif on: out.append(l)
    return out
ST={0:'DST_COL',16:'DST',32:'ROW',48:'COL',64:'LHS_COL',80:'RHS_COL'}
OP={'lhs_ptr':'LHS','rhs_ptr':'RHS','dst_tmp_buf':'TMPBUF'}
def x(r):
    r=r.strip(); m=re.fullmatch(r'r(\d+)',r)
    return '(Xr %s)'%m[1] if m else OP[re.fullmatch(r'%\[(\w+)\]',r)[1]]
def tr(l):
    g=re.fullmatch
    m=g(r'(\d+):',l)
    if m: return ['LBL '+m[1]]
    m=g(r'b(eq|ge|le|lt|gt) (\d+)[fb]',l)
    if m: return ['BC %s %s'%(m[1].upper(),m[2])]
    m=g(r'b (\d+)f',l)
    if m: return ['B '+m[1]]
    if g(r'it (eq|gt)',l) or g(r'(sub|add) sp, sp, #96',l): return []
    m=g(r'ldr r(\d+), \[%\[params\], #(\d+)\]',l)
    if m: return ['%s (Xr %s) %s'%('LDRX' if m[2] in('0','4','8','60','64') else 'LDRW',m[1],m[2])]
    m=g(r'ldr r(\d+), \[sp, #(\d+)\]',l)
    if m: return ['MOVX (Xr %s) %s'%(m[1],ST[int(m[2])])]
    m=g(r'str r(\d+), \[sp, #(\d+)\]',l)
    if m: return ['MOVX %s (Xr %s)'%(ST[int(m[2])],m[1])]
    m=g(r'mov (\S+), #(\d+)',l)
    if m: return ['MOVI %s %s'%(x(m[1]),m[2])]
    m=g(r'mov (\S+), (r\d+|%\[\w+\])',l)
    if m: return ['MOVX %s %s'%(x(m[1]),x(m[2]))]
    m=g(r'movgt (r\d+), (r\d+)',l)
    if m: return ['CSELW %s %s %s GT'%(x(m[1]),x(m[2]),x(m[1]))]
    m=g(r'cmp (r\d+), #(\d+)',l)
    if m: return ['CMPWI %s %s'%(x(m[1]),m[2])]
    m=g(r'cmp (r\d+), (r\d+)',l)
    if m: return ['CMPW %s %s'%(x(m[1]),x(m[2]))]
    m=g(r'cmpeq (r\d+), (r\d+)',l)
    if m: return ['CMPEQ %s %s'%(x(m[1]),x(m[2]))]
    m=g(r'add (r\d+), (r\d+), #(\d+)',l)
    if m: return ['ADDI %s %s %s'%(x(m[1]),x(m[2]),m[3])]
    m=g(r'add (r\d+), (r\d+), (r\d+)(?:, lsl #(\d+))?',l)
    if m: return ['ADDX %s %s %s %s'%(x(m[1]),x(m[2]),x(m[3]),m[4] or 0)]
    m=g(r'sub (r\d+), (r\d+), (r\d+)',l)
    if m: return ['SUBW %s %s %s'%(x(m[1]),x(m[2]),x(m[3]))]
    m=g(r'vmov\.s8 q(\d+), #0',l)
    if m: return ['V (VZERO %s)'%m[1]]
    m=g(r'v(eor|max|min)\.s(8|32) q(\d+), q(\d+), q(\d+)',l)
    if m and (m[1]=='eor')==(m[2]=='8'): return ['V (%s %s %s %s)'%({'eor':'VEOR','max':'VSMAX','min':'VSMIN'}[m[1]],m[3],m[4],m[5])]
    m=g(r'v(mul|add)\.f32 q(\d+), q(\d+), q(\d+)',l)
    if m: return ['V (VF%s %s %s %s)'%(m[1].upper(),m[2],m[3],m[4])]
    m=g(r'vcnt\.s8 q(\d+), q(\d+)',l)
    if m: return ['V (VCNT %s %s)'%(m[1],m[2])]
    m=g(r'vpadd\.i8 d(\d+), d(\d+), d(\d+)',l)
    if m: return ['V (VPADDD %s %s %s)'%(m[1],m[2],m[3])]
    m=g(r'vpaddl\.u8 q(\d+), q(\d+)',l)
    if m: return ['V (VUADDLP %s %s)'%(m[1],m[2])]
    m=g(r'vpadal\.u16 q(\d+) ?, q(\d+)',l)
    if m: return ['V (VUADALP4 %s %s)'%(m[1],m[2])]
    m=g(r'vshl\.s32 q(\d+), q(\d+), #(\d+)',l)
    if m: return ['V (VSHL4 %s %s %s)'%(m[1],m[2],m[3])]
    m=g(r'vcvt\.f32\.s32 q(\d+), q(\d+)',l)
    if m: return ['V (VSCVTF %s %s)'%(m[1],m[2])]
    m=g(r'vcvt\.s32\.f32 q(\d+), q(\d+), #8',l)
    if m: return ['V (VCVT8 %s %s)'%(m[1],m[2])]
    m=g(r'vqrshrn\.s32 d(\d+), q(\d+), #(\d+)',l)
    if m: return ['V (VQRSHRN %s %s %s)'%(m[1],m[2],m[3])]
    m=g(r'vqmovn\.s16 d(\d+), q(\d+)',l)
    if m: return ['V (VQMOVN %s %s)'%(m[1],m[2])]
    m=g(r'vdup\.32 q(\d+), (r\d+)',l)
    if m: return ['DUP %s %s'%(m[1],x(m[2]))]
    m=g(r'vld1\.32 \{(d[\d, d]+)\}, \[(\S+)\]!',l)
    if m:
        ds=[int(a) for a in re.findall(r'\d+',m[1])]
        assert all(ds[i]==ds[0]+i for i in range(len(ds))) and ds[0]%2==0 and len(ds)%2==0
        return ['LD1 [%s] %s true'%('; '.join(str(a//2) for a in ds[::2]),x(m[2]))]
    m=g(r'vst1\.32 \{d(\d+), d(\d+)\}, \[(r\d+)\](?:, (r\d+))?',l)
    if m:
        assert int(m[2])==int(m[1])+1
        return ['STR %d 16 %s 0'%(int(m[1])//2,x(m[3]))]+(['ADDX %s %s %s 0'%(x(m[3]),x(m[3]),x(m[4]))] if m[4] else [])
    m=g(r'vst1\.32 \{d(\d+)\[0\]\}, \[(r\d+)\](?:, (r\d+))?',l)
    if m:
        assert int(m[1])%2==0
        return ['STR %d 4 %s 0'%(int(m[1])//2,x(m[2]))]+(['ADDX %s %s %s 0'%(x(m[2]),x(m[2]),x(m[3]))] if m[3] else [])
    m=g(r'(ldr|str)(b?) (r\d+), \[(r\d+), (r\d+)(?:, lsl #(\d))?\]',l)
    if m: return ['%sT %s %d %s %s %s'%(m[1].upper(),x(m[3]),1 if m[2] else 4,x(m[4]),x(m[5]),m[6] or 0)]
    return ['??? '+l]
w='From Coq Require Import ZArith List.\nImport ListNotations.\nOpen Scope Z_scope.\nFrom Verif Require Import A64 A64Bgemm A32.\nSet Printing Width 100000.\nSet Printing Depth 100000.\n'
for ty in('DFloat','DInt8'): w+='Eval vm_compute in (k32 %s).\n'%ty
open(d+'/P.v','w').write(w)
o=subprocess.run(['coqc','-Q','/verif/rocq/theories','Verif','P.v'],cwd=d,capture_output=True,text=True)
if o.returncode: print(o.stderr); sys.exit(1)
outs=re.findall(r'= (\[.*?\])\s*: list',o.stdout,re.S); assert len(outs)==2
bad=0
for ty,s in zip(('DFloat','DInt8'),outs):
    s=re.sub(r'%nat|%Z','',re.sub(r'\s+',' ',s))[1:-1]
    coq=[];depth=0;cur=''
    for ch in s:
        if ch in '[(': depth+=1
        if ch in '])': depth-=1
        if ch==';' and depth==0: coq.append(cur.strip());cur=''
        else: cur+=ch
    coq.append(cur.strip())
    coq=[re.sub(r'^ADD[WX]I ','ADDI ',c) for c in coq]
    hdr=[c for l in sel(ty) for c in tr(l)]
    ok=hdr==coq; bad+=not ok
    print('k32',ty,'match' if ok else 'DIFFER',len(hdr),len(coq))
    if not ok:
        for i,(a,b) in enumerate(zip(hdr,coq)):
            if a!=b: print(i,'source:',a,'| model:',b); break
sys.exit(bad)
