#!/usr/bin/env python3
"""Translates the asm statements of kernel_8x4x{1,2,4}_aarch64.h into the
constructors of A64.v and compares them with the programs of A64Ind.v as printed
by Coq, for both values of is_grouped."""
import re,subprocess,sys,tempfile
d=tempfile.mkdtemp()
X={'w_ptr':40,'indirection_ptr':41,'a_ptr_0':42,'a_ptr_1':43,'a_ptr_2':44,'a_ptr_3':45,'fs_index':46,'depth':47,'input_depth_offset':48,'input_depth_offset_bytes':49,
   'clamp_min_addr':50,'clamp_max_addr':51,'multiplier_addr':52,'bias_addr':53,'output_transform_addr':54,'c_out_index':55}
def stmts(D):
    t=open('/repo/larq_compute_engine/core/indirect_bgemm/kernel_8x4x%d_aarch64.h'%D).read()
    t=re.sub(r'(?m)^#include.*$','',t)
    open(d+'/k.h','w').write(t)
    t=subprocess.run(['cpp','-P','-D__aarch64__=1',d+'/k.h'],capture_output=True,text=True,check=True).stdout
    out=[]
    for m in re.finditer(r'\basm(?: volatile)?\s*\((.*?)\n?\s*:\s*\[',t,re.S):
        s=''.join(re.findall(r'"((?:[^"\\]|\\.)*)"',m[1]))
        out.append([l.replace('\\t','').strip() for l in s.split('\\n') if l.replace('\\t','').strip()])
    return out
def sel(ls,grouped):
    out=[];on=True
    for l in ls:
        if l.startswith('.if'): assert l=='.if %c[is_grouped]',l; on=grouped
        elif l=='.endif': on=True
        elif on: out.append(l)
    return out
V=r'(v\d+|%\[(?:a|w|accum|result)_\d+\])'
def v(r):
    m=re.fullmatch(r'v(\d+)',r)
    if m: return m[1]
    m=re.fullmatch(r'%\[(a|w|accum)_(\d)\]',r)
    if m: return str({'a':20,'w':24,'accum':32}[m[1]]+int(m[2]))
    m=re.fullmatch(r'%\[result_(\d)(\d)\]',r)
    return str(40+2*int(m[1])+int(m[2]))
def x(r):
    r=r.strip()
    m=re.fullmatch(r'[xw](\d+)',r)
    if m: return '(Xr %s)'%m[1]
    m=re.fullmatch(r'%w?\[(\w+)\]',r)
    return '(Xr %d)'%X[m[1]]
Q=r'(?:q(\d+)|%q\[(\w+)\])'
def q(m,i): return m[i] if m[i] else v('%['+m[i+1]+']')
def im(s): return s if not s.startswith('-') else '(%s)'%s
def tr(l):
    l=re.sub(r'\s+',' ',l)
    m=re.fullmatch(r'(\d+):',l)
    if m: return 'LBL %s'%m[1]
    m=re.fullmatch(r'bgt (\d+)b',l)
    if m: return 'BC GT %s'%m[1]
    m=re.fullmatch(r'movi '+V+r'\.8h, #0',l)
    if m: return 'V (VZERO %s)'%v(m[1])
    m=re.fullmatch(r'(eor|addp) '+V+r'\.16b, '+V+r'\.16b, '+V+r'\.16b',l)
    if m: return 'V (V%s %s %s %s)'%(m[1].upper(),v(m[2]),v(m[3]),v(m[4]))
    m=re.fullmatch(r'(smax|smin|fmul|fadd) '+V+r'\.4s, '+V+r'\.4s, '+V+r'\.4s',l)
    if m: return 'V (V%s %s %s %s)'%(m[1].upper(),v(m[2]),v(m[3]),v(m[4]))
    for pat,f in [(r'cnt @\.16b, @\.16b','VCNT'),(r'uadalp @\.8h, @\.16b','VUADALP2'),(r'scvtf @\.4s, @\.4s','VSCVTF'),(r'fcvtns @\.4s, @\.4s','VFCVTNS'),
        (r'sqxtn @\.4h, @\.4s','VSQXTN4H'),(r'sqxtn2 @\.8h, @\.4s','VSQXTN8H'),(r'sqxtn @\.8b, @\.8h','VSQXTN8B')]:
        m=re.fullmatch(pat.replace('@',V),l)
        if m: return 'V (%s %s %s)'%(f,v(m[1]),v(m[2]))
    m=re.fullmatch(r'ushll '+V+r'\.4s, '+V+r'\.4h, #(\d+)',l)
    if m: return 'V (VUSHLL %s %s %s)'%(v(m[1]),v(m[2]),m[3])
    m=re.fullmatch(r'ushll2 '+V+r'\.4s, '+V+r'\.8h, #(\d+)',l)
    if m: return 'V (VUSHLL2 %s %s %s)'%(v(m[1]),v(m[2]),m[3])
    m=re.fullmatch(r'ldr '+Q+r', \[(\S+?)(?:, #(-?\d+))?\]',l)
    if m: return 'LDRQ %s %s %s'%(q(m,1),x(m[3]),im(m[4] or '0'))
    m=re.fullmatch(r'ldr '+Q+r', \[(x\d+), (%\[\w+\])\]',l)
    if m: return 'LDRQX %s %s %s'%(q(m,1),x(m[3]),x(m[4]))
    m=re.fullmatch(r'ldr (x\d+), \[(\S+), #(\d+)\]',l)
    if m: return 'LDRP %s %s %s'%(x(m[1]),x(m[2]),m[3])
    m=re.fullmatch(r'ldp (x\d+|%\[\w+\]), (x\d+|%\[\w+\]), \[(\S+?)(?:, #(\d+))?\]',l)
    if m: return 'LDPX %s %s %s %s'%(x(m[1]),x(m[2]),x(m[3]),m[4] or 0)
    m=re.fullmatch(r'ldp q(\d+), q(\d+), \[(x\d+)\]',l)
    if m: return 'LDPQ %s %s %s'%(m[1],m[2],x(m[3]))
    m=re.fullmatch(r'ld1r \{'+V+r'\.4s\}, \[(\S+)\], #4',l)
    if m: return 'LD1RP %s %s'%(v(m[1]),x(m[2]))
    m=re.fullmatch(r'ld1r \{'+V+r'\.4s\}, \[(\S+)\]',l)
    if m: return 'LD1R %s %s'%(v(m[1]),x(m[2]))
    m=re.fullmatch(r'ld1 \{'+V+r'\.d\}\[([01])\], \[(\S+)\](, #8)?',l)
    if m: return 'LD1D %s %s %s %s'%(v(m[1]),'true' if m[2]=='1' else 'false',x(m[3]),'true' if m[4] else 'false')
    m=re.fullmatch(r'ld1 \{'+V+r'\.4s\}, \[(\S+)\], #16',l)
    if m: return 'LD1 [%s] %s true'%(v(m[1]),x(m[2]))
    m=re.fullmatch(r'add (\S+), (\S+), #(\d+)',l)
    if m: return 'ADDXI %s %s %s'%(x(m[1]),x(m[2]),m[3])
    m=re.fullmatch(r'add (\S+), (\S+), (\S+), lsl #(\d+)',l)
    if m: return 'ADDX %s %s %s %s'%(x(m[1]),x(m[2]),x(m[3]),m[4])
    m=re.fullmatch(r'(subs?) (w\d+|%w\[\w+\]), (w\d+|%w\[\w+\]), #(\d+)',l)
    if m: return '%sWI %s %s %s'%(m[1].upper(),x(m[2]),x(m[3]),m[4])
    return '??? '+l
cases=[(n%D,D,i,g) for D in (1,2,4) for i,n in enumerate(['kdeep%d','kflat%d','kfloat%d','kint8x%d']) for g in (True,False)]
w='From Coq Require Import ZArith List.\nImport ListNotations.\nOpen Scope Z_scope.\nFrom Verif Require Import A64 A64Ind.\nSet Printing Width 100000.\nSet Printing Depth 100000.\n'
for c,_,_,g in cases: w+='Eval vm_compute in (%s %s).\n'%(c,str(g).lower())
open(d+'/P.v','w').write(w)
o=subprocess.run(['coqc','-Q','/verif/rocq/theories','Verif','P.v'],cwd=d,capture_output=True,text=True)
if o.returncode: print(o.stderr); sys.exit(1)
outs=re.findall(r'= (\[.*?\])\s*: list',o.stdout,re.S)
assert len(outs)==len(cases)
bad=0
for (name,D,i,g),s in zip(cases,outs):
    s=re.sub(r'%nat|%Z','',re.sub(r'\s+',' ',s))[1:-1]
    coq=[];depth=0;cur=''
    for ch in s:
        if ch in '[(': depth+=1
        if ch in '])': depth-=1
        if ch==';' and depth==0: coq.append(cur.strip());cur=''
        else: cur+=ch
    coq.append(cur.strip())
    st=stmts(D); assert len(st)==4,len(st)
    hdr=[tr(l) for l in sel(st[i],g)]
    ok=hdr==coq
    print(name,'grouped' if g else 'plain','match' if ok else 'DIFFER',len(hdr),len(coq))
    if not ok:
        bad=1
        for j,(a,b) in [z for z in enumerate(zip(hdr,coq)) if z[1][0]!=z[1][1]][:5]: print('  ',j,a,'|',b)
sys.exit(bad)
