import re,random,subprocess,os,shutil,json,sys
SRC='/verif/rocq/theories'
f=sys.argv[1]; N=int(sys.argv[2]); SEED=int(sys.argv[3]); random.seed(SEED)
order=[l.strip()[9:-2] for l in open('/verif/rocq/_CoqProject') if l.startswith('theories/')]
order=[x for x in order if not x.startswith('Conform')]
text={x:open(f'{SRC}/{x}.v').read() for x in order}
imp={}
for x in order:
    d=set()
    for m in re.finditer(r'From Verif Require Import ([^.]*)\.',text[x]): d|=set(m.group(1).split())
    imp[x]=d
dep={f}
for x in order:
    if imp[x]&dep: dep.add(x)
rest=[x for x in order if x in dep]
# sensitive files first where dependencies permit: keep order but move Prop* late (already)
out=open(f'/tmp/sweep/mout_{f}_{SEED}.jsonl','w')
s=text[f]
def spans(s):
    r=[];d=0;i=0
    while i<len(s):
        if s.startswith('(*',i):
            if d==0: st=i
            d+=1;i+=2
        elif s.startswith('*)',i) and d>0:
            d-=1;i+=2
            if d==0: r.append((st,i))
        else: i+=1
    return r
sp=spans(s); inc=lambda p: any(a<=p<b for a,b in sp)
# proof/lemma regions
pr=[(m.start(),m.end()) for m in re.finditer(r'^(?:Lemma|Theorem|Example|Inductive|Record)[\s\S]*?(?:Qed\.|\.\s*$)',s,re.M)]
inp=lambda p: any(a<=p<b for a,b in pr)
cand=[]
def add(m,r):
    if m.start()>s.find('Require Import') and not inc(m.start()) and not inp(m.start()): cand.append((m.start(),m.end(),r))
for m in re.finditer(r'(?<![\w.])\d+(?![\w.])',s):
    v=int(m.group()); add(m,str(v+1)); 
    if v>0: add(m,str(v-1))
for m in re.finditer(r'(<=\?|>\?|<\?|(?<![<>])=\?|\|\||&&)',s):
    add(m,{'<=?':'<?','>?':'>=?','<?':'<=?','=?':'<=?','||':'&&','&&':'||'}[m.group()])
for m in re.finditer(r'\b(true|false)\b',s): add(m,'false' if m.group()=='true' else 'true')
for m in re.finditer(r'\(S (\w+)\)',s): add(m,m.group(1))
for m in re.finditer(r'\b(EUnexpected|EOverflow|EUnknownField)\b',s): add(m,{'EUnexpected':'EOverflow','EOverflow':'EUnexpected','EUnknownField':'EUnexpected'}[m.group()])
SW=[('tk_end','tk_idx'),('tk_idx','tk_end'),('f_size','f_vsize'),('f_vsize','f_size'),('d_dest','d_off'),('KArr','KObj'),('KObj','KArr'),('KNull','KTrue'),('KInt','KNum'),('KArrEnd','KObjEnd'),('KObjEnd','KArrEnd'),
    ('W8','W16'),('W16','W32'),('W32','W64'),('W64','W32'),('set_doff','set_doff'),('EPtr','EPtrRecur'),('EMap','EMapRecur'),('ESlice','ESliceRecur'),('EStruct','EStructRecur'),('negb',''),('Nat.eqb','Nat.leb'),('Nat.leb','Nat.ltb'),('Nat.ltb','Nat.leb'),('raw_of','body_of'),('body_of','raw_of'),('on_val_end','on_ptr')]
for a,b in SW:
    if a==b: continue
    for m in re.finditer(r'\b'+re.escape(a)+r'\b',s): add(m,b)
random.shuffle(cand)
done=0
W=f'/tmp/sweep/mw_{f}_{SEED}'
for a,b,r in cand:
    if done>=N: break
    ln=s.count('\n',0,a)+1; line=s.split('\n')[ln-1].strip()
    shutil.rmtree(W,ignore_errors=True); os.makedirs(W)
    for x in os.listdir(SRC):
        if x.endswith('.vo') and x[:-3] not in dep: os.symlink(f'{SRC}/{x}',f'{W}/{x}')
    for x in rest: shutil.copy(f'{SRC}/{x}.v',W)
    open(f'{W}/{f}.v','w').write(s[:a]+r+s[b:])
    res='SURVIVED'
    for x in rest:
        try: q=subprocess.run(f'ulimit -v 6000000; coqc -Q . Verif {x}.v',shell=True,cwd=W,capture_output=True,text=True,timeout=200)
        except subprocess.TimeoutExpired: res=f'{x}.v: timeout'; break
        if q.returncode:
            m=re.search(r'line (\d+)',q.stderr); l=int(m.group(1)) if m else 0
            L=open(f'{W}/{x}.v').read().split('\n'); nm=''
            for k in range(l-1,-1,-1):
                z=re.match(r'\s*(?:Theorem|Lemma|Example|Definition|Fixpoint|Corollary)\s+([\w\']+)',L[k])
                if z: nm=z.group(1);break
            res='INVALID' if x==f else f'{x}.v:{nm}'; break
    if res=='INVALID': continue
    done+=1
    L=s.split('\n');dn=''
    for k in range(ln-1,-1,-1):
        z=re.match(r'\s*(?:Definition|Fixpoint|with)\s+([\w\']+)',L[k])
        if z: dn=z.group(1);break
    out.write(json.dumps(dict(file=f,definition=dn,line=ln,col=a-s.rfind('\n',0,a)-1,text=line[:160],old=s[a:b],new=r,res=res))+'\n'); out.flush()
