import re,random,subprocess,os,shutil,json,sys
random.seed(7)
SRC='/verif/rocq/theories'
CH={'Atoi':['Atoi','AtoiProofs','AtoiAny','PropsLeaf'],'JsonNum':['JsonNum','JsonNumProofs','PropsLeaf'],
    'Unescape':['Unescape','UnescapeProofs','PropsLeaf'],'Lookup':['Lookup','PropsLeaf']}
N={'Atoi':70,'JsonNum':70,'Unescape':80,'Lookup':30}
which=sys.argv[1:]
out=open('/tmp/sweep/out_%s.jsonl'%'_'.join(which),'w')
def strip(s):
    # comment spans
    spans=[];d=0;i=0
    while i<len(s):
        if s.startswith('(*',i):
            if d==0: st=i
            d+=1;i+=2
        elif s.startswith('*)',i) and d>0:
            d-=1;i+=2
            if d==0: spans.append((st,i))
        else: i+=1
    return spans
for f in which:
    s=open(f'{SRC}/{f}.v').read()
    lim=s.find('(** ** Specification')
    if lim<0: lim=len(s)
    lim2=s.find('\nLemma'); 
    if 0<lim2<lim: lim=lim2
    start=s.find('Open Scope'); start=max(start,s.find('Section Lookup'),0)
    sp=strip(s)
    inc=lambda p: any(a<=p<b for a,b in sp)
    cand=[]
    for m in re.finditer(r'(?<![\w.])\d+(?![\w.])(?!%nat =>)',s):
        if start<m.start()<lim and not inc(m.start()):
            v=int(m.group()); 
            cand.append((m.start(),m.end(),str(v+1)))
            if v>0: cand.append((m.start(),m.end(),str(v-1)))
    for m in re.finditer(r'(<=\?|>\?|<\?|=\?|\|\||&&)',s):
        if start<m.start()<lim and not inc(m.start()):
            r={'<=?':'<?','>?':'>=?','<?':'<=?','=?':'<=?','||':'&&','&&':'||'}[m.group()]
            cand.append((m.start(),m.end(),r))
    for m in re.finditer(r'(?<=[ (])([acr])([0-7])(?=[ )])',s):
        if start<m.start()<lim and not inc(m.start()) and not re.match(r'[^\n]*::',s[s.rfind('\n',0,m.start())+1:]): 
            cand.append((m.start(),m.end(),m.group(1)+str((int(m.group(2))+1)%4)))
    random.shuffle(cand)
    cand=cand[:N[f]]
    for a,b,r in cand:
        W='/tmp/sweep/w_'+f; shutil.rmtree(W,ignore_errors=True); os.makedirs(W)
        for x in os.listdir(SRC):
            if x.endswith('.vo') : os.symlink(f'{SRC}/{x}',f'{W}/{x}')
        for x in CH[f]:
            p=f'{W}/{x}.vo'
            if os.path.lexists(p): os.unlink(p)
            shutil.copy(f'{SRC}/{x}.v',W)
        open(f'{W}/{f}.v','w').write(s[:a]+r+s[b:])
        ln=s.count('\n',0,a)+1
        line=s.split('\n')[ln-1].strip(); col=a-s.rfind('\n',0,a)-1
        res='SURVIVED'
        for x in CH[f]:
            try: q=subprocess.run(['coqc','-Q','.','Verif',f'{x}.v'],cwd=W,capture_output=True,text=True,timeout=120)
            except subprocess.TimeoutExpired: res=f'{x}: timeout'; break
            if q.returncode:
                m=re.search(r'line (\d+)',q.stderr); l=int(m.group(1)) if m else 0
                L=open(f'{W}/{x}.v').read().split('\n'); nm=''
                for k in range(l-1,-1,-1):
                    z=re.match(r'\s*(?:Theorem|Lemma|Example|Definition|Fixpoint)\s+([\w\']+)',L[k])
                    if z: nm=z.group(1);break
                res=f'{x}.v:{nm}'; break
        # which definition
        L=s.split('\n');dn=''
        for k in range(ln-1,-1,-1):
            z=re.match(r'\s*(?:Definition|Fixpoint)\s+([\w\']+)',L[k])
            if z: dn=z.group(1);break
        out.write(json.dumps(dict(file=f,definition=dn,line=ln,col=col,text=line[:120],old=s[a:b],new=r,res=res))+'\n'); out.flush()
