"""Generates rocq/theories/Conformance.v from the Go tests of /repo: every decode test
(TestOK, TestOKPrepare, testErr, testErrCheck and the helpers of TestDecodeNumber) and every
case of TestAppendTypeToStack that can be written in the model.  What is left out is printed."""
import sys,re
sys.path.insert(0,'/verif/tools')
import goparse
REPO='/repo/'
skipped=[];NCASES=0
class Skip(Exception): pass
BASIC={'bool':('bool',),'string':('str',),'int':('int','s','W'),'int8':('int','s','8'),'int16':('int','s','16'),'int32':('int','s','32'),'int64':('int','s','64'),
 'uint':('int','u','W'),'uint8':('int','u','8'),'byte':('int','u','8'),'uint16':('int','u','16'),'uint32':('int','u','32'),'rune':('int','s','32'),'uint64':('int','u','64'),
 'uintptr':('int','u','W'),'float32':('float','32'),'float64':('float','64'),'any':('any',),'jscandec.Number':('number',),'Number':('number',),
 'json.Unmarshaler':('ifacem',),'encoding.TextUnmarshaler':('ifacem',)}
CONST={'MaxInt':2**63-1,'MinInt':-2**63,'MaxInt8':127,'MinInt8':-128,'MaxInt16':2**15-1,'MinInt16':-2**15,'MaxInt32':2**31-1,'MinInt32':-2**31,'MaxInt64':2**63-1,'MinInt64':-2**63,
 'MaxUint8':255,'MaxUint16':65535,'MaxUint32':2**32-1,'MaxUint64':2**64-1,'MaxUint':2**64-1}
class Scope:
    def __init__(s,parent=None): s.p=parent; s.t={}; s.v={}
    def look(s,n):
        x=s
        while x:
            if n in x.t: return x.t[n]
            x=x.p
        return None
    def var(s,n):
        x=s
        while x:
            if n in x.v: return x.v[n]
            x=x.p
        return None
class Named:
    def __init__(s,name,scope): s.name=name; s.scope=scope; s.under=None; s.json=False; s.text=False; s.err=False
def resolve(t,sc):
    k=t[0]
    if k=='name':
        x=sc.look(t[1])
        if x is not None: return x
        if t[1] in BASIC: return BASIC[t[1]]
        raise Skip('type '+t[1])
    if k=='slice': return ('slice',resolve(t[1],sc))
    if k=='arr': return ('arr',int(const(t[1])),resolve(t[2],sc))
    if k=='map': return ('map',resolve(t[1],sc),resolve(t[2],sc))
    if k=='ptr': return ('ptr',resolve(t[1],sc))
    if k=='struct': return ('struct',tuple((n,resolve(ty,sc),tag) for n,ty,tag in t[1]))
    raise Skip('type kind '+k)
def const(e):
    if e[0]=='num': return int(e[1],0)
    raise Skip('const')
def declare(sc,name,t,alias):
    if alias: sc.t[name]=resolve(t,sc); return
    nm=Named(name,sc); sc.t[name]=('named',nm); nm.under=resolve(t,sc)
    while nm.under[0]=='named': nm.under=nm.under[1].under
def U(t): return t[1].under if t[0]=='named' else t
def isuser(t): return t[0]=='named' and (t[1].json or t[1].text)
def size_align(t):
    u=U(t); k=u[0]
    if k=='bool': return 1,1
    if k in('str','number','any','ifacem'): return 16,8
    if k=='int':
        n=8 if u[2]=='W' else int(u[2])//8; return n,n
    if k=='float': n=int(u[1])//8; return n,n
    if k=='slice': return 24,8
    if k in('map','ptr'): return 8,8
    if k=='arr': s,a=size_align(u[2]); return u[1]*s,a
    if k=='struct':
        o,a,offs=layout(u); return o,a
    raise Skip(k)
def layout(u):
    o=0;al=1;offs=[];last=1
    for n,t,tag in u[1]:
        s,a=size_align(t); o=(o+a-1)//a*a; offs.append(o); o+=s; al=max(al,a); last=s
    if u[1] and last==0 and o>0: o+=1
    o=(o+al-1)//al*al
    return o,al,offs
def tagget(tag):
    # reflect.StructTag.Get("json")
    s=tag.decode()
    while s:
        s=s.lstrip(' ')
        m=re.match(r'([^ ":]+):("(?:\\.|[^"\\])*")',s)
        if not m: return b''
        if m.group(1)=='json': return goparse.unquote(m.group(2))
        s=s[m.end():]
    return b''
class Emit:
    """types of one group: environment and struct identities"""
    def __init__(s): s.env=[]; s.ids={}; s.structs={}
    def ty(s,t):
        k=t[0]
        if k=='named':
            nm=t[1]
            if id(nm) not in s.ids:
                i=len(s.env); s.ids[id(nm)]=i; s.env.append(None)
                if isuser(t): u='TOther'
                else: u=s.ty(nm.under)
                s.env[i]=(nm,f"Decl ({u}) {size_align(t)[0]} {'SSome' if nm.json else 'SNone'} {'SSome' if nm.text else 'SNone'}")
            return f'TNamed {s.ids[id(nm)]}'
        if k=='bool': return 'TBool'
        if k=='str': return 'TStr'
        if k=='number': return 'TNumber'
        if k=='any': return 'TAny'
        if k=='ifacem': return 'TIfaceM'
        if k=='int': return f"TInt (NK {'true' if t[1]=='s' else 'false'} {'WWord' if t[2]=='W' else 'W'+t[2]})"
        if k=='float': return 'TFloat B'+t[1]
        if k=='slice': return f'TSlice ({s.ty(t[1])})'
        if k=='arr': return f'TArr {t[1]} ({s.ty(t[2])})'
        if k=='map': return f'TMap ({s.ty(t[1])}) ({s.ty(t[2])})'
        if k=='ptr': return f'TPtr ({s.ty(t[1])})'
        if k=='struct':
            i=s.structs.setdefault(repr(t),len(s.structs))
            o,a,offs=layout(t)
            fs='; '.join(f'(Fld {B(n.encode())} {B(tagget(tag))} {off}, {s.ty(ft)})' for (n,ft,tag),off in zip(t[1],offs))
            return f'TStruct {i} {o} [{fs}]'
        raise Skip(k)
    def envs(s): return '['+'; '.join(x[1] for x in s.env)+']'
    def errs(s): return '['+'; '.join(f'{i}%nat' for i,x in enumerate(s.env) if x[0].err)+']'
def B(b):
    if b==b'': return '[]'
    if all((32<=c<127) or c in(10,9) for c in b): return '(bs "'+b.decode().replace('"','""')+'")'
    return '['+'; '.join(str(c) for c in b)+']'
def Z(n): return str(n) if n>=0 else f'({n})'
def decimal(txt):
    m=re.fullmatch(r'(-?)([0-9]*)(?:\.([0-9]*))?(?:[eE]([+-]?[0-9]+))?',txt)
    sg,i,f,e=m.groups(); f=f or ''
    v=int((i+f) or '0'); v=-v if sg else v
    return v,int(e or 0)-len(f)
# evaluation of Go expressions; typed values are (type, xv-text); untyped: (None,kind,val)
class Ev:
    def __init__(s,sc): s.sc=sc
    def zero(s,t): return 'XZ'
    def typ_of_expr(s,e):
        if e[0]=='type': return resolve(e[1],s.sc)
        if e[0]=='id' and (s.sc.look(e[1]) is not None or e[1] in BASIC): return resolve(('name',e[1]),s.sc)
        if e[0]=='sel' and e[1][0]=='id' and e[1][1]+'.'+e[2] in BASIC: return BASIC[e[1][1]+'.'+e[2]]
        if e[0]=='idx' : return None
        return None
    def static(s,e):
        """static type of a typed expression, None for untyped constants"""
        if e[0]=='comp' and e[1] is not None: return resolve(e[1],s.sc)
        if e[0]=='call':
            t=s.typ_of_expr(e[1])
            if t: return t
            if e[1]==('id','Ptr'): return ('ptr',s.static(e[2][0]) or s.default(e[2][0]))
        if e[0]=='un' and e[1]=='&': return ('ptr',s.static(e[2]))
        if e[0]=='id' and s.sc.var(e[1]) is not None: return s.static(s.sc.var(e[1]))
        return None
    def default(s,e):
        if e[0]=='str': return ('str',)
        if e[0]=='id' and e[1] in('true','false'): return ('bool',)
        if e[0]=='num': return ('float','64') if re.search('[.eE]',e[1]) and not e[1].startswith('0x') else ('int','s','W')
        if e[0]=='un' and e[1]=='-': return s.default(e[2])
        if e[0]=='sel' and e[1]==('id','math'): return ('int','s','W')
        raise Skip('default type of '+str(e)[:60])
    def val(s,e,t):
        """the xv of expression e assigned to type t"""
        k=e[0]
        u=U(t)
        if k=='id' and e[1]=='nil': return 'XNil'
        if k=='id' and s.sc.var(e[1]) is not None: return s.val(s.sc.var(e[1]),t)
        st=s.static(e)
        if u[0]=='any':
            tt=st or s.default(e)
            if U(tt)[0]=='any': return s.val1(e,tt)
            # only JSON-like dynamic types are in the model
            if tt in(('bool',),('str',),('float','64')) or tt==('slice',('any',)) or tt==('map',('str',),('any',)): return s.val1(e,tt)
            return 'XIgn'
        return s.val1(e,t)
    def val1(s,e,t):
        k=e[0]; u=U(t)
        if k=='id' and e[1]=='nil': return 'XNil'
        if k=='id' and s.sc.var(e[1]) is not None: return s.val(s.sc.var(e[1]),t)
        if k=='call':
            ct=s.typ_of_expr(e[1])
            if ct is not None:
                if ct==('str',) and e[2][0][0]=='call': pass
                return s.val(e[2][0],ct)
            if e[1]==('id','Ptr'):
                return f'(XP {s.val(e[2][0],u[1])})'
            if e[1][0]=='sel' and e[1][2]=='Repeat':
                a=e[2][0]; n=e[2][1]
                if a[0]=='str' and n[0]=='num': return f'(XS {B(a[1]*int(n[1]))})'
            if e[1]==('id','make'):
                mt=resolve(e[2][0][1],s.sc)
                if U(mt)[0]=='map': return '(XM [])'
                if U(mt)[0]=='slice' and len(e[2])==2: return f'(XL (repeat XZ {const(e[2][1])}))'
            raise Skip('call '+str(e[1])[:60])
        if k=='un' and e[1]=='&':
            if u[0]!='ptr': raise Skip('&')
            return f'(XP {s.val(e[2],u[1])})'
        if k=='comp':
            ct=resolve(e[1],s.sc) if e[1] is not None else t
            u=U(ct)
            if isuser(ct):
                if not e[2]: return 'XZ'
                [(kk,v)]=e[2]
                return f'(XU {B(v[1])})'
            if u[0]=='ptr':
                return f'(XP {s.val1(e,u[1])})'
            if u[0]=='struct':
                d={}
                for i,(kk,v) in enumerate(e[2]):
                    n=kk[1] if kk else u[1][i][0]
                    d[n]=v
                for n in d:
                    if n not in [f[0] for f in u[1]]: raise Skip('field '+n)
                return '(XL ['+'; '.join(s.val(d[n],ft) if n in d else 'XZ' for n,ft,_ in u[1])+'])'
            if u[0] in('slice','arr'):
                et=u[1] if u[0]=='slice' else u[2]
                items={}; i=0
                for kk,v in e[2]:
                    if kk is not None: i=const(kk)
                    items[i]=v; i+=1
                n=max(items)+1 if items else 0
                return '(XL ['+'; '.join(s.val(items[j],et) if j in items else 'XZ' for j in range(n))+'])'
            if u[0]=='map':
                return '(XM ['+'; '.join(f'({s.val(kk,u[1])}, {s.val(v,u[2])})' for kk,v in e[2])+'])'
            raise Skip('comp '+u[0])
        # constants
        neg=False; c=e
        while c[0]=='un' and c[1] in'-+': neg^=c[1]=='-'; c=c[2]
        if u[0]=='bool' and c[0]=='id': return f'(XB {c[1]})'
        if u[0] in('str','number'):
            if c[0]=='str': return f'(XS {B(c[1])})'
            if c[0]=='bin' and c[1]=='+': return f'(XS {B(s.strconst(c))})'
        if u[0] in('int','float'):
            if c[0]=='sel' and c[1]==('id','math') and c[2] in CONST: v=CONST[c[2]]; txt=str(v)
            elif c[0]=='num': txt=c[1]
            elif c[0]=='rune': txt=str(ord(eval(c[1])))
            else: raise Skip('const '+str(c)[:60])
            if u[0]=='int':
                v=int(txt,0) if not re.search(r'[.eE]',txt) or txt.startswith('0x') else int(float(txt))
                return f'(XI {Z(-v if neg else v)})'
            if txt.startswith('0x'): txt=str(int(txt,0))
            m,x=decimal(txt); return f'(XF {Z(-m if neg else m)} {Z(x)})'
        raise Skip('expr '+str(e)[:80]+' : '+str(u)[:40])
    def strconst(s,e):
        if e[0]=='str': return e[1]
        if e[0]=='bin' and e[1]=='+': return s.strconst(e[2])+s.strconst(e[3])
        if e[0]=='id' and s.sc.var(e[1]) is not None: return s.strconst(s.sc.var(e[1]))
        raise Skip('string constant '+str(e)[:60])
ERRS={'ErrUnexpectedValue':'EUnexpected','ErrIntegerOverflow':'EOverflow','ErrUnknownField':'EUnknownField','ErrNilDest':'ENilDest'}
class Setup:
    def __init__(s,test,t,opts): s.test=test; s.em=Emit(); s.t=t; s.ty=s.em.ty(t); s.opts=opts; s.cases=[]
    def coq(s):
        return f'G {s.em.envs()} {s.em.errs()} ({s.ty}) {s.opts}\n   ['+';\n    '.join(s.cases)+']'
def optexpr(e):
    if e==('un','*',('sel',('id','jscandec'),'DefaultOptions')): return 'default_opts'
    if e[0]=='comp':
        d={k[1]:v[1]=='true' for k,v in e[2]}
        b=lambda n:'true' if d.get(n) else 'false'
        return f"(Opts {b('DisallowUnknownFields')} {b('DisableFieldNameUnescaping')} {b('DisableCaseInsensitiveMatching')})"
    raise Skip('options '+str(e)[:60])
groups=[]
def mk_setup(test,call,sc):
    ta=call[1][2][0]
    t=resolve(ta[1],sc) if ta[0]=='type' else Ev(sc).typ_of_expr(ta)
    s=Setup(test,t,optexpr(call[2][1])); groups.append(s); return s
def is_setup(e): return e[0]=='call' and e[1][0]=='idx' and e[1][1]==('id','newTestSetup')
def prep_val(f,t,sc):
    sc2=Scope(sc)
    for st in f[1]:
        if st[0]=='return': return Ev(sc2).val(st[1][0],t)
        if st[0]=='assign' and len(st[1])==1 and st[1][0][0]=='id': sc2.v[st[1][0][1]]=st[2][0]; continue
        if st[0]=='type': declare(sc2,st[1],st[2],st[3]); continue
        raise Skip('prepare '+st[0])
    raise Skip('prepare')
def case(su,test,line,text,prep,want):
    global NCASES
    su.cases.append(f"K {B(text)} {'None' if prep is None else '(Some '+prep+')'} ({want})"); NCASES+=1
def do_call(test,su,meth,args,sc,line):
    ev=Ev(sc)
    name=args[1][1].decode() if args[1][0]=='str' else '?'
    try:
        text=ev.strconst(args[2])
        if meth=='TestOK':
            if len(args)<4: raise Skip('no expectation')
            case(su,test,line,text,None,'WOk '+ev.val(args[3],su.t))
        elif meth=='TestOKPrepare':
            d={k[1]:v for k,v in args[3][2]}
            prep=prep_val(d['PrepareJscan'],su.t,sc) if 'PrepareJscan' in d else None
            want=None
            if 'Expect' in d: want=ev.val(d['Expect'],su.t)
            elif 'Check' in d:
                for st in d['Check'][1]:
                    if st[0]=='expr' and st[1][0]=='call' and st[1][1]==('sel',('id','require'),'Nil') and st[1][2][1]==('id','vJscan'): want='XNil'
                    if st[0]=='expr' and st[1][0]=='call' and st[1][1]==('sel',('id','require'),'Equal') and st[1][2][2]==('id','vJscan'): want=ev.val(st[1][2][1],su.t)
            if want is None: raise Skip('no expectation')
            case(su,test,line,text,prep,'WOk '+want)
        elif meth=='testErr':
            if args[4][0]!='sel' or args[4][2] not in ERRS: raise Skip('error '+str(args[4])[:60])
            case(su,test,line,text,None,f'WErr (Some {Z(const(args[3]))}) {ERRS[args[4][2]]}')
        elif meth=='testErrCheck':
            idx='None';er=None
            for st in args[3][1]:
                if st[0]!='expr': raise Skip('check '+st[0])
                f=st[1][1][2];a=st[1][2]
                if f=='ErrorIs' and a[2]==('sel',('id','strconv'),'ErrRange'): er='EParse'
                elif f=='Equal' and a[2]==('id','errIndex'): idx=f'(Some {Z(const(a[1]))})'
                elif f=='Equal' and a[2]==('id','err') and a[1][0]=='id' and 'Unmarshaler' in a[1][1]: er='(EUser 1)'
                else: raise Skip('check '+str(st[1])[:80])
            case(su,test,line,text,None,f'WErr {idx} {er}')
    except Skip as x: skipped.append((test,name,line,str(x)))
def run_block(test,body,sc):
    for st in body:
        k=st[0]
        if k=='type':
            try: declare(sc,st[1],st[2],st[3])
            except Skip as x: skipped.append((test,'type '+st[1],st[4],str(x)))
        elif k=='block': run_block(test,st[1],Scope(sc))
        elif k=='assign' and len(st[1])==1 and st[1][0][0]=='id':
            n=st[1][0][1]
            if is_setup(st[2][0]):
                try: sc.v[n]=('setup',mk_setup(test,st[2][0],sc))
                except Skip as x: sc.v[n]=('nosetup',); skipped.append((test,'setup',st[3],str(x)))
            elif st[2][0][0]=='func' and n=='testOK': sc.v[n]=('helper','testOK')
            else: sc.v[n]=st[2][0]
        elif k=='expr' and st[1][0]=='call' and st[1][1][0]=='sel':
            recv,m=st[1][1][1],st[1][1][2]
            if m not in('TestOK','TestOKPrepare','testErr','testErrCheck'):
                continue
            if is_setup(recv):
                try: su=mk_setup(test,recv,sc)
                except Skip as x: skipped.append((test,'setup',st[2],str(x))); continue
            else:
                v=sc.var(recv[1])
                if not v or v[0]!='setup': continue
                su=v[1]
            do_call(test,su,m,st[1][2],sc,st[2])
        elif k=='expr' and st[1][0]=='call' and st[1][1]==('id','testOK') and test=='TestDecodeNumber':
            a=st[1][2]; su=sc.var('s')[1]
            do_call(test,su,'TestOK',[None]+a,sc,st[2])
        elif k=='expr' and st[1][0]=='call' and st[1][1][0]=='id' and st[1][1][1].startswith('test'):
            skipped.append((test,st[1][1][1],st[2],'helper'))
def decode_tests():
    types,funcs=goparse.toplevel(open(REPO+'jscandec_test.go').read())
    top=Scope()
    for n,t in types:
        if t is None or n in('testSetup','Test'): continue
        try: declare(top,n,t,False)
        except Skip as x: pass
    for recv,n,b,l in funcs:
        if recv and n in('UnmarshalJSON','UnmarshalText'):
            nm=top.t[recv[-1]][1]
            if n=='UnmarshalJSON': nm.json=True
            else: nm.text=True
            if b and b[0][0]=='return' and b[0][1]!=[('id','nil')]: nm.err=True
    for recv,n,b,l in funcs:
        if not recv and n.startswith('Test') and b is not None: run_block(n,b,Scope(top))
        elif not recv and n.startswith('Test'): skipped.append((n,'',l,'not parsed'))
def etname(n):
    n=n[len('ExpectType'):]
    fixed={'Any':'EAny','Number':'ENumber','JSONUnmarshaler':'EJSON','TextUnmarshaler':'EText','Ptr':'EPtr','PtrRecur':'EPtrRecur','Map':'EMap','MapStringString':'EMapSS','MapRecur':'EMapRecur',
     'Array':'EArray','ArrayLen0':'EArray0','Slice':'ESlice','SliceRecur':'ESliceRecur','SliceEmptyStruct':'ESliceEmpty','SliceBool':'ESliceBool','SliceString':'ESliceStr',
     'Struct':'EStruct','StructRecur':'EStructRecur','EmptyStruct':'EEmptyStruct','Bool':'EBool','Str':'EStr','BoolString':'EBoolS','StrString':'EStrS'}
    if n in fixed: return fixed[n]
    m=re.fullmatch(r'(Slice)?(Uint|Int|Float)(8|16|32|64)?(String)?',n)
    sl,k,w,st=m.groups()
    if k=='Float': a=f'B{w}'; c='F'
    else: a=f"(NK {'true' if k=='Int' else 'false'} {'W'+w if w else 'WWord'})"; c='Int'
    return f"({'ESlice' if sl else 'E'}{c}{'S' if st else ''} {a})"
stackcases=[]
def stack_tests():
    types,funcs=goparse.toplevel(open(REPO+'jscandec_internal_test.go').read())
    top=Scope()
    for n,t in types:
        try: declare(top,n,t,False)
        except Skip as x: skipped.append(('internal',n,0,str(x)))
    for recv,n,b,l in funcs:
        if recv and n in('UnmarshalJSON','UnmarshalText'):
            nm=top.t[recv[-1]][1]
            if n=='UnmarshalJSON': nm.json=True
            else: nm.text=True
    b=[b for r,n,b,l in funcs if n=='TestAppendTypeToStack'][0]
    sc=Scope(top)
    rtypes={}
    for st in b:
        if st[0]=='type': declare(sc,st[1],st[2],st[3])
        elif st[0]=='assign': rtypes[st[1][0][1]]=st[2][0]
        elif st[0]=='range': rng=st
    ev=Ev(sc)
    def rtype(e):
        """type denoted by reflect.TypeOf(...) or a variable"""
        if e[0]=='id': return rtype(rtypes[e[1]])
        if e[0]=='call' and e[1]==('sel',('id','reflect'),'TypeOf'):
            a=e[2][0]
            if a[0]=='call' and ev.typ_of_expr(a[1]) is not None:
                t=ev.typ_of_expr(a[1])
                if t==('any',): # TypeOf(any(x)) is the dynamic type
                    return ev.default(a[2][0])
                return t
            return ev.static(a)
        raise Skip('rtype '+str(e)[:60])
    def num(e):
        if e[0]=='num': return int(e[1])
        if e[0]=='call' and e[1][0]=='sel' and e[1][2]=='Size': return size_align(rtype(e[1][1]))[0]
        if e[0]=='sel' and e[2]=='Offset':
            c=e[1]; t=rtype(c[1][1]); return layout(U(t))[2][const(c[2][0])]
        raise Skip('num '+str(e)[:80])
    for _,c in rng[1][2]:
        d={k[1]:v for k,v in c[2]}
        try:
            inp=d['Input']
            t=ev.static(inp)
            if t is None: t=ev.default(inp)
            em=Emit(); ty=em.ty(t); fr=[]
            for _,f in d['ExpectStack'][2]:
                x={k[1]:v for k,v in f[2]}
                sz=num(x['Size']) if 'Size' in x else 0
                off=num(x['Offset']) if 'Offset' in x else 0
                par='None' if x['ParentFrameIndex']==('id','noParentFrame') else f"(Some {num(x['ParentFrameIndex'])}%nat)"
                rec=num(x['RecurFrame']) if 'RecurFrame' in x else 0
                cap=num(x['Cap']) if 'Cap' in x else 0
                fl='; '.join(f"({B({k[1]:v for k,v in g[2]}['Name'][1])}, {num({k[1]:v for k,v in g[2]}['FrameIndex'])}%nat)" for _,g in (x['Fields'][2] if 'Fields' in x else []))
                fr.append(f"XFr {etname(x['Type'][1])} {sz} {off} {par} {rec} {cap} [{fl}] {'true' if 'RType' in x else 'false'}")
            stackcases.append(f'stack_case {em.envs()} ({ty})\n   ['+';\n    '.join(fr)+']')
        except Skip as x: skipped.append(('TestAppendTypeToStack',str(d['Input'])[:60],0,str(x)))
leaf=[]
def leaf_tests():
    types,funcs=goparse.toplevel(open(REPO+'internal/atoi/atoi_test.go').read())
    ev=Ev(Scope())
    for recv,n,b,l in funcs:
        if not n.startswith('Test'): continue
        rows=[]
        for st in b:
            if st[0]!='range': continue
            for _,c in st[1][2]:
                d={k[1]:v for k,v in c[2]}
                bad=d.get('overflow',d.get('err'))==('id','true')
                v='(0, true)' if bad else f"({ev.val1(d['expect'],('int','s','64'))[4:-1]}, false)"
                rows.append(f"({B(d['input'][1])}, {v})")
        leaf.append((n[4:],'internal/atoi/atoi_test.go '+n,f"atoi_bad {n[4:]}",rows))
    types,funcs=goparse.toplevel(open(REPO+'internal/jsonnum/jsonnum_test.go').read())
    for recv,n,b,l in funcs:
        rows=[]
        for st in b:
            if st[0]!='range': continue
            for _,c in st[1][2]:
                e=[v for k,v in c[2]]
                if e[0][0]=='call': skipped.append((n,'computed input',st[3],'not a literal')); continue
                e[:2]=[('str',ev.strconst(x)) if x[0]!='call' else x for x in e[:2]]
                rc={'ReturnCodeInteger':'RInteger','ReturnCodeNumber':'RNumber'}[e[2][2]] if len(e)>2 else 'RErr'
                if rc!='RErr':
                    for pre in(b'',b'-'): rows.append(f'({B(pre+e[0][1])}, ({B(e[1][1])}, {rc}))')
                else:
                    for t in(b'',b',',b'}',b']',b' ',b'\t',b'\r',b'{"x":null}'): rows.append(f'({B(e[0][1]+t)}, ({B(e[1][1]+t)}, {rc}))')
        if n=='TestReadNumberZero':
            for pre in(b'',b'-'): rows.append(f'({B(pre+b"01")}, ({B(b"1")}, RInteger))')
        leaf.append((n,'internal/jsonnum/jsonnum_test.go '+n,'num_bad',rows))
    src=open(REPO+'internal/unescape/unescape_test.go').read()
    types,funcs=goparse.toplevel(src)
    rows=[]
    def row(c):
        if c[0]!='comp': return
        d={k[1]:v for k,v in c[2]}
        if d['Input'][0]=='str': rows.append(f"({B(d['Input'][1])}, {B(d['Expect'][1])})")
    p=goparse.P(goparse.lex(src))
    while not(p.isop('tests') and p.pk(1)=='='): p.nx()
    p.nx(); p.nx()
    for _,c in p.expr()[2]: row(c)
    for recv,n,b,l in funcs:
        if n=='TestValidErrRune':
            for st in b:
                if st[0]=='range':
                    for _,c in st[1][2]: row(c)
    leaf.append(('unescape','internal/unescape/unescape_test.go','unesc_bad',rows))
decode_tests(); stack_tests(); leaf_tests()
groups=[g for g in groups if g.cases]
out=['(** GENERATED by tools/conformance.py from /repo/jscandec_test.go and',
 '    /repo/jscandec_internal_test.go; do not edit.  Tests of the model against the',
 "    repository's own test expectations; no theorem depends on this file.",
 '',
 f'    {sum(len(g.cases) for g in groups)} decode cases in {len(groups)} groups (a group reuses one decoder), each run with string',
 f'    and with []byte input; {len(stackcases)} type-to-stack cases;\n    {sum(len(x[3]) for x in leaf)} number and string cases.  Not covered:']
for t,n,l,why in skipped: out.append(f'    - {t} {n} (line {l}): {why}'.replace('(*','( *').replace('*)','* )').replace('"',"'"))
out+=['*)','From Verif Require Import Base NumSpec Atoi JsonNum Lookup Types AppendType Heap Machine World Dt Rec ConformLib ConformSpec.','Open Scope Z_scope.','']
chunks=[]
for i,g in enumerate(groups):
    out.append(f'(* {g.test} *)\nDefinition g{i} : group :=\n  {g.coq()}.')
    k={'TestDecodeStructRecursivePtr':'RSelf','TestDecodeStructRecursiveSlice':'RSlice','TestDecodeStructRecursiveMap':'(RMap KeyStr)'}.get(g.test)
    out.append(f'Example g{i}_ideal : '+(f'rspec_group {k} g{i} = [].' if k else f'spec_group g{i} = Some [].')+'\nProof. vm_compute. reflexivity. Qed.')
    out.append(f'Example g{i}_conforms : (run_group false g{i}, run_group true g{i}) = ([], []).\nProof. vm_compute. reflexivity. Qed.')
for i,c in enumerate(stackcases):
    out.append(f'Example stack{i}_conforms :\n  {c} = true.\nProof. vm_compute. reflexivity. Qed.')
for i,(n,src,fn,rows) in enumerate(leaf):
    out.append(f'(* {src} *)\nExample leaf{i}_conforms : {fn}\n   ['+';\n    '.join(rows)+'] = [].\nProof. vm_compute. reflexivity. Qed.')
open('/verif/rocq/theories/Conformance.v','w').write('\n'.join(out)+'\n')
print(NCASES,'cases',len(groups),'groups',len(stackcases),'stack cases')
for s in skipped: print('skipped',s)
