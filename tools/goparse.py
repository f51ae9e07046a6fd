"""A parser for the subset of Go used in the repository's test files (types, expressions,
composite literals, simple statements).  Used by conformance.py only."""
import re
KW={'func','return','type','for','if','range','struct','map','var','const','package','import','interface','else','switch','case','defer','go'}
TOK=re.compile(r'''
 (?P<ws>[ \t\r]+)|(?P<nl>\n)|(?P<lc>//[^\n]*)|(?P<bc>/\*.*?\*/)|
 (?P<raw>`[^`]*`)|(?P<str>"(?:\\.|[^"\\\n])*")|(?P<rune>'(?:\\.|[^'\\])+')|
 (?P<num>0[xX][0-9a-fA-F_]+|[0-9][0-9_]*(?:\.[0-9_]*)?(?:[eE][+-]?[0-9_]+)?|\.[0-9]+)|
 (?P<id>[^\W\d]\w*)|
 (?P<op>:=|\.\.\.|<-|&&|\|\||==|!=|<=|>=|\+\+|--|\+=|-=|<<|>>|[-+*/%&|^<>=!()\[\]{},;:.~])
''',re.X|re.S)
def lex(src):
    out=[];i=0;last=None
    def autosemi():
        return last and (last[0] in('id','num','raw','str','rune') and last[1] not in KW-{'return'} or last[1] in(')',']','}','++','--'))
    line=1
    while i<len(src):
        m=TOK.match(src,i)
        if not m: raise SyntaxError(src[i:i+40])
        k=m.lastgroup;t=m.group()
        if k=='nl' or k=='lc':
            if k=='nl':
                if autosemi(): out.append(('op',';',line)); last=('op',';')
        elif k in('ws','bc'): pass
        else:
            out.append((k,t,line)); last=(k,t)
        line+=t.count('\n'); i=m.end()
    out.append(('eof','',line))
    return out
def unquote(t):
    b=bytearray();i=0;s=t[1:-1]
    while i<len(s):
        c=s[i]
        if c!='\\': b+=c.encode(); i+=1; continue
        c=s[i+1]; i+=2
        sim={'n':10,'t':9,'r':13,'b':8,'f':12,'a':7,'v':11,'\\':92,'"':34,"'":39}
        if c in sim: b.append(sim[c])
        elif c=='u': b+=chr(int(s[i:i+4],16)).encode(); i+=4
        elif c=='U': b+=chr(int(s[i:i+8],16)).encode(); i+=8
        elif c=='x': b.append(int(s[i:i+2],16)); i+=2
        elif c in '01234567': b.append(int(c+s[i:i+2],8)); i+=2
        else: raise SyntaxError(c)
    return bytes(b)
class P:
    def __init__(s,toks): s.t=toks; s.i=0
    def pk(s,k=0): return s.t[s.i+k][1]
    def kind(s): return s.t[s.i][0]
    def line(s): return s.t[s.i][2]
    def nx(s): s.i+=1; return s.t[s.i-1][1]
    def eat(s,x):
        if s.pk()!=x or s.kind() in('str','raw'): raise SyntaxError(f'line {s.line()}: want {x} got {s.pk()}')
        s.i+=1
    def isop(s,x): return s.kind() in('op','id') and s.pk()==x
    # types
    def type(s):
        if s.isop('['):
            s.nx()
            if s.isop(']'): s.nx(); return ('slice',s.type())
            n=s.expr(); s.eat(']'); return ('arr',n,s.type())
        if s.isop('map'):
            s.nx(); s.eat('['); k=s.type(); s.eat(']'); return ('map',k,s.type())
        if s.isop('*'): s.nx(); return ('ptr',s.type())
        if s.isop('('): s.nx(); t=s.type(); s.eat(')'); return t
        if s.isop('struct'):
            s.nx(); s.eat('{'); fs=[]
            while not s.isop('}'):
                if s.isop(';'): s.nx(); continue
                names=[s.nx()]
                if s.isop(';') or s.isop('}') or s.kind() in('raw','str'):
                    ty=('name',names[0]); emb=True
                elif s.isop('.'):
                    s.nx(); n=s.nx(); ty=('name',names[0]+'.'+n); names=[n]
                else:
                    while s.isop(','): s.nx(); names.append(s.nx())
                    ty=s.type()
                tag=b''
                if s.kind() in('raw','str'):
                    q=s.nx(); tag=q[1:-1].encode() if q[0]=='`' else unquote(q)
                for n in names: fs.append((n,ty,tag))
            s.eat('}'); return ('struct',tuple(fs))
        if s.isop('func'):
            s.nx(); s.skip_parens()
            if not(s.isop('{') or s.isop(';') or s.isop(',') or s.isop(')')): s.type()
            return ('func',)
        if s.isop('interface'):
            s.nx(); s.skip_braces(); return ('iface',)
        if s.kind()=='id':
            n=s.nx()
            if s.isop('.'): s.nx(); n+='.'+s.nx()
            if s.isop('['):
                s.nx(); a=[s.type()]
                while s.isop(','): s.nx(); a.append(s.type())
                s.eat(']'); return ('gen',n,tuple(a))
            return ('name',n)
        raise SyntaxError(f'line {s.line()}: type at {s.pk()}')
    def skip_parens(s): s.skip('(',')')
    def skip_braces(s): s.skip('{','}')
    def skip(s,a,b):
        d=0
        while True:
            if s.isop(a): d+=1
            if s.isop(b):
                d-=1
                if d==0: s.nx(); return
            if s.kind()=='eof': raise SyntaxError('eof')
            s.nx()
    # expressions
    def expr(s):
        x=s.unary()
        while s.kind()=='op' and s.pk() in('+','-','*','/','==','!=','&&','||','<','>','<=','>=','<<','>>','|','%'):
            op=s.nx(); y=s.unary(); x=('bin',op,x,y)
        return x
    def unary(s):
        if s.kind()=='op' and s.pk() in('-','&','!','+'):
            op=s.nx(); return ('un',op,s.unary())
        if s.isop('*'):
            s.nx(); return ('un','*',s.unary())
        return s.postfix(s.primary())
    def primary(s):
        k=s.kind()
        if k=='num': return ('num',s.nx().replace('_',''))
        if k=='str': return ('str',unquote(s.nx()))
        if k=='raw': return ('str',s.nx()[1:-1].encode())
        if k=='rune': return ('rune',s.nx())
        if s.isop('('):
            s.nx()
            if s.isop('*'):
                j=s.i
                try:
                    t=s.type(); s.eat(')'); return ('type',t)
                except SyntaxError: s.i=j
            x=s.expr(); s.eat(')'); return x
        if s.isop('[') or s.isop('map') or s.isop('struct'):
            return ('type',s.type())
        if s.isop('func'):
            s.nx(); s.skip_parens()
            if not s.isop('{'):
                if s.isop('('): s.skip_parens()
                else: s.type()
            return ('func',s.block())
        if k=='id': return ('id',s.nx())
        raise SyntaxError(f'line {s.line()}: expr at {s.pk()}')
    def postfix(s,x):
        while True:
            if s.isop('.'):
                s.nx()
                if s.isop('('): s.skip_parens(); x=('assert',x)
                else: x=('sel',x,s.nx())
            elif s.isop('('):
                s.nx(); a=[]
                while not s.isop(')'):
                    if s.isop('*') :
                        pass
                    a.append(s.expr())
                    if s.isop('...'): s.nx()
                    if s.isop(','): s.nx()
                    if s.isop(';'): s.nx()
                s.eat(')'); x=('call',x,a)
            elif s.isop('[') and x[0] in('id','sel'):
                s.nx(); a=[s.type_or_expr()]
                while s.isop(','): s.nx(); a.append(s.type_or_expr())
                s.eat(']'); x=('idx',x,a)
            elif s.isop('{') and s.complit_ok(x):
                x=('comp',s.as_type(x),s.comp())
            else: return x
    def type_or_expr(s):
        j=s.i
        try:
            t=s.type()
            if s.isop(']') or s.isop(','): return ('type',t)
        except SyntaxError: pass
        s.i=j; return s.expr()
    def complit_ok(s,x): return x[0] in('type','idx') or x[0]=='id' or x[0]=='sel' and x[1][0]=='id'
    def as_type(s,x):
        if x[0]=='type': return x[1]
        if x[0]=='id': return ('name',x[1])
        if x[0]=='sel': return ('name',x[1][1]+'.'+x[2])
        if x[0]=='idx': return ('gen',x[1],x[2])
    def comp(s):
        s.eat('{'); out=[]
        while not s.isop('}'):
            if s.isop(';'): s.nx(); continue
            k=None; v=s.elem()
            if s.isop(':'): s.nx(); k=v; v=s.elem()
            out.append((k,v))
            if s.isop(','): s.nx()
        s.eat('}'); return out
    def elem(s): return ('comp',None,s.comp()) if s.isop('{') else s.expr()
    # statements
    def block(s):
        s.eat('{'); out=[]
        while not s.isop('}'):
            st=s.stmt()
            if st: out.append(st)
        s.eat('}'); return out
    def stmt(s):
        if s.isop(';'): s.nx(); return None
        ln=s.line()
        if s.isop('type'):
            s.nx(); n=s.nx(); al=False
            if s.isop('='): s.nx(); al=True
            return ('type',n,s.type(),al,ln)
        if s.isop('return'):
            s.nx(); xs=[]
            while not(s.isop(';') or s.isop('}')):
                xs.append(s.expr())
                if s.isop(','): s.nx()
            return ('return',xs,ln)
        if s.isop('{'): return ('block',s.block(),ln)
        if s.isop('for'):
            while not s.isop('range') and not s.isop('{'): s.nx()
            if s.isop('{'):
                s.skip_braces(); return ('for',ln)
            s.nx()
            j=s.i
            if s.kind()=='id': # range over a variable
                s.nx()
                while not s.isop('{'): s.nx()
                return ('range',None,s.block(),ln)
            x=s.expr(); b=s.block(); return ('range',x,b,ln)
        if s.isop('if'):
            while not s.isop('{'): s.nx()
            s.skip_braces()
            return ('if',ln)
        if s.isop('var'):
            s.nx(); n=s.nx(); t=None; x=None
            if not s.isop('='): t=s.type()
            if s.isop('='): s.nx(); x=s.expr()
            return ('var',n,t,x,ln)
        x=s.expr(); xs=[x]
        while s.isop(','): s.nx(); xs.append(s.expr())
        if s.isop(':=') or s.isop('='):
            s.nx(); y=[s.expr()]
            while s.isop(','): s.nx(); y.append(s.expr())
            return ('assign',xs,y,ln)
        return ('expr',x,ln)
FAIL=[]
def toplevel(src):
    """top-level type declarations and functions (with receiver)"""
    p=P(lex(src)); types=[];funcs=[]
    while p.kind()!='eof':
        if p.isop('type'):
            p.nx(); n=p.nx()
            if p.isop('['):  # generic
                p.skip('[',']')
            if p.isop('='): p.nx()
            j=p.i
            try: t=p.type()
            except SyntaxError:
                p.i=j; t=None
                while not p.isop(';'):
                    if p.isop('{'): p.skip_braces()
                    else: p.nx()
            types.append((n,t))
        elif p.isop('func'):
            p.nx(); recv=None
            if p.isop('('):
                p.nx(); rt=[]
                while not p.isop(')'): rt.append(p.nx())
                p.nx(); recv=rt[1:]
            n=p.nx(); ln=p.line()
            if p.isop('['): p.skip('[',']')
            p.skip_parens()
            while not p.isop('{') and not p.isop(';'):
                if p.isop('('): p.skip_parens()
                else: p.nx()
            if p.isop('{'):
                j=p.i
                try: b=p.block()
                except (SyntaxError,IndexError) as e:
                    p.i=j; p.skip_braces(); b=None; FAIL.append((n,str(e)))
                funcs.append((recv,n,b,ln))
        else: p.nx()
    return types,funcs
if __name__=='__main__':
    import sys
    for f in sys.argv[1:]:
        t,fs=toplevel(open(f).read())
        print(f,len(t),len(fs),[n for r,n,b,l in fs if b is None],FAIL)
