# Generates rocq/theories/ConformanceAst.v from /repo/tests: a small interpreter of the test functions.
import re,sys,os,json
T='/repo/tests/'
class Unsup(Exception): pass
TOK=re.compile(r'''\s+|//[^\n]*|/\*.*?\*/|(?P<str>b?"(?:\\.|[^"\\])*")|(?P<rstr>r(?P<h>\#*)".*?"(?P=h))|(?P<chr>'(?:\\.|[^'\\])')|(?P<life>'[a-z_]+)|(?P<num>\d[\d_]*(?:u8|u16|u32|usize|isize|i32)?)|(?P<id>[A-Za-z_]\w*!?(?!=)|[A-Za-z_]\w*)|(?P<op>\.\.|=>|->|==|!=|&&|\|\||::|[-+*/%&|^!<>=.,;:(){}\[\]#?@$])''',re.S)
def lex(s):
    i=0;out=[]
    while i<len(s):
        m=TOK.match(s,i)
        if not m: raise Unsup('lex '+s[i:i+20])
        i=m.end()
        if m.lastgroup is None: 
            if m.group().strip()=='' or m.group().startswith('//') or m.group().startswith('/*'): continue
        for k in('str','rstr','chr','life','num','id','op'):
            if m.group(k) is not None: out.append((k,m.group(k))); break
    return out
def unstr(s):
    body=s[1:-1]; out='';i=0
    while i<len(body):
        c=body[i]
        if c!='\\': out+=c;i+=1;continue
        d=body[i+1]
        if d=='n': out+='\n'
        elif d=='t': out+='\t'
        elif d=='r': out+='\r'
        elif d=='\n':
            i+=2
            while i<len(body) and body[i].isspace(): i+=1
            continue
        elif d in '\\"\'': out+=d
        elif d=='u':
            m=re.match(r'\{([0-9a-fA-F]+)\}',body[i+2:]); out+=chr(int(m.group(1),16)); i+=2+m.end(); continue
        else: raise Unsup('esc '+d)
        i+=2
    return out
class P:
    def __init__(s,t): s.t=t;s.i=0
    def pk(s,k=0): return s.t[s.i+k][1] if s.i+k<len(s.t) else None
    def kind(s): return s.t[s.i][0] if s.i<len(s.t) else None
    def nx(s): s.i+=1; return s.t[s.i-1][1]
    def ex(s,x):
        if s.pk()!=x: raise Unsup('expected %s got %s'%(x,s.t[s.i:s.i+4]))
        s.i+=1
    def block(s):
        s.ex('{'); st=[];val=None
        while s.pk()!='}':
            x=s.stmt()
            st.append(x)
        s.ex('}'); return st
    def skiptype(s,stops):
        d=0
        while True:
            x=s.pk()
            if d==0 and x in stops: return
            if x in('<','(','['): d+=1
            if x in('>',')',']'): d-=1
            s.nx()
    def pat(s):
        if s.pk() in('&','ref','mut'): s.nx(); return s.pat()
        if s.pk()=='(':
            s.nx();l=[]
            while s.pk()!=')':
                l.append(s.pat())
                if s.pk()==',': s.nx()
            s.nx(); return ('tp',l)
        if s.kind()=='id' and s.pk(1) not in('(','::','{'): return ('v',s.nx())
        raise Unsup('pat')
    def stmt(s):
        x=s.pk()
        if x==';': s.nx(); return ('nop',)
        if x=='#':
            s.nx(); s.ex('['); 
            while s.pk()!=']': s.nx()
            s.nx(); return ('nop',)
        if x=='use':
            while s.nx()!=';': pass
            return ('nop',)
        if x=='let':
            s.nx(); p=s.pat()
            if s.pk()==':': s.nx(); s.skiptype(('=',))
            s.ex('='); e=s.expr(); s.ex(';'); return ('let',p,e)
        if x=='for':
            s.nx(); p=s.pat(); s.ex('in'); e=s.expr(nostruct=True); b=s.block(); return ('for',p,e,b)
        if x=='fn':
            s.nx(); n=s.nx()
            s.ex('('); ps=[]
            while s.pk()!=')':
                ps.append(s.pat()); s.ex(':'); s.skiptype((',',')'))
                if s.pk()==',': s.nx()
            s.ex(')')
            if s.pk()=='->': s.nx(); s.skiptype(('{',))
            b=s.block(); return ('fn',n,ps,b)
        if x=='match':
            s.nx(); e=s.expr(nostruct=True); i0=s.i
            d=0
            s.ex('{');d=1
            while d:
                y=s.nx()
                if y=='{': d+=1
                if y=='}': d-=1
            return ('match',e,s.t[i0:s.i])
        e=s.expr()
        if s.pk()==';': s.nx(); return ('expr',e)
        return ('ret',e)
    def args(s,close=')'):
        l=[]
        while s.pk()!=close:
            l.append(s.expr())
            if s.pk()==';' and close==']': raise Unsup('rep')
            if s.pk()==',': s.nx()
        s.nx(); return l
    def expr(s,nostruct=False):
        x=s.pk()
        if x in('&','*','&&'):
            s.nx()
            if s.pk()=='mut': s.nx()
            return s.post(s.expr0(nostruct),nostruct)
        return s.post(s.expr0(nostruct),nostruct)
    def post(s,e,ns):
        while True:
            x=s.pk()
            if x=='.':
                s.nx(); n=s.nx()
                if s.pk()=='::': s.nx(); s.ex('<'); s.skiptype(('>',)); s.nx()
                if s.pk()=='(': s.nx(); e=('meth',e,n,s.args())
                else: e=('field',e,n)
            elif x=='[': s.nx(); i=s.expr(); s.ex(']'); e=('idx',e,i)
            elif x=='==' or x=='!=': raise Unsup('cmp')
            elif x=='|' : raise Unsup('bar')
            else: return e
    def expr0(s,ns):
        k,x=s.t[s.i]
        if x in('&','*'): return s.expr(ns)
        if k=='str': s.nx(); return ('lit',unstr(x))
        if k=='rstr': s.nx(); h=len(re.match(r'r(#*)',x).group(1)); return ('lit',x[2+h:-1-h])
        if k=='chr': s.nx(); return ('lit',unstr(x))
        if k=='num': s.nx(); return ('lit',int(re.match(r'\d+',x.replace('_','')).group()))
        if x=='-': s.nx(); e=s.expr0(ns); return ('lit',-e[1])
        if x=='(':
            s.nx(); l=[];comma=False
            while s.pk()!=')':
                l.append(s.expr())
                if s.pk()==',': s.nx();comma=True
            s.nx()
            return l[0] if len(l)==1 and not comma else ('tuple',l)
        if x=='[': s.nx(); return ('list',s.args(']'))
        if x=='{': return ('block',s.block())
        if x=='if':raise Unsup('if')
        if x=='move' or x=='|' or x=='||': raise Unsup('closure')
        if k=='id':
            if x in('true','false'): s.nx(); return ('lit',x=='true')
            n=s.nx()
            if n.endswith('!'):
                o=s.nx(); c={'(':')','[':']','{':'}'}[o]
                if n in('vec!','format!','assert_eq!','concat!'): return ('mac',n,s.args(c))
                if n=='assert!': return ('mac',n,s.args(c))
                raise Unsup(n)
            path=[n]
            while s.pk()=='::':
                s.nx()
                if s.pk()=='<': s.nx(); s.skiptype(('>',)); s.nx(); continue
                path.append(s.nx())
            if s.pk()=='(' : s.nx(); return ('call',path,s.args())
            if s.pk()=='{' and not ns and path[-1][0].isupper():
                s.nx(); f={}
                while s.pk()!='}':
                    m=s.nx()
                    if s.pk()==':': s.nx(); f[m]=s.expr()
                    else: f[m]=('path',[m])
                    if s.pk()==',': s.nx()
                s.nx(); return ('struct',path,f)
            return ('path',path)
        raise Unsup('tok %s'%x)
class Parser:
    def __init__(s,src,toks=None): s.src=src; s.toks=toks; s.calls=[]
class Call:
    def __init__(s,p,m,a): s.p=p;s.m=m;s.a=a;s.want=None;s.ok=False;s.last=None;p.calls.append(s)
class Unw:
    def __init__(s,c): s.c=c
class Ctor:
    def __init__(s,n,a): s.n=n;s.a=a
class Ret(Exception):
    pass
PM='complete_command and_or_list pipeline command simple_command redirect_list redirect word word_preserve_trailing_whitespace backticked_command_substitution parameter do_group brace_group subshell compound_command loop_command if_command for_command case_command maybe_function_declaration function_declaration skip_whitespace linebreak newline peek_reserved_token peek_reserved_word reserved_token reserved_word'.split()
class I:
    def __init__(s,fns): s.fns=dict(fns); s.parsers=[]
    def bind(s,env,p,v):
        if p[0]=='v': env[p[1]]=v
        else:
            if not isinstance(v,tuple): raise Unsup('tuplepat')
            for q,w in zip(p[1],v): s.bind(env,q,w)
    def run(s,b,env):
        val=None
        for st in b:
            k=st[0]
            if k=='nop': pass
            elif k=='let': s.bind(env,st[1],s.ev(st[2],env))
            elif k=='for':
                l=s.ev(st[2],env)
                if not isinstance(l,list): raise Unsup('for over')
                for x in l:
                    e=dict(env); s.bind(e,st[1],x); s.run(st[3],e)
            elif k=='fn': s.fns[st[1]]=(st[2],st[3])
            elif k=='match': s.match(st[1],st[2],env)
            elif k=='expr': s.ev(st[1],env)
            elif k=='ret': val=s.ev(st[1],env)
        return val
    def match(s,e,toks,env):
        c=s.ev(e,env)
        if not isinstance(c,Call): raise Unsup('match on')
        # split arms at depth 1
        text=[x[1] for x in toks[1:-1]]
        arms=[];cur=[];d=0
        j=0
        while j<len(text):
            x=text[j]
            if x in '{([' : d+=1
            if x in '})]': d-=1
            cur.append(x)
            if d==0 and (x==',' or (x=='}' and '=>' in cur)):
                if cur!=[',']: arms.append(cur)
                cur=[]
            j+=1
        if cur: arms.append(cur)
        for a in arms:
            i=a.index('=>'); pat=a[:i]; body=a[i+1:]
            head=pat[0]
            if 'if' in pat and '==' in pat:
                j=pat.index('=='); v=pat[j+1:]; v=[q for q in v if q!='&']
                w=env[v[0]]
                for h in reversed([q for q in pat[:pat.index('if')] if q in('Ok','Err','Some')]): w=Ctor(h,[w])
                c.want=w; return
            if '!=' in body:
                j=body.index('!='); lhs=body[j-1]; rhs=[q for q in body[j+1:j+3] if q!='&'][0]
                bound=[q for q in pat if re.match(r'[a-z]',q) and q!='ref']
                if lhs in bound: v=rhs
                elif rhs in bound: v=lhs
                else: raise Unsup('match cmp')
                c.want=Ctor(head,[env[v]]); return
            if head=='Ok' and pat[:3]==['Ok','(','_'] and body[:2]==['{','}']:
                c.ok=True; return
        raise Unsup('match arms')
    def ev(s,e,env):
        k=e[0]
        if k=='lit': return e[1]
        if k=='tuple': return tuple(s.ev(x,env) for x in e[1])
        if k=='list': return [s.ev(x,env) for x in e[1]]
        if k=='block': return s.run(e[1],dict(env))
        if k=='path':
            p=e[1]
            if len(p)==1 and p[0] in env: return env[p[0]]
            if p[-1][0].isupper(): return Ctor('::'.join(p),[]) if False else Ctor(p[-1],[])
            raise Unsup('path '+'::'.join(p))
        if k=='struct':
            return Ctor(e[1][-1],{a:s.ev(b,env) for a,b in e[2].items()})
        if k=='mac':
            n=e[1]
            if n=='vec!': return [s.ev(x,env) for x in e[2]]
            if n=='format!':
                a=[s.ev(x,env) for x in e[2]]; f=a[0]; r='';ai=1;i=0
                while i<len(f):
                    if f[i:i+2]=='{{': r+='{';i+=2
                    elif f[i:i+2]=='}}': r+='}';i+=2
                    elif f[i:i+2]=='{}':
                        if not isinstance(a[ai],(str,int)): raise Unsup('fmt')
                        r+=str(a[ai]);ai+=1;i+=2
                    elif f[i]=='{': raise Unsup('fmt')
                    else: r+=f[i];i+=1
                return r
            if n=='assert_eq!':
                a=s.ev(e[2][0],env); b=s.ev(e[2][1],env)
                if isinstance(b,(Call,Unw)): a,b=b,a
                if isinstance(b,Pop): a,b=b,a
                if isinstance(a,Pop): a.c.last=b; return
                if isinstance(a,Unw2): a.c.c.want=Ctor('Ok',[Ctor('Some',[b])]); return
                if isinstance(a,Call): a.want=b; return
                if isinstance(a,Unw): a.c.want=Ctor('Ok',[b]) if a.c.m not in('skip_whitespace','linebreak','newline','peek_reserved_token','peek_reserved_word') else Ctor('Some',[b]); return
                raise Unsup('assert_eq')
            raise Unsup(n)
        if k=='call':
            p=e[1]; n=p[-1]
            a=[s.ev(x,env) for x in e[2]]
            if n in('new','from') and p[0] in('Box','Rc','String','Arc'): return a[0]
            if n=='new' and p[0]=='String': return ''
            if n=='make_parser':
                q=Parser(a[0]); s.parsers.append(q); return q
            if n=='make_parser_from_tokens':
                q=Parser(None,a[0]); s.parsers.append(q); return q
            if n in s.fns:
                ps,b=s.fns[n]; env2={}
                for q,w in zip(ps,a): s.bind(env2,q,w)
                return s.run(b,env2)
            if n=='cmd_args_simple':
                return Ctor('SimpleCommand',{'redirects_or_env_vars':[],'redirects_or_cmd_words':[Ctor('CmdWord',[word(x)]) for x in [a[0]]+a[1]]})
            if n[0].isupper(): return Ctor(n,a)
            raise Unsup('call '+n)
        if k=='meth':
            o=s.ev(e[1],env); n=e[2]; a=[s.ev(x,env) for x in e[3]]
            if isinstance(o,Parser):
                if n in PM: return Call(o,n,a)
                raise Unsup('meth '+n)
            if isinstance(o,Call):
                if n in('unwrap','expect'):
                    o.ok=True; return Unw(o)
                if n=='pop' and o.m=='linebreak': return Pop(o)
                if n=='as_ref': return o
                if n=='unwrap_err': 
                    class U2(Unw): pass
                    raise Unsup('unwrap_err')
                raise Unsup('call.'+n)
            if isinstance(o,Unw):
                if n in('unwrap','expect'):
                    return Unw2(o)
                raise Unsup('unw.'+n)
            if isinstance(o,Pop) and n=='unwrap': return o
            if n=='enumerate': return [(i,x) for i,x in enumerate(o)]
            if n in('to_owned','to_string','into','clone','iter','into_iter','as_str','as_ref','cloned','to_vec'): return o
            if n=='unwrap' : raise Unsup('unwrap')
            raise Unsup('m '+n)
        if k=='idx': return s.ev(e[1],env)[s.ev(e[2],env)]
        raise Unsup('ev '+k)
class Unw2(Unw):
    pass
class Pop:
    def __init__(s,c): s.c=c
def word(s): return Ctor('TopLevelWord',[Ctor('Single',[Ctor('Simple',[Ctor('Literal',[s])])])])
# ---- emission
def cs(s):
    if all(32<=ord(c)<127 for c in s): return '(s_of "%s")'%s.replace('"','""')
    return '[%s]%%N'%';'.join(str(ord(c)) for c in s)
def em(v,t):
    if isinstance(t,str): 
        if t=='str': 
            if not isinstance(v,str): raise Unsup('want str %r'%(v.n if isinstance(v,Ctor) else v))
            return cs(v)
        if t=='N': return '%d%%N'%v
        if t=='Z': return '(%d)%%Z'%v
        if t=='bool': return 'true' if v else 'false'
        if t=='unit': return 'tt'
        if t=='token': return tok(v)
        if t=='pos': return '(mkPos %d %d %d)'%tuple(v.a) if isinstance(v.a,list) else '(mkPos %d %d %d)'%(v.a['byte'],v.a['line'],v.a['col'])
        if t not in SCH: raise Unsup('type '+t)
        if not isinstance(v,Ctor): raise Unsup('want %s got %r'%(t,v))
        S=SCH[t]
        if v.n not in S: raise Unsup('ctor %s in %s'%(v.n,t))
        c,fs=S[v.n]
        if isinstance(fs,dict): a=[em(v.a[f],ft) for f,ft in fs.items()]
        else:
            if len(fs)!=len(v.a): raise Unsup('arity '+v.n)
            a=[em(x,ft) for x,ft in zip(v.a,fs)]
        return '(%s)'%' '.join([c]+a) if a else c
    k=t[0]
    if k=='list': return '['+'; '.join(em(x,t[1]) for x in v)+']'
    if k=='opt':
        if isinstance(v,Ctor) and v.n=='None': return 'None'
        if isinstance(v,Ctor) and v.n=='Some': return '(Some %s)'%em(v.a[0],t[1])
        raise Unsup('opt')
    if k=='pair': return '('+', '.join(em(x,y) for x,y in zip(v,t[1:]))+')'
    if k=='sum':
        return '(inl %s)'%em(v.a[0],t[1]) if v.n=='Ok' else '(inr %s)'%em(v.a[0],t[2])
    raise Unsup('t')
TK={'Newline':'TNewline'}
def tok(v):
    n=v.n
    if n in('Name','Literal','Whitespace'): return '(T%s %s)'%(n,cs(v.a[0]))
    if n=='ParamPositional': return '(TParamPositional P%d)'%['Zero','One','Two','Three','Four','Five','Six','Seven','Eight','Nine'].index(v.a[0].n)
    return 'T'+n
O=lambda t:('opt',t)
L=lambda t:('list',t)
par={'At':('PmAt',[]),'Star':('PmStar',[]),'Pound':('PmPound',[]),'Question':('PmQuestion',[]),'Dash':('PmDash',[]),'Dollar':('PmDollar',[]),'Bang':('PmBang',[]),'Positional':('PmPositional',['N']),'Var':('PmVar',['str'])}
ar={'Var':('AVar',['str']),'Literal':('ALiteral',['Z']),'Ternary':('ATernary',['arith']*3),'Assign':('AAssign',['str','arith']),'Sequence':('ASequence',[L('arith')])}
for n in 'PostIncr PostDecr PreIncr PreDecr'.split(): ar[n]=('A'+n,['str'])
for n in 'UnaryPlus UnaryMinus LogicalNot BitwiseNot'.split(): ar[n]=('A'+n,['arith'])
for n in 'Pow Mult Div Modulo Add Sub ShiftLeft ShiftRight Less LessEq Great GreatEq Eq NotEq BitwiseAnd BitwiseXor BitwiseOr LogicalAnd LogicalOr'.split(): ar[n]=('A'+n,['arith']*2)
sub={'Command':('SCommand',[L('cmd')]),'Len':('SLen',['param']),'Arith':('SArith',[O('arith')])}
for n in 'Default Assign Error Alternative'.split(): sub[n]=('S'+n,['bool','param',O('tlword')])
for n in 'RemoveSmallestSuffix RemoveLargestSuffix RemoveSmallestPrefix RemoveLargestPrefix'.split(): sub[n]=('S'+n,['param',O('tlword')])
red={n:('R'+n,[O('N'),'tlword']) for n in 'Read Write ReadWrite Append Clobber Heredoc DupRead DupWrite'.split()}
grp={'CommandGroup':('mkCG',{'commands':L('cmd'),'trailing_comments':L('newline')})}
aol={'first':'listable','rest':L('andor')}
gb={'GuardBodyPair':('mkGB',{'guard':L('cmd'),'body':L('cmd')})}
SCH={'param':par,'arith':ar,'subst':sub,'redirect':red,'group':grp,
'tlword':{'TopLevelWord':('TLWord',['complex'])},
'complex':{'Single':('WSingle',['word']),'Concat':('WConcat',[L('word')])},
'word':{'Simple':('WSimple',['simple']),'DoubleQuoted':('WDoubleQuoted',[L('simple')]),'SingleQuoted':('WSingleQuoted',['str'])},
'simple':{'Literal':('WLiteral',['str']),'Escaped':('WEscaped',['str']),'Param':('WParam',['param']),'Subst':('WSubst',['subst']),**{n:('W'+n,[]) for n in 'Star Question SquareOpen SquareClose Tilde Colon'.split()}},
'cmd':{'TopLevelCommand':('TLCmd',['command'])},
'command':{'List':('CList',['aol']),'Job':('CJob',['aol'])},
'aol':{'CommandList':('mkAOL',aol),'AndOrList':('mkAOL',aol)},
'andor':{'And':('And',['listable']),'Or':('Or',['listable'])},
'listable':{'Single':('LSingle',['pipeable']),'Pipe':('LPipe',['bool',L('pipeable')])},
'pipeable':{'Simple':('PSimple',['sc']),'Compound':('PCompound',['cc']),'FunctionDef':('PFunctionDef',['str','cc'])},
'sc':{'SimpleCommand':('mkSC',{'redirects_or_env_vars':L('rev'),'redirects_or_cmd_words':L('rcw')})},
'rev':{'Redirect':('ERedirect',['redirect']),'EnvVar':('EEnvVar',['str',O('tlword')])},
'rcw':{'Redirect':('DRedirect',['redirect']),'CmdWord':('DCmdWord',['tlword'])},
'cc':{'CompoundCommand':('mkCC',{'kind':'kind','io':L('redirect')})},
'kind':{'Brace':('CBrace',[L('cmd')]),'Subshell':('CSubshell',[L('cmd')]),'While':('CWhile',['gb']),'Until':('CUntil',['gb']),'If':('CIf',{'conditionals':L('gb'),'else_branch':O(L('cmd'))}),'For':('CFor',{'var':'str','words':O(L('tlword')),'body':L('cmd')}),'Case':('CCase',{'word':'tlword','arms':L('pb')})},
'gb':gb,'pb':{'PatternBodyPair':('mkPB',{'patterns':L('tlword'),'body':L('cmd')})},
'newline':{'Newline':('Newline',[O('str')])},
'gbp':{'GuardBodyPairGroup':('mkGBP',{'guard':'group','body':'group'})},
'loop':{'While':('LoopWhile',[]),'Until':('LoopUntil',[])},
'iff':{'IfFragments':('mkIF',{'conditionals':L('gbp'),'else_branch':O('group')})},
'ff':{'ForFragments':('mkFF',{'var':'str','var_comment':O('newline'),'words':O(('pair',L('newline'),L('tlword'),O('newline'))),'pre_body_comments':L('newline'),'body':'group'})},
'cp':{'CasePatternFragments':('mkCP',{'pre_pattern_comments':L('newline'),'pattern_alternatives':L('tlword'),'pattern_comment':O('newline')})},
'ca':{'CaseArm':('mkCA',{'patterns':'cp','body':'group','arm_comment':O('newline')})},
'cf':{'CaseFragments':('mkCF',{'word':'tlword','post_word_comments':L('newline'),'in_comment':O('newline'),'arms':L('ca'),'post_arms_comments':L('newline')})},
'err':{'BadFd':('BadFd',['pos','pos']),'BadIdent':('BadIdent',['str','pos']),'BadSubst':('BadSubst',['token','pos']),'Unmatched':('Unmatched',['token','pos']),'IncompleteCmd':('IncompleteCmd',['str','pos','str','pos']),'Unexpected':('Unexpected',['token','pos']),'UnexpectedEOF':('UnexpectedEOF',[])},
}
AP={'complete_command':('ACompleteCommand',O('cmd')),'and_or_list':('AAndOrList','aol'),'pipeline':('APipeline','listable'),'command':('ACommand','pipeable'),'simple_command':('ASimpleCommand','pipeable'),'redirect_list':('ARedirectList',L('redirect')),'redirect':('ARedirect',O(('sum','redirect','tlword'))),'word':('AWord',O('tlword')),'word_preserve_trailing_whitespace':('AWordPreserve',O('tlword')),'backticked_command_substitution':('ABackticked','tlword'),'parameter':('AParameter','tlword'),'do_group':('ADoGroup','group'),'brace_group':('ABraceGroup','group'),'subshell':('ASubshell','group'),'compound_command':('ACompoundCommand','cc'),'loop_command':('ALoopCommand',('pair','loop','gbp')),'if_command':('AIfCommand','iff'),'for_command':('AForCommand','ff'),'case_command':('ACaseCommand','cf'),'maybe_function_declaration':('AMaybeFunction',O('pipeable')),'function_declaration':('AFunction','pipeable'),'skip_whitespace':('ASkipWhitespace','unit'),'linebreak':('ALinebreak',L('newline')),'newline':('ANewline',O('newline'))}
def emcall(c):
    if c.m not in AP: raise Unsup('api '+c.m)
    a,t=AP[c.m]
    if c.last is not None: return 'StepLast %s'%em(c.last,'newline')
    if c.want is None: return ('StepOk %s' if c.ok else 'Step %s None')%a
    w=c.want
    if c.m in('linebreak','newline'): 
        return 'Step %s (Some (OOk %s))'%(a,em(w,t))
    if not isinstance(w,Ctor): raise Unsup('want')
    if w.n=='Ok': return 'Step %s (Some (OOk %s))'%(a,em(w.a[0],t))
    if w.n=='Err': return 'Step %s (Some (OErr %s))'%(a,em(w.a[0],'err'))
    raise Unsup('want '+w.n)
def fns_of(src):
    out={}
    for m in re.finditer(r'^(?:pub )?fn (\w+)\s*\(',src,re.M):
        i=src.index('fn',m.start()); 
        try:
            # find end: matching braces at column 0
            j=src.index('\n}',i)+2
            t=lex(src[i:j]); p=P(t); st=p.stmt(); out[st[1]]=(st[2],st[3])
        except (Unsup,KeyError,IndexError) as e: out[m.group(1)]=None
    return out
support=fns_of(open(T+'parse_support.rs').read())
support={k:v for k,v in support.items() if v and k not in('make_parser','make_parser_from_tokens','cmd_args_simple')}
support['src']=([('v','byte'),('v','line'),('v','col')],[('ret',('struct',['SourcePos'],{'byte':('path',['byte']),'line':('path',['line']),'col':('path',['col'])}))])
out=[];skipped=[];ok=0;nt=0
for f in sorted(os.listdir(T)):
    if f=='parse_support.rs': continue
    s=open(T+f).read()
    fl=fns_of(s)
    loc={k:v for k,v in fl.items() if v and not k.startswith('test_')}
    for m in re.finditer(r'#\[test\]\s*(?:#\[[^\]]*\]\s*)*fn (\w+)',s):
        n=m.group(1)
        try:
            if fl.get(n) is None:
                i=s.index('fn '+n,m.start()); j=s.index('\n}',i)+2
                P(lex(s[i:j])).stmt(); raise Unsup('parse')
            it=I({**support,**loc}); it.run(fl[n][1],{})
            k=0;res=[]
            for p in it.parsers:
                if not any(c.want is not None or c.ok or c.last is not None for c in p.calls): continue
                src='(@lex ascii_uni %s)'%cs(p.src) if p.toks is None else em(p.toks,L('token'))
                k+=1; res.append('Example ast_%s_%d : follows %s [%s].\nProof. vm_compute. repeat split. Qed.'%(n[5:] if n.startswith('test_') else n,k,src,'; '.join(emcall(c) for c in p.calls)))
            if not res: raise Unsup('nothing checked')
            out+=['(* tests/%s *)'%f if not out or not out[-1] else '']; out+=res; ok+=len(res); nt+=1
        except Unsup as e: skipped.append((f,n,str(e)))
        except (KeyError,IndexError,TypeError,AttributeError,ValueError) as e: skipped.append((f,n,repr(e)))
ls=open(T+'lexer.rs').read(); nl=0
out.append('(* tests/lexer.rs *)')
t=lex(ls); i=0
while i<len(t):
    if t[i][1] in('check_tok!','lex_str!'):
        p=P(t); p.i=i+1; o=p.nx(); c={'(':')','[':']','{':'}'}[o]
        n=p.nx(); p.ex(',')
        try:
            a=[I({}).ev(x,{}) for x in p.args(c)]
            if t[i][1]=='check_tok!': out.append('Example lexer_%s : @lex ascii_uni (as_str %s) = [%s].\nProof. reflexivity. Qed.'%(n,tok(a[0]),tok(a[0])))
            else: out.append('Example lexer_%s : @lex ascii_uni %s = [%s].\nProof. reflexivity. Qed.'%(n,cs(a[0]),'; '.join(tok(x) for x in a[1:])))
            nl+=1
        except Unsup as e: print('lexer',n,e,file=sys.stderr)
        i=p.i
    else: i+=1
print(nl,'lexer tests',file=sys.stderr)
print(nt,'tests',ok,'checks; skipped',len(skipped),file=sys.stderr)
for x in skipped: print(x,file=sys.stderr)
hdr='''(** * Conformance of the model with the project's own tests, results included

    Each example runs the methods that a unit test of /repo/tests calls, in order, on the model, and
    compares every result the test compares, AST and positions included.  Generated from the test
    sources.  These are tests of the model, not proofs. *)
From Coq Require Import String.
From Verif Require Import Base Token Lexer Pos Ast Builder Prog Iter Command DefaultBuilder Api.

Definition ascii_uni : Uni := fun _ => false.
(** A method, and its result if the test looks at it. *)
Inductive step := Step (m : api) (want : option (outcome default_err (api_result default_builder m)))
  | StepOk (m : api)                  (* the test only unwraps the result *)
  | StepLast (n : newline_).          (* the last of the newlines of [linebreak] *)
Fixpoint follows_from (ss : list step) (s : token_iter) : Prop :=
  match ss with
  | [] => True
  | Step m want :: ss' =>
      let '(o, s', _) := run concrete (call default_builder m 300) s tt in
      match want with Some w => o = w | None => True end /\\ follows_from ss' s'
  | StepOk m :: ss' =>
      let '(o, s', _) := run concrete (call default_builder m 300) s tt in
      match o with OOk _ => True | _ => False end /\\ follows_from ss' s'
  | StepLast n :: ss' =>
      let '(o, s', _) := run concrete (call default_builder ALinebreak 300) s tt in
      match o with OOk l => hd_error (rev l) = Some n | _ => False end /\\ follows_from ss' s'
  end.
Definition follows (ts : list token) (ss : list step) : Prop := follows_from ss (ti_new ts).
'''
open(os.path.join(os.path.dirname(os.path.abspath(__file__)),'../rocq/theories/ConformanceAst.v'),'w').write(hdr+'\n'.join(x for x in out if x)+'\n')
