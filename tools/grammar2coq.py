#!/usr/bin/env python3
"""Transcribes, purely syntactically, into Rocq data:
   - src/syntax_kind/generated.rs      -> theories/Kinds.v        (enum SyntaxKind)
   - src/parser/grammar.rs             -> theories/GrammarData.v  (the 138 parse_* functions)
   - sparql12.ungram                   -> theories/UngramData.v   (the grammar shipped)
   - src/rules.rs                      -> theories/RulesData.v    (the rule table used by completion)
Every statement form of grammar.rs that is not one of the shapes below makes the script fail."""
import re,sys,os
R="/repo/crates/sparql-parser/"
OUT=os.path.join(os.path.dirname(os.path.abspath(__file__)),"../rocq/theories/")

# ---------- kinds ----------
src=open(R+"src/syntax_kind/generated.rs").read()
enum=src[src.index("pub enum SyntaxKind"):]
kinds=[]
for line in enum.split("\n"):
    m=re.match(r"^    ([A-Za-z_][A-Za-z_0-9]*)( = 0)?,$",line)
    if m: kinds.append(m.group(1))
assert kinds[0]=="Eof" and kinds[-1]=="PrefixedName" and len(set(kinds))==len(kinds)
K=lambda k:"K_"+k

with open(OUT+"Kinds.v","w") as f:
    f.write("""(** Generated by tools/grammar2coq.py from
    crates/sparql-parser/src/syntax_kind/generated.rs (enum SyntaxKind, declaration order).
    [kind_id] is the discriminant (#[repr(u16)], Eof = 0). *)
From Coq Require Import NArith List Bool.
Import ListNotations.

Inductive kind :=
""")
    for k in kinds: f.write("| %s\n"%K(k))
    f.write(".\n\nDefinition kind_id (k : kind) : N :=\n  match k with\n")
    for i,k in enumerate(kinds): f.write("  | %s => %d%%N\n"%(K(k),i))
    f.write("  end.\n\nDefinition all_kinds : list kind :=\n  [ %s ].\n"%(";\n    ".join(K(k) for k in kinds)))
    f.write("""
(** derived PartialEq of SyntaxKind *)
Definition kind_eqb (a b : kind) : bool := N.eqb (kind_id a) (kind_id b).
(** slice::contains *)
Definition kind_in (k : kind) (l : list kind) : bool := existsb (kind_eqb k) l.
(** syntax_kind.rs:10-14, parser/mod.rs:24-26 is_trivia *)
Definition is_trivia (k : kind) : bool :=
  match k with K_WHITESPACE | K_Comment => true | _ => false end.
""")

# ---------- grammar.rs ----------
g=open(R+"src/parser/grammar.rs").read()
lineof=lambda pos:g.count("\n",0,pos)+1
tok=re.compile(r"\s+|//[^\n]*|(?P<t>[A-Za-z_][A-Za-z_0-9]*|::|=>|==|&&|[0-9]+|.)",re.S)
def lex(s,base):
    out=[];i=0
    while i<len(s):
        m=tok.match(s,i)
        if m.group("t"): out.append((m.group("t"),base+i))
        i=m.end()
    return out
class P:
    def __init__(s,t): s.t=t; s.i=0
    def pk(s,n=0): return s.t[s.i+n][0] if s.i+n<len(s.t) else None
    def nx(s): s.i+=1; return s.t[s.i-1][0]
    def ex(s,*xs):
        for x in xs:
            y=s.nx()
            if y!=x: raise Exception("expected %r got %r at line %d"%(x,y,lineof(s.t[s.i-1][1])))
    def at(s,*xs): return all(s.pk(i)==x for i,x in enumerate(xs))
    def kind(s):
        s.ex("SyntaxKind","::"); return s.nx()
    def kinds(s):            # [K, K, ...]
        s.ex("[");r=[]
        while not s.at("]"):
            r.append(s.kind())
            if s.at(","): s.nx()
        s.ex("]");return r
    def pats(s):             # K | K | ...
        r=[s.kind()]
        while s.at("|"): s.nx(); r.append(s.kind())
        return r
def block(p,me):
    """statements up to the closing brace (not consumed)"""
    out=[]
    while not p.at("}"):
        out.append(stmt(p,me))
    return out
def stmt(p,me):
    if p.at("p",".","expect"):
        p.ex("p",".","expect","("); k=p.kind(); p.ex(")",";"); return ("Expect",k)
    if re.match(r"parse_",p.pk()):
        n=p.nx()[6:]; p.ex("(","p",")",";"); return ("Call",n)
    if p.at("if","p",".","at_any"):
        p.ex("if","p",".","at_any","(","&"); fs=p.kinds(); p.ex(")","{"); b=block(p,me); p.ex("}"); return ("If",fs,b)
    if p.at("if","!","p",".","at_any"):
        p.ex("if","!","p",".","at_any","(","&"); fs=p.kinds(); p.ex(")","&&","!","p",".","eof","(",")","{")
        p.ex("p",".","error_until","(","vec","!"); a=p.kinds(); p.ex(",","&"); b=p.kinds()
        if p.at(","): p.nx()
        p.ex(")",";","}")
        assert fs==a==b
        return ("Sync",fs)
    if p.at("while","["):
        p.ex("while"); fs=p.kinds(); p.ex(".","contains","(","&","p",".","nth","(","0",")",")","{")
        p.ex("let","checkpoint","=","p",".","pos","(",")",";")
        b=[]
        while not p.at("if","p",".","pos"): b.append(stmt(p,me))
        p.ex("if","p",".","pos","(",")","==","checkpoint","{","break",";","}","}")
        return ("While",fs,b)
    if p.at("match"):
        p.ex("match","p",".","nth","(","0",")","{")
        arms=[];d=None;eof=False
        while not p.at("}"):
            if p.at("_"):
                assert eof, "no Eof arm"
                p.ex("_","=>","{")
                if p.at("}"): p.ex("}"); d=("DSkip",)
                else:
                    p.ex("p",".","advance_with_error","(","vec","!"); e=p.kinds(); p.ex(")",";","}"); d=("DErr",e)
                continue
            ks=p.pats(); p.ex("=>","{")
            if ks==["Eof"]:
                p.ex("p",".","close","(","marker",","); assert p.kind()==me
                p.ex(")",";","let","marker","=","p",".","open","(",")",";","p",".","close","(","marker",",","SyntaxKind","::","Error",")",";","return",";","}")
                eof=True
            else:
                assert not eof and "Eof" not in ks
                b=block(p,me); p.ex("}"); arms.append((ks,b))
            if p.at(","): p.nx()
        p.ex("}",";")
        assert d is not None
        return ("Match",arms,d)
    raise Exception("unknown statement at line %d: %s"%(lineof(p.t[p.i][1]),[x[0] for x in p.t[p.i:p.i+12]]))
funs={}
order=[]
for m in re.finditer(r"pub\(super\) fn parse_(\w+)\(p: &mut Parser\) \{",g):
    name=m.group(1)
    end=g.find("\n}\n",m.end()); 
    if end<0: end=g.rindex("}")
    end=end+1 if g[end]=="\n" else end
    p=P(lex(g[m.end():end+1],m.end()))
    esc=None
    if p.at("if","!","p",".","at_any"):
        p.ex("if","!","p",".","at_any","(","&"); esc=p.kinds(); p.ex(")","{","return",";","}")
    p.ex("let","marker","=","p",".","open","(",")",";")
    body=[];unit=False
    while not p.at("p",".","close"):
        if p.at("if","!","p",".","at","("):
            p.ex(*"if ! p . at ( SyntaxKind :: Eof ) { let error_marker = p . open ( ) ; while ! p . at ( SyntaxKind :: Eof ) { p . advance ( ) ; } p . close ( error_marker , SyntaxKind :: Error ) ; }".split())
            unit=True
        else:
            assert not unit
            body.append(stmt(p,name))
    p.ex("p",".","close","(","marker",","); assert p.kind()==name
    p.ex(")",";","}")
    assert p.i==len(p.t)
    funs[name]=(lineof(m.start()),lineof(end),esc,body,unit); order.append(name)
assert len(order)==len(re.findall(r"fn parse_",g))
def kl(l): return "["+"; ".join(K(x) for x in l)+"]"
def cs(ss,ind):
    if not ss: return "Skip"
    if len(ss)==1: return c1(ss[0],ind)
    return "Seq (%s)\n%s(%s)"%(c1(ss[0],ind)," "*ind,cs(ss[1:],ind))
def c1(s,ind):
    t=s[0]
    if t=="Expect": return "Expect %s"%K(s[1])
    if t=="Call": return "Call %s"%K(s[1])
    if t=="Sync": return "Sync %s"%kl(s[1])
    if t in("If","While"): return "%s %s (%s)"%(t,kl(s[1]),cs(s[2],ind+2))
    if t=="Match":
        r=""
        for ks,b in s[1]: r+="(Arm %s (%s)\n%s "%(kl(ks),cs(b,ind+4)," "*ind)
        d="(ArmEnd %s)"%("DSkip" if s[2][0]=="DSkip" else "(DErr %s)"%kl(s[2][1]))
        return "Match "+r+d+")"*len(s[1])
with open(OUT+"GrammarData.v","w") as f:
    f.write("""(** Generated by tools/grammar2coq.py from crates/sparql-parser/src/parser/grammar.rs.
    Each [parse_X] is the statement-by-statement transcription of [fn parse_X]; the
    statement language is defined in ParserSyntax.v. *)
From Coq Require Import List.
Import ListNotations.
From Verif Require Import Kinds ParserSyntax.

""")
    for n in order:
        a,b,esc,body,unit=funs[n]
        f.write("(** grammar.rs:%d-%d fn parse_%s *)\nDefinition parse_%s : rule :=\n  mkrule %s %s\n    (%s)\n    %s.\n\n"%(
            a,b,n,n,K(n),"None" if esc is None else "(Some %s)"%kl(esc),cs(body,5),"true" if unit else "false"))
    f.write("(** the functions by the node kind they close with *)\nDefinition rule_of (k : kind) : option rule :=\n  match k with\n")
    for n in order: f.write("  | %s => Some parse_%s\n"%(K(n),n))
    f.write("  | _ => None\n  end.\n\nDefinition rule_kinds : list kind :=\n  %s.\n"%kl(order))
# ---------- ungram ----------
u=open(R+"sparql12.ungram").read()
TK={"*":"Star","+":"Plus","-":"Minus","(":"LParen",")":"RParen","{":"LCurly","}":"RCurly","{|":"LCurlyPipe","|}":"PipeRCurly","[":"LBrack","]":"RBrack","~":"Tilde",".":"Dot",",":"Comma",";":"Semicolon","|":"Pipe","||":"DoublePipe","/":"Slash","^":"Zirkumflex","^^":"DoubleZirkumflex","?":"QuestionMark","$":"Dollar","!":"ExclamationMark","&&":"DoubleAnd","=":"Equals","!=":"ExclamationMarkEquals","<":"Less","<=":"LessEquals","<<":"DoubleLess","<<(":"DoubleLessLParen",">":"More",">=":"MoreEquals",">>":"DoubleMore",")>>":"RParenDoubleMore","true":"True","false":"False"}
# the table above must be the one in generator/mod.rs
gen=open(R+"generator/mod.rs").read()
assert dict(re.findall(r'^            "([^"]+)" => "(\w+)",$',gen,re.M))==TK
ut=[(m.group(1) or m.group(2) or m.group(3),"tok" if m.group(1) else "id" if m.group(2) else "p",m.start()) for m in re.finditer(r"'((?:[^'\\]|\\.)*)'|([A-Za-z_]\w*)|([=|()*?])",u)]
assert re.sub(r"'((?:[^'\\]|\\.)*)'|([A-Za-z_]\w*)|([=|()*?])|\s","",u)==""
pos=0
def alt():
    global pos
    xs=[seq()]
    while pos<len(ut) and ut[pos][:2]==("|","p"): pos+=1; xs.append(seq())
    return xs[0] if len(xs)==1 else ("Alt",xs)
def seq():
    xs=[]
    while True:
        x=atom()
        if x is None: break
        xs.append(x)
    assert xs
    return xs[0] if len(xs)==1 else ("Seq",xs)
def atom():
    global pos
    if pos>=len(ut): return None
    v,t,_=ut[pos]
    if t=="tok": pos+=1; r=("Tok",TK.get(v,v)); assert r[1] in kinds,v
    elif t=="id":
        if pos+1<len(ut) and ut[pos+1][:2]==("=","p"): return None
        pos+=1; r=("Node",v)
    elif v=="(":
        pos+=1; r=alt(); assert ut[pos][0]==")"; pos+=1
    else: return None
    while pos<len(ut) and ut[pos][1]=="p" and ut[pos][0] in"*?":
        r=("Rep" if ut[pos][0]=="*" else "Opt",r); pos+=1
    return r
prods=[]
while pos<len(ut):
    n=ut[pos][0]; ln=u.count("\n",0,ut[pos][2])+1; assert ut[pos][1]=="id" and ut[pos+1][0]=="="; pos+=2
    prods.append((n,ln,alt()))
def ge(e):
    t=e[0]
    if t=="Tok": return "GTok %s"%K(e[1])
    if t=="Node": return "GNode %s"%K(e[1])
    if t in("Opt","Rep"): return "G%s (%s)"%(t,ge(e[1]))
    xs=e[1]
    if len(xs)==1: return ge(xs[0])
    return "G%s (%s) (%s)"%(t,ge(xs[0]),ge((t,xs[1:])))
assert set(n for n,_,_ in prods)==set(order), set(n for n,_,_ in prods)^set(order)
with open(OUT+"UngramData.v","w") as f:
    f.write("""(** Generated by tools/grammar2coq.py from crates/sparql-parser/sparql12.ungram: the
    grammar the parser is shipped with.  n-ary sequences and alternatives are nested to
    the right; token spellings are mapped to kinds by the table of generator/mod.rs
    (generate_token_kind). *)
From Verif Require Import Kinds GrammarSpec.

""")
    for n,ln,e in prods: f.write("(** sparql12.ungram:%d *)\nDefinition G_%s : gexp :=\n  %s.\n\n"%(ln,n,ge(e)))
    f.write("Definition sparql_grammar (k : kind) : option gexp :=\n  match k with\n")
    for n,_,_ in prods: f.write("  | %s => Some G_%s\n"%(K(n),n))
    f.write("  | _ => None\n  end.\n")
print(len(kinds),"kinds",len(order),"functions",len(prods),"productions")
