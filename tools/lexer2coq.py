#!/usr/bin/env python3
"""Transcribes the #[token]/#[regex] attributes of src/syntax_kind/generated.rs (enum SyntaxKind, derive(Logos))
   into theories/LexerData.v.  Any attribute or regular expression syntax not handled below makes it fail.
   A character class is a list of inclusive code point ranges; an alternation of single-character
   alternatives is merged into one class; r+ = r r*, r? = (|r), r{n} unrolled; \\b at the end of a rule is the
   rule's word-boundary flag; ignore(case) and (?i:) use Unicode simple case folding, (?i-u:) ASCII folding;
   \\d is Unicode Nd and \\s Unicode White_Space."""
import re,sys,os,unicodedata
SRC="/repo/crates/sparql-parser/src/syntax_kind/generated.rs"
OUT=os.path.join(os.path.dirname(os.path.abspath(__file__)),"../rocq/theories/LexerData.v")
MAX=0x10FFFF
def norm(rs):
    rs=sorted(rs); out=[]
    for a,b in rs:
        if out and a<=out[-1][1]+1: out[-1]=(out[-1][0],max(b,out[-1][1]))
        else: out.append((a,b))
    return out
def compl(rs):
    out=[];p=0
    for a,b in norm(rs):
        if p<a: out.append((p,a-1))
        p=b+1
    if p<=MAX: out.append((p,MAX))
    return out
ND=norm([(c,c) for c in range(MAX+1) if not 0xD800<=c<0xE000 and unicodedata.category(chr(c))=="Nd"]
  +[(0x10D40,0x10D49),(0x11F50,0x11F59),(0x1E4F0,0x1E4F9),(0x11BF0,0x11BF9),(0x116D0,0x116E3),(0x1CCF0,0x1CCF9),(0x1E5F1,0x1E5FA),(0x16D70,0x16D79)])
WS=norm([(9,13),(32,32),(0x85,0x85),(0xA0,0xA0),(0x1680,0x1680),(0x2000,0x200A),(0x2028,0x2029),(0x202F,0x202F),(0x205F,0x205F),(0x3000,0x3000)])
def fold(rs,mode):
    if mode is None: return norm(rs)
    out=list(rs)
    for a,b in rs:
        assert b<128 and b-a<64
        for c in range(a,b+1):
            ch=chr(c)
            if ch.isalpha():
                out+=[(ord(ch.upper()),)*2,(ord(ch.lower()),)*2]
                if mode=="unicode":
                    if ch in "kK": out.append((0x212A,0x212A))
                    if ch in "sS": out.append((0x17F,0x17F))
    return norm(out)
# ---- regular expressions ----
class RX:
    def __init__(s,t): s.t=t; s.i=0; s.wb=False
    def pk(s): return s.t[s.i] if s.i<len(s.t) else None
    def alt(s,mode):
        xs=[s.cat(mode)]
        while s.pk()=="|": s.i+=1; xs.append(s.cat(mode))
        return mkalt(xs)
    def cat(s,mode):
        xs=[]
        while s.pk() not in (None,"|",")"): xs.append(s.rep(mode))
        return mkcat(xs)
    def rep(s,mode):
        a=s.atom(mode)
        while True:
            c=s.pk()
            if c=="*": s.i+=1; a=("star",a)
            elif c=="+": s.i+=1; a=mkcat([a,("star",a)])
            elif c=="?": s.i+=1; a=mkalt([("eps",),a])
            elif c=="{":
                m=re.compile(r"\{(\d+)\}").match(s.t,s.i); assert m; s.i=m.end(); a=mkcat([a]*int(m.group(1)))
            else: return a
    def atom(s,mode):
        c=s.t[s.i]
        if c=="(":
            for p,md in (("(?:",mode),("(?i:","unicode"),("(?i-u:","ascii"),("(?-u:",None)):
                if s.t.startswith(p,s.i): s.i+=len(p); m2=md; break
            else:
                assert s.t[s.i+1]!="?"; s.i+=1; m2=mode
            a=s.alt(m2); assert s.pk()==")"; s.i+=1; return a
        if c=="[": return ("cls",s.klass())
        if c=="\\":
            x=s.esc()
            if x=="b":
                rest=s.t[s.i:]; assert rest==")", rest
                s.wb=True; return ("eps",)
            return ("cls",fold(x,mode) if len(x)==1 and x[0][0]==x[0][1] else x)
        assert c not in "*+?{}^$.", c
        s.i+=1; return ("cls",fold([(ord(c),)*2],mode))
    def esc(s):
        assert s.t[s.i]=="\\"; c=s.t[s.i+1]; s.i+=2
        if c=="u":
            m=re.compile(r"\{([0-9A-Fa-f]+)\}").match(s.t,s.i); assert m; s.i=m.end(); n=int(m.group(1),16); return [(n,n)]
        if c=="x": n=int(s.t[s.i:s.i+2],16); s.i+=2; return [(n,n)]
        if c in "tnrf": n={"t":9,"n":10,"r":13,"f":12}[c]; return [(n,n)]
        if c=="d": return ND
        if c=="s": return WS
        if c=="b": return "b"
        assert not c.isalnum(), c
        return [(ord(c),)*2]
    def klass(s):
        s.i+=1; neg=False; rs=[]
        if s.pk()=="^": neg=True; s.i+=1
        while s.pk()!="]":
            a=s.cch()
            if s.pk()=="-" and s.t[s.i+1]!="]":
                s.i+=1; b=s.cch(); assert a[0][0]==a[0][1] and b[0][0]==b[0][1]
                rs.append((a[0][0],b[0][0]))
            else: rs+=a
        s.i+=1
        return compl(rs) if neg else norm(rs)
    def cch(s):
        if s.t[s.i]=="\\": return s.esc()
        c=s.t[s.i]; assert c!="[" ; s.i+=1; return [(ord(c),)*2]
def mkcat(xs):
    ys=[]
    for x in xs:
        if x[0]=="cat": ys+=x[1]
        elif x[0]!="eps": ys.append(x)
    if not ys: return ("eps",)
    return ys[0] if len(ys)==1 else ("cat",ys)
def mkalt(xs):
    ys=[]
    for x in xs:
        if x[0]=="alt": ys+=x[1]
        else: ys.append(x)
    cl=[x for x in ys if x[0]=="cls"]
    if len(cl)>1:
        m=("cls",norm(sum((x[1] for x in cl),[])))
        i=next(i for i,x in enumerate(ys) if x[0]=="cls")
        ys=[y for y in ys[:i]]+[m]+[y for y in ys[i:] if y[0]!="cls"]
    return ys[0] if len(ys)==1 else ("alt",ys)
src=open(SRC).read()
end=src.index("// Composite nodes")
rules=[]
src2=re.sub(r"(?m)^\s*//[^\n]*",lambda m:" "*len(m.group(0)),src[:end])
pos=src2.index("Error,")+6
item=re.compile(r'\s*#\[(token|regex)\(\s*(?:r(#*)"(.*?)"\2|"([^"]*)")\s*(?:,\s*([^)]*\)?|allow_greedy = true))?\s*,?\s*\)\]\s*(\w+),',re.S)
while src2[pos:].strip():
    m=item.match(src2,pos)
    assert m,src2[pos:pos+200]
    kind=m.group(6); what=m.group(1); body=m.group(3) if m.group(3) is not None else m.group(4); opt=(m.group(5) or "").strip()
    line=src.count("\n",0,m.start(1))+1
    wb=False
    if what=="token":
        assert opt in ("","ignore(case)"),opt
        assert "\\" not in body
        r=mkcat([("cls",fold([(ord(c),)*2],"unicode" if opt else None)) for c in body])
    else:
        assert opt in ("","allow_greedy = true"),opt
        x=RX(body); r=x.alt(None); assert x.i==len(body),(kind,body[x.i:]); wb=x.wb
    rules.append((kind,r,wb,line,body if len(body)<60 else body[:57]+"..."))
    pos=m.end()
# ---- output ----
classes={}
def cname(rs):
    if len(rs)<4: return "["+"; ".join("(%d, %d)"%ab for ab in rs)+"]"
    k=tuple(rs)
    if k not in classes: classes[k]="class_%d"%len(classes)
    return classes[k]
def show(r):
    if r[0]=="eps": return "Eps"
    if r[0]=="cls":
        if len(r[1])==1 and r[1][0][0]==r[1][0][1]: return "(Chr %d)"%r[1][0][0]
        return "(Cls %s)"%cname(r[1])
    if r[0]=="star": return "(Star %s)"%show(r[1])
    if r[0]=="cat":
        xs=[show(x) for x in r[1]]; o=xs[-1]
        for x in reversed(xs[:-1]): o="(Cat %s %s)"%(x,o)
        return o
    if r[0]=="alt":
        xs=[show(x) for x in r[1]]; o=xs[-1]
        for x in reversed(xs[:-1]): o="(Alt %s %s)"%(x,o)
        return o
    assert 0
lines=[]
for k,r,wb,line,body in rules:
    c=body.replace("(*","( *").replace("*)","* )").replace('"',"''")
    lines.append("  (K_%s, %s, %s) (* generated.rs:%d  %s *)"%(k,show(r),"true" if wb else "false",line,c))
with open(OUT,"w") as f:
    f.write("""(** Generated by tools/lexer2coq.py from crates/sparql-parser/src/syntax_kind/generated.rs: the token
    definitions of the logos lexer, in declaration order.  A rule is a kind, a regular expression and
    whether the match must end at an ASCII word boundary. *)
From Coq Require Import List NArith.
Import ListNotations.
From Verif Require Import Kinds LexerRegex.
Local Open Scope N_scope.

""")
    for k,n in classes.items():
        f.write("Definition %s : list (N * N) :=\n  [%s].\n"%(n,"; ".join("(%d, %d)"%ab for ab in k)))
    f.write("\nDefinition lexer_rules : list (kind * re * bool) := [\n"+";\n".join(lines).replace(" *);"," *);")+"\n].\n")
print(len(rules),"rules,",len(classes),"classes")
