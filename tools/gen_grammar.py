#!/usr/bin/env python3
"""Transcribes /repo/RFC5322Parser.g4 (and token numbers from parser/rfc5322_lexer.go)
into rocq/theories/Grammar.v.  The output is committed; this script is only a typing aid."""
import re
g4=open('/repo/RFC5322Parser.g4').read().split('\n')
lex=open('/repo/parser/rfc5322_lexer.go').read()
pg=open('/repo/parser/rfc5322_parser.go').read().split('\n')
toks=re.findall(r'RFC5322Lexer(\w+)\s*= (\d+)',lex)
toknum={n:int(v) for n,v in toks}
# rules with line numbers
src=[]
for i,l in enumerate(g4,1):
    l=re.sub(r'//.*','',l)
    src.append((i,l))
body=[];start=None;rules=[]
txt=''
for i,l in src:
    if i<8: continue
    if txt=='' and l.strip()=='' : continue
    if txt=='': start=i
    txt+=' '+l
    if ';' in l:
        txt=txt.strip()
        name,rhs=txt.split(':',1)
        rules.append((name.strip(),rhs.strip().rstrip(';').strip(),start,i))
        txt=''
order=re.search(r'staticData.ruleNames = \[\]string\{(.*?)\}',open('/repo/parser/rfc5322_parser.go').read(),re.S).group(1)
order=re.findall(r'"(\w+)"',order)
assert [r[0] for r in rules]==order, (len(rules),len(order))
def fline(n):
    f=n[0].upper()+n[1:]
    for i,l in enumerate(pg,1):
        if l.startswith('func (p *RFC5322Parser) %s()'%f): 
            j=i
            while pg[j-1]!='}': j+=1
            return i,j
def tokenize(s): return re.findall(r'[A-Za-z_0-9]+|[()|?*+]',s)
def parse_alt(ts):
    alts=[parse_seq(ts)]
    while ts and ts[0]=='|':
        ts.pop(0); alts.append(parse_seq(ts))
    if len(alts)>1 and all(len(a)==1 and a[0][0]=='tok' for a in alts):
        return [('set',[a[0][1] for a in alts])]
    if len(alts)==1: return alts[0]
    return [('alt',alts)]
def parse_seq(ts):
    items=[]
    while ts and ts[0] not in '|)':
        t=ts.pop(0)
        if t=='(':
            x=('grp',parse_alt(ts)); assert ts.pop(0)==')'
        elif t[0].isupper():
            x=('tok',t)
        else: x=('nt',t)
        if ts and ts[0] in '?*+':
            x=({'?':'opt','*':'star','+':'plus'}[ts.pop(0)],x)
        items.append(x)
    return items
def emit_seq(items):
    if not items: return 'Eps'
    if len(items)==1: return emit(items[0])
    return 'seqs ['+'; '.join(emit(i) for i in items)+']'
def par(s): return s if re.match(r'^\w+$',s) else '('+s+')'
def emit(x):
    k=x[0]
    if k=='tok': return 'Tok T_'+x[1]
    if k=='nt': return 'Nt R_'+x[1]
    if k=='set': return 'Cls ['+'; '.join('T_'+t for t in x[1])+']'
    if k=='grp': return emit_seq(x[1])
    if k=='opt': return 'Opt '+par(emit(x[1]))
    if k=='star': return 'Star '+par(emit(x[1]))
    if k=='plus': return 'Plus '+par(emit(x[1]))
    if k=='alt':
        return 'alts ['+'; '.join(emit_seq(a) for a in x[1])+']'
def wrap(s,ind='  ',w=96):
    out=[];line=ind
    for word in s.replace('; ',';\x00').replace(' ','\x01').replace('\x00',' ').split(' '):
        word=word.replace('\x01',' ')
        if len(line)+len(word)+1>w: out.append(line.rstrip()); line=ind+'  '
        line+=word+' '
    out.append(line.rstrip()); return '\n'.join(out)
o=open('/verif/rocq/theories/Grammar.v','w')
p=lambda s='':o.write(s+'\n')
p('''(** The parser grammar of go-rfc5322, as data.

    Models /repo/RFC5322Parser.g4 rule by rule; the Go functions ANTLR generated from each
    rule (/repo/parser/rfc5322_parser.go) are cited next to it.  The concrete syntax of
    ANTLR is transcribed as is: [Alt] keeps the order in which alternatives are listed,
    [Opt]/[Star]/[Plus] are the greedy [?], [*], [+].  A block all of whose alternatives are
    single tokens is one set match, exactly as in the generated code (wsp, alpha, unspaced,
    obsNoWSCTL, the sign of offset, the separator of addressList).
    (Typed with tools/gen_grammar.py, then reviewed.) *)
From Coq Require Import List NArith.
From Verif Require Import Lexer.
Import ListNotations.
Local Open Scope N_scope.

(** Rule names, in the order of ruleNames, parser/rfc5322_parser.go:53-67. *)
Inductive rule : Type :=''')
for n in order: p('| R_'+n)
p('.')
p('''
(** Grammar expressions (the operators of the .g4 notation). *)
Inductive gexp : Type :=
| Cls (ts : list ttype)      (* one token whose type is in the set *)
| Eps
| Nt (r : rule)
| Seq (a b : gexp)
| Alt (a b : gexp)           (* ordered: a is listed first *)
| Star (a : gexp).           (* greedy loop *)

Definition Tok (t : ttype) : gexp := Cls [t].
Definition Opt (a : gexp) : gexp := Alt a Eps.
Definition Plus (a : gexp) : gexp := Seq a (Star a).
Fixpoint seqs (l : list gexp) : gexp :=
  match l with [] => Eps | a :: l' => match l' with [] => a | _ => Seq a (seqs l') end end.
Fixpoint alts (l : list gexp) : gexp :=
  match l with [] => Eps | a :: l' => match l' with [] => a | _ => Alt a (alts l') end end.
''')
for (n,rhs,a,b) in rules:
    s=emit_seq(parse_alt(tokenize(rhs)))
    i,j=fline(n)
    p('(** RFC5322Parser.g4:%s; generated function parser/rfc5322_parser.go:%d-%d *)'%(('%d'%a if a==b else '%d-%d'%(a,b)),i,j))
    p('Definition g_%s : gexp :='%n)
    p(wrap(s)+'.')
    p()
p('(** The whole grammar. *)')
p('Definition body (r : rule) : gexp :=')
p('  match r with')
for n in order: p('  | R_%s => g_%s'%(n,n))
p('  end.')
p()
p('(** All rules, in index order. *)')
p('Definition all_rules : list rule :=')
p(wrap('['+'; '.join('R_'+n for n in order)+']')+'.')
p()
p('(** Rule index: the constants RFC5322ParserRULE_* in parser/rfc5322_parser.go. *)')
p('Definition rule_ix (r : rule) : nat :=')
p('  match r with')
for k,n in enumerate(order): p('  | R_%s => %d'%(n,k))
p('  end%nat.')
o.close()
# tokens for Lexer.v
print('\n'.join('Definition T_%s : ttype := %d.'%(n,int(v)) for n,v in toks))
