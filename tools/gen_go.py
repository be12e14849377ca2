#!/usr/bin/env python3
"""Transcribes the hand-written Go files of /repo (walker.go, parser.go and one file per node type) and, of the
generated package parser, the callbacks of the contexts (EnterRule, ExitRule), their AllDigit methods, the listener interface
and the base listener into Coq data (GoCode.v, syntax of GoSyntax.v).  A small recursive-descent parser for the
part of Go that these files use; anything else stops the script."""
import re, sys, os, glob
REPO = '/repo'
TOK = re.compile(r'''\s+|//[^\n]*|(?P<s>"(?:[^"\\]|\\.)*")|(?P<n>\d+)|(?P<i>[A-Za-z_]\w*)|(?P<o>\.\.\.|:=|\+=|==|!=|&&|\|\||<=|>=|[-+*/%&!<>=.,;:(){}\[\]])''')
KW = {'var','if','else','for','range','switch','case','default','return','type','func','struct','interface','break'}

def lex(src):
    out, i, line = [], 0, 1
    def semi():
        if out and (out[-1][0] in 'sni' and out[-1][1] not in KW - {'return','break'} or out[-1][1] in (')', ']', '}')):
            out.append(('o', ';', line))
    while i < len(src):
        m = TOK.match(src, i)
        assert m, src[i:i+40]
        t = m.group(0)
        if m.lastgroup: out.append((m.lastgroup, t, line))
        elif '\n' in t: semi()
        line += t.count('\n')
        i = m.end()
    semi()
    out.append(('e', '', line))
    return out

def cs(s): return '"%s"' % s.replace('"', '""')
def cl(l): return '[%s]' % '; '.join(l)

class Parser:
    def __init__(self, src, pkg, fname):
        self.t = lex(src); self.p = 0; self.pkg = pkg; self.fname = fname
        self.imports = {}; self.structs = []; self.methods = []; self.funcs = []; self.ifaces = {}; self.embeds = []
        self.globals = []; self.scopes = []
    def peek(self, k=0): return self.t[self.p + k][1]
    def kind(self, k=0): return self.t[self.p + k][0]
    def line(self): return self.t[self.p][2]
    def next(self):
        x = self.t[self.p]; self.p += 1; return x[1]
    def eat(self, s):
        assert self.peek() == s, '%s:%d: expected %s, found %s' % (self.fname, self.line(), s, self.peek())
        self.p += 1
    def opt(self, s):
        if self.peek() == s and self.kind() != 's': self.p += 1; return True
        return False
    def ident(self):
        assert self.kind() == 'i' and self.peek() not in KW, '%s:%d: %s' % (self.fname, self.line(), self.peek())
        return self.next()
    # types
    BASIC = {'string', 'int', 'bool', 'error'}
    def typ(self):
        if self.opt('*'): return 'TPtr (%s)' % self.typ()
        if self.opt('['):
            self.eat(']'); return 'TSlice (%s)' % self.typ()
        if self.opt('interface'):
            self.eat('{'); self.eat('}'); return 'TName "interface{}"'
        x = self.ident()
        if self.opt('.'): return 'TName %s' % cs(x + '.' + self.ident())
        if self.pkg and x not in self.BASIC: x = self.pkg + '.' + x
        return 'TName %s' % cs(x)
    def params(self):
        """(a, b T, c U) -> [(name, type)]"""
        self.eat('('); out, names = [], []
        while not self.opt(')'):
            names.append(self.ident())
            if self.opt(','): continue
            ty = self.typ()
            out += [(n, ty) for n in names]; names = []
            self.opt(',')
        assert not names
        return out
    def result(self):
        if self.peek() == '{': return
        if self.peek() == '(':
            d = 0
            while True:
                x = self.next()
                d += (x == '(') - (x == ')')
                if d == 0: return
        self.typ()
    # declarations
    def file(self):
        self.eat('package'); self.ident(); self.opt(';')
        while self.peek() == 'import':
            self.next()
            if self.opt('('):
                while not self.opt(')'): self.imp(); self.opt(';')
            else: self.imp()
            self.opt(';')
        while self.kind() != 'e':
            if self.opt('type'): self.typedecl()
            elif self.opt('var'): self.vardecl()
            elif self.opt('func'): self.funcdecl()
            else: raise Exception('%s:%d: %s' % (self.fname, self.line(), self.peek()))
            self.opt(';')
    def imp(self):
        s = eval(self.next()); self.imports[s.split('/')[-1]] = s
    def vardecl(self):
        if self.peek() == '_':     # var _ RFC5322ParserListener = &BaseRFC5322ParserListener{}
            while self.peek() != ';': self.next()
            return
        n = self.ident()
        assert self.peek() == 'func'      # var CharsetReader func(...) (...)
        while self.peek() != ';': self.next()
        self.globals.append(n)
    def typedecl(self):
        l = self.line(); name = self.ident()
        if self.opt('struct'):
            self.eat('{'); fs = []
            while not self.opt('}'):
                if self.kind(1) == 'o' and self.peek(1) == '.' or self.peek(1) == ';':
                    t = self.typ(); self.embeds.append((self.q(name), re.search(r'"(.*)"', t).group(1)))
                else:
                    ns = [self.ident()]
                    while self.opt(','): ns.append(self.ident())
                    t = self.typ(); fs += [(n, t) for n in ns]
                self.opt(';')
            self.structs.append((self.q(name), fs, l))
        else:
            self.ifaces[self.q(name)] = self.iface()
    def q(self, n): return self.pkg + '.' + n if self.pkg else n
    def iface(self):
        self.eat('interface'); self.eat('{'); ms = []
        while not self.opt('}'):
            n = self.ident()
            if self.opt('.'): ms.append((n + '.' + self.ident(), None)); self.opt(';'); continue
            self.eat('('); ts = []
            while not self.opt(')'):
                if self.kind() == 'i' and self.kind(1) == 'o' and self.peek(1) == '*': self.ident()   # parameter name
                ts.append(self.typ()); self.opt(',')
            ms.append((n, ts)); self.opt(';')
        return ms
    def funcdecl(self):
        l = self.line(); recv = None
        if self.peek() == '(':
            (recv,) = self.params()
        name = self.ident(); self.scopes = [set()]
        ps = self.params(); self.result()
        for n, _ in ([recv] if recv else []) + ps: self.scopes[0].add(n)
        self.lifaces = {}
        body = self.block()
        if recv:
            t = re.fullmatch(r'TPtr \(TName "(.*)"\)', recv[1]).group(1)
            self.methods.append((t, name, recv[0], ps, body, l))
        else: self.funcs.append((name, ps, body, l))
    def bound(self, x): return any(x in s for s in self.scopes)
    # statements
    def block(self):
        self.eat('{'); self.scopes.append(set()); out = []
        while not self.opt('}'):
            s = self.stmt()
            if s: out.append(s)
            self.opt(';')
        self.scopes.pop()
        return cl(out)
    def stmt(self):
        p = self.peek()
        if p == 'type':
            self.next(); n = self.ident(); self.lifaces[n] = self.iface(); return None
        if p == 'var':
            self.next(); n = self.ident(); t = self.typ(); self.scopes[-1].add(n); return 'SVar %s (%s)' % (cs(n), t)
        if p == 'return':
            self.next()
            es = [] if self.peek() in (';', '}') else self.exprs()
            return 'SReturn %s' % cl(es)
        if p == 'if': return self.ifstmt()
        if p == 'for':
            self.next(); self.eat('_'); self.eat(','); x = self.ident(); self.eat(':='); self.eat('range')
            e = self.expr(False); self.scopes.append({x}); b = self.block(); self.scopes.pop()
            return 'SRange %s (%s) %s' % (cs(x), e, b)
        if p == 'switch':
            self.next(); e = self.expr(False); self.eat('{'); cases, dflt = [], '[]'
            while not self.opt('}'):
                if self.opt('default'): lab = None
                else: self.eat('case'); lab = self.expr()
                self.eat(':'); self.scopes.append(set()); b = []
                while self.peek() not in ('case', 'default', '}'):
                    s = self.stmt(); b.append(s); self.opt(';')
                self.scopes.pop()
                if lab is None: dflt = cl(b)
                else:
                    assert dflt == '[]'
                    cases.append('(%s, %s)' % (lab, cl(b)))
            return 'SSwitch (%s) %s %s' % (e, cl(cases), dflt)
        return self.simple()
    def simple(self):
        # x, y := e   |  lhs = e  |  lhs += e  |  e
        if self.kind() == 'i' and self.peek(1) in (',', ':='):
            ns = [self.ident()]
            while self.opt(','): ns.append(self.ident())
            self.eat(':='); e = self.expr()
            for n in ns: self.scopes[-1].add(n)
            return 'SDefine %s (%s)' % (cl([cs(n) for n in ns]), e)
        e = self.expr()
        if self.opt('='): return 'SAssign (%s) (%s)' % (e, self.expr())
        if self.opt('+='): return 'SAddAssign (%s) (%s)' % (e, self.expr())
        return 'SExpr (%s)' % e
    def ifstmt(self):
        self.eat('if')
        if self.kind() == 'i' and self.peek(1) == ',':
            x = self.ident(); self.eat(','); ok = self.ident(); self.eat(':=')
            e = self.expr(False); m = re.fullmatch(r'EAssert \((.*)\) \(TName "(.*)"\)', e); assert m, e
            self.eat(';'); assert self.ident() == ok
            self.scopes.append({x, ok}); b = self.block(); self.scopes.pop()
            n = m.group(2)
            ms = self.lifaces.get(n) or self.outer[n]
            return 'SIfIs %s (%s) %s %s' % (cs(x), m.group(1), iface_term(ms) if n in self.lifaces else n.replace('.', '_') + '_iface', b)
        c = self.expr(False); b = self.block(); els = '[]'
        if self.opt('else'):
            els = '[%s]' % self.ifstmt() if self.peek() == 'if' else self.block()
        return 'SIf (%s) %s %s' % (c, b, els)
    # expressions
    PREC = [('||',), ('&&',), ('==', '!=', '<', '>', '<=', '>='), ('+', '-'), ('*', '/', '%')]
    OPS = {'||': 'OOr', '&&': 'OAnd', '==': 'OEq', '!=': 'ONe', '>': 'OGt', '+': 'OAdd', '-': 'OSub', '*': 'OMul', '%': 'ORem'}
    def exprs(self):
        out = [self.expr()]
        while self.opt(','): out.append(self.expr())
        return out
    def expr(self, lit=True, k=0):
        if k == len(self.PREC): return self.unary(lit)
        a = self.expr(lit, k + 1)
        while self.kind() == 'o' and self.peek() in self.PREC[k]:
            o = self.next(); b = self.expr(lit, k + 1)
            a = 'EBin %s (%s) (%s)' % (self.OPS[o], a, b)
        return a
    def unary(self, lit):
        if self.opt('!'): return 'ENot (%s)' % self.unary(lit)
        if self.opt('-'): return 'ENeg (%s)' % self.unary(lit)
        if self.opt('&'):
            t = self.typ(); return 'ENew %s' % self.composite(t)
        return self.postfix(self.primary(lit), lit)
    def composite(self, t):
        n = re.fullmatch(r'TName "(.*)"', t).group(1)
        self.eat('{'); fs = []
        while not self.opt('}'):
            f = self.ident(); self.eat(':'); fs.append('(%s, %s)' % (cs(f), self.expr())); self.opt(','); self.opt(';')
        return '%s %s' % (cs(n), cl(fs))
    def primary(self, lit):
        k = self.kind()
        if k == 's': return 'EStr %s' % cs(eval(self.next()))
        if k == 'n': return 'EInt %s' % self.next()
        if self.opt('['):      # []T{}
            self.eat(']'); t = self.typ(); self.eat('{'); self.eat('}'); return 'EEmpty (%s)' % t
        if self.opt('('):
            e = self.expr(); self.eat(')'); return e
        x = self.ident()
        if x == 'nil': return 'ENil'
        if x == 'true': return 'EBool true'
        if x == 'false': return 'EBool false'
        if self.bound(x): return 'EVar %s' % cs(x)
        if x == 'len': self.eat('('); e = self.expr(); self.eat(')'); return 'ELen (%s)' % e
        if x == 'int': self.eat('('); e = self.expr(); self.eat(')'); return 'EToInt (%s)' % e
        if x == 'append':
            self.eat('('); a = self.expr(); self.eat(','); b = self.expr(); sp = self.opt('...'); self.eat(')')
            return '%s (%s) (%s)' % ('EAppendAll' if sp else 'EAppend', a, b)
        if x in self.imports:
            self.eat('.'); y = self.ident()
            if self.peek() == '(': return 'ECall %s %s' % (cs(x + '.' + y), self.args())
            if self.peek() == '{' and lit: return 'EStruct %s' % self.composite('TName %s' % cs(x + '.' + y))
            return 'EGlobal %s' % cs(x + '.' + y)
        if x in self.allglobals: return 'EGlobal %s' % cs(x)
        m = re.fullmatch(r'RFC5322Parser([A-Z]\w*)', x)
        if m and self.pkg: return 'EConst T_%s' % m.group(1)
        raise Exception('%s:%d: unknown name %s' % (self.fname, self.line(), x))
    allglobals = {'CharsetReader'}
    def args(self):
        self.eat('('); out = []
        while not self.opt(')'): out.append(self.expr()); self.opt(',')
        return cl(out)
    def postfix(self, e, lit):
        while True:
            if self.opt('.'):
                if self.opt('('):
                    if self.peek() in getattr(self, 'lifaces', {}) : t = 'TName %s' % cs(self.ident())
                    else: t = self.typ()
                    self.eat(')'); e = 'EAssert (%s) (%s)' % (e, t); continue
                f = self.ident()
                if self.peek() == '(': e = 'EMethod (%s) %s %s' % (e, cs(f), self.args())
                else: e = 'EField (%s) %s' % (e, cs(f))
            elif self.opt('['):
                if self.opt(':'):
                    b = self.expr(); self.eat(']'); e = 'ESlice (%s) (EInt 0) (%s)' % (e, b); continue
                a = self.expr()
                if self.opt(':'): b = self.expr(); e = 'ESlice (%s) (%s) (%s)' % (e, a, b)
                else: e = 'EIndex (%s) (%s)' % (e, a)
                self.eat(']')
            else: return e

def iface_term(ms): return cl(['(%s, %s)' % (cs(n), cl(ts)) for n, ts in ms])
TREE_LISTENER = [('VisitTerminal', ['TName "antlr.TerminalNode"']), ('VisitErrorNode', ['TName "antlr.ErrorNode"']),
                 ('EnterEveryRule', ['TName "antlr.ParserRuleContext"']), ('ExitEveryRule', ['TName "antlr.ParserRuleContext"'])]

files = sorted(f for f in glob.glob(REPO + '/*.go') if not f.endswith('_test.go') and not f.endswith('/gen.go'))
out = []
w = out.append
w('(** The Go files of the repository as data; written by tools/gen_go.py from /repo/*.go and /repo/parser/*.go. *)')
w('From Coq Require Import String List NArith ZArith.')
w('From Verif Require Import Lexer Grammar GoSyntax.')
w('Import ListNotations.')
w('Local Open Scope string_scope.\n')

# generated package: listener interface, base listener, contexts
lst = Parser(open(REPO + '/parser/rfc5322parser_listener.go').read(), 'parser', 'rfc5322parser_listener.go'); lst.file()
ms = []
for n, ts in lst.ifaces['parser.RFC5322ParserListener']:
    if ts is None: assert n == 'antlr.ParseTreeListener'; ms += TREE_LISTENER
    else: ms.append((n, ts))
w('(** RFC5322ParserListener, with the methods of the embedded antlr.ParseTreeListener. *)')
w('(* /repo: parser/rfc5322parser_listener.go:1-412 *)')
w('Definition parser_RFC5322ParserListener_iface : iface :=\n  [%s].\n' % ';\n   '.join('(%s, %s)' % (cs(n), cl(ts)) for n, ts in ms))
base = Parser(open(REPO + '/parser/rfc5322parser_base_listener.go').read(), 'parser', 'rfc5322parser_base_listener.go'); base.file()

def func(recv, ps, body):
    return 'mkFn %s %s %s' % (cs(recv or ''), cl(['(%s, %s)' % (cs(n), t) for n, t in ps]), body)

def emit(name, ms, cite):
    w('(* /repo: %s *)' % cite)
    w('Definition %s : list method :=\n  [%s].\n' % (name, ';\n   '.join('(%s, %s, %s)' % (cs(t), cs(n), func(r, ps, b)) for t, n, r, ps, b, l in ms)))

emit('base_methods', base.methods, 'parser/rfc5322parser_base_listener.go:1-424')
src = open(REPO + '/parser/rfc5322_parser.go').read()
rules = re.findall(r'"(\w+)"', re.search(r'ruleNames = \[\]string\{(.*?)\}', src, re.S).group(1))
fns = re.findall(r'(?ms)^func \(s \*\w+Context\) (?:EnterRule|ExitRule|AllDigit)\(.*?^\}', src)
assert len(fns) == 67 * 2 + len(re.findall(r'\) AllDigit\(\)', src))
cp = Parser('package parser\nimport "antlr"\n' + '\n'.join(fns), 'parser', 'rfc5322_parser.go')
cp.outer = {'parser.RFC5322ParserListener': ms}; cp.file()
emit('context_methods', cp.methods, 'parser/rfc5322_parser.go: the methods EnterRule, ExitRule and AllDigit of the contexts, e.g. 858-868, 5000-5010')
ctx = {}
for m in re.finditer(r'(?ms)^func \(p \*RFC5322Parser\) (\w+)\(\) \(localctx I(\w+)\) \{.*?localctx = New(\w+)\(p, .*?p\.EnterRule\(localctx, \d+, RFC5322ParserRULE_(\w+)\)', src):
    assert m.group(2) == m.group(3) and m.group(4)[0].upper() + m.group(4)[1:] == m.group(1), m.groups()
    made = re.search(r'func New%s\(.*?var p = new\((\w+)\)' % m.group(3), src, re.S).group(1)
    ctx[m.group(4)] = made
assert sorted(ctx) == sorted(rules)
w('(** The type of the context that the rule function makes. *)')
w('(* /repo: parser/rfc5322_parser.go: "localctx = New...Context(...)" in the rule functions, and these New functions *)')
w('Definition context_type (r : rule) : string :=\n  match r with\n%s\n  end.\n' % '\n'.join('  | R_%s => "parser.%s"' % (r, ctx[r]) for r in rules))

structs, methods, funcs, embeds = [], [], [], []
for f in files:
    p = Parser(open(f).read(), '', os.path.basename(f)); p.file()
    b = os.path.basename(f)
    if b == 'parser.go': assert not p.methods; funcs += p.funcs; continue
    assert not p.funcs
    structs += p.structs; embeds += p.embeds
    nm = b[:-3] + '_go'
    emit(nm, p.methods, b + ':' + '-'.join(str(x) for x in (p.methods[0][5], open(f).read().count('\n'))))
    methods.append(nm)
structs.append(('parser.BaseRFC5322ParserListener', [], 0))
w('(* /repo: the struct types of the files *.go *)')
w('Definition go_structs : list (string * list (string * gty)) :=\n  [%s].\n' % ';\n   '.join('(%s, %s)' % (cs(n), cl(['(%s, %s)' % (cs(a), t) for a, t in fs])) for n, fs, l in structs))
w('(** Embedded types. *)\n(* /repo: walker.go:13-15 *)')
w('Definition go_embeds : list (string * string) := %s.\n' % cl(['(%s, %s)' % (cs(a), cs(b)) for a, b in embeds]))
w('(* /repo: parser.go:18-62 *)')
w('Definition go_funcs : list (string * fn) :=\n  [%s].\n' % ';\n   '.join('(%s, %s)' % (cs(n), func(None, ps, b)) for n, ps, b, l in funcs))
w('(* /repo: all files *.go of /repo, parser/rfc5322_parser.go, parser/rfc5322parser_base_listener.go *)')
w('Definition go_methods : list method :=\n  (%s ++ base_methods ++ context_methods)%%list.\n' % ' ++ '.join(methods))
w('(* /repo: the package *)')
w('Definition package : program := mkProg go_structs go_embeds go_methods go_funcs.')
open(sys.argv[1] if len(sys.argv) > 1 else '/verif/rocq/theories/GoCode.v', 'w').write('\n'.join(out) + '\n')
