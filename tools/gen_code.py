#!/usr/bin/env python3
"""Transcribes the generated parser /repo/parser/rfc5322_parser.go (rule functions and serialised ATN) and the
serialised ATN of /repo/parser/rfc5322_lexer.go into Coq data.  Every line of a rule function must match one of
the patterns below, otherwise the script stops."""
import re, sys
SRC = '/repo/parser/rfc5322_parser.go'
text = open(SRC).read()
lines = text.split('\n')
P = 'RFC5322Parser'
rules = re.search(r'ruleNames = \[\]string\{(.*?)\}', text, re.S).group(1)
rules = re.findall(r'"(\w+)"', rules)
cap = lambda r: r[0].upper() + r[1:]
by_cap = {cap(r): r for r in rules}
assert len(rules) == 67

def tok(t):
    assert t.startswith(P), t
    return 'T_' + t[len(P):]

def cond(s):
    """a condition on _la: a list of CEq T / CBits off [T...]"""
    s = s.strip()
    out = []
    # split at top-level ||
    parts, d, cur = [], 0, ''
    i = 0
    while i < len(s):
        if s[i] == '(': d += 1
        if s[i] == ')': d -= 1
        if d == 0 and s.startswith('||', i):
            parts.append(cur); cur = ''; i += 2; continue
        cur += s[i]; i += 1
    parts.append(cur)
    for p in parts:
        p = p.strip()
        while p.startswith('(') and p.endswith(')'):
            d = 0; ok = True
            for j, c in enumerate(p):
                if c == '(': d += 1
                if c == ')': d -= 1
                if d == 0 and j < len(p) - 1: ok = False; break
            if not ok: break
            p = p[1:-1].strip()
        m = re.fullmatch(r'_la == (%s\w+)' % P, p)
        if m:
            out.append('CEq %s' % tok(m.group(1))); continue
        m = re.fullmatch(r'\(\((_la|\(_la-(\d+)\)|_la-(\d+))\)&-\(0x1f\+1\)\) == 0 && \(\(1<<uint\((_la|\(_la-(\d+)\))\)\)&\((.*)\)\) != 0', p)
        assert m, p
        off = int(m.group(2) or m.group(3) or 0)
        assert int(m.group(5) or 0) == off
        ts = []
        for q in m.group(6).split('|'):
            if off == 0:
                mm = re.fullmatch(r'\(1<<(%s\w+)\)' % P, q)
            else:
                mm = re.fullmatch(r'\(1<<\((%s\w+)-%d\)\)' % (P, off), q)
            assert mm, q
            ts.append(tok(mm.group(1)))
        out.append('CBits %d [%s]' % (off, '; '.join(ts)))
    return '[%s]' % '; '.join(out)

PRED = r'p\.GetInterpreter\(\)\.AdaptivePredict\(p\.GetTokenStream\(\), (\d+), p\.GetParserRuleContext\(\)\)'
LA = '_la = p.GetTokenStream().LA(1)'

class Rd:
    def __init__(self, ls): self.ls = [l.strip() for l in ls if l.strip()]; self.i = 0
    def peek(self, k=0): return self.ls[self.i + k] if self.i + k < len(self.ls) else None
    def next(self): self.i += 1; return self.ls[self.i - 1]
    def want(self, s):
        l = self.next(); assert l == s, (l, s)

def block(r, ends):
    """statements up to (not including) a line in [ends]"""
    out = []
    while r.peek() not in ends and not any(e.endswith('*') and r.peek().startswith(e[:-1]) for e in ends):
        l = r.next()
        m = re.fullmatch(r'p\.SetState\((\d+)\)', l)
        if m: out.append('SState %s' % m.group(1)); continue
        if l == 'p.GetErrorHandler().Sync(p)': out.append('SSync'); continue
        if re.fullmatch(r'p\.EnterOuterAlt\(localctx, \d+\)', l): continue   # tree unchanged: no labelled alternatives
        if l == '{':
            out += block(r, ['}']); r.want('}'); continue
        m = re.fullmatch(r'p\.Match\((\w+)\)', l)
        if m: out.append('SMatch %s' % tok(m.group(1))); continue
        m = re.fullmatch(r'p\.(\w+)\(\)', l)
        if m and m.group(1) in by_cap: out.append('SCall R_%s' % by_cap[m.group(1)]); continue
        m = re.fullmatch('switch ' + PRED + r' \{', l)
        if m:
            cs = []
            while r.peek() != '}':
                r.want('case %d:' % (len(cs) + 1))
                cs.append(block(r, ['}', 'case*']))
            r.want('}')
            out.append('SPredict %s [%s]' % (m.group(1), '; '.join('[%s]' % '; '.join(c) for c in cs))); continue
        m = re.fullmatch('if ' + PRED + r' == 1 \{', l)
        if m:
            # if P == 1 {..} else if P == 2 {..}: AdaptivePredict changes no parser state, so this is a switch
            cs = [block(r, ['}', '} else*'])]
            while r.peek() != '}':
                mm = re.fullmatch(r'\} else if ' + PRED + r' == (\d+) \{', r.next())
                assert mm and mm.group(1) == m.group(1) and int(mm.group(2)) == len(cs) + 1
                cs.append(block(r, ['}', '} else*']))
            r.want('}')
            out.append('SPredict %s [%s]' % (m.group(1), '; '.join('[%s]' % '; '.join(c) for c in cs))); continue
        m = re.fullmatch('_alt = ' + PRED, l)
        if m:
            r.want('for _alt != 2 && _alt != antlr.ATNInvalidAltNumber {')
            r.want('if _alt == 1 {')
            b = block(r, ['}']); r.want('}')
            t = block(r, ['_alt = *']); l2 = r.next(); assert l2 == l, l2
            r.want('}')
            out.append('SWhilePredict %s [%s] [%s]' % (m.group(1), '; '.join(b), '; '.join(t))); continue
        if l == '_alt = 1':
            r.want('for ok := true; ok; ok = _alt != 2 && _alt != antlr.ATNInvalidAltNumber {')
            r.want('switch _alt {'); r.want('case 1:')
            b = block(r, ['default:'])
            r.want('default:'); r.want('panic(antlr.NewNoViableAltException(p, nil, nil, nil, nil, nil))'); r.want('}')
            t = block(r, ['_alt = *'])
            m = re.fullmatch('_alt = ' + PRED, r.next()); assert m
            r.want('}')
            out.append('SDoPredict %s [%s] [%s]' % (m.group(1), '; '.join(b), '; '.join(t))); continue
        if l == 'switch p.GetTokenStream().LA(1) {':
            cs = []
            while r.peek() != 'default:':
                m = re.fullmatch(r'case (.*):', r.next()); assert m
                ts = [tok(x.strip()) for x in m.group(1).split(',')]
                cs.append('([%s], [%s])' % ('; '.join(ts), '; '.join(block(r, ['default:', 'case*']))))
            r.want('default:')
            x = r.next(); assert x == 'panic(antlr.NewNoViableAltException(p, nil, nil, nil, nil, nil))', x
            r.want('}')
            out.append('SSwitchLa [%s]' % '; '.join(cs)); continue
        if l == LA:
            l = r.next()
            m = re.fullmatch(r'if !\((.*)\) \{', l)
            if m:
                r.want('p.GetErrorHandler().RecoverInline(p)'); r.want('} else {'); r.want('p.GetErrorHandler().ReportMatch(p)'); r.want('p.Consume()'); r.want('}')
                out.append('SMatchSet %s' % cond(m.group(1))); continue
            m = re.fullmatch(r'if (.*) \{', l)
            if m:
                b = block(r, ['}']); r.want('}')
                out.append('SIfLa %s [%s]' % (cond(m.group(1)), '; '.join(b))); continue
            m = re.fullmatch(r'for ok := true; ok; ok = (.*) \{', l)
            if m:
                b = dobody(r)
                out.append('SDoLa %s [%s]' % (cond(m.group(1)), '; '.join(b))); continue
            m = re.fullmatch(r'for (.*) \{', l)
            if m:
                b = dobody(r)
                out.append('SWhileLa %s [%s]' % (cond(m.group(1)), '; '.join(b))); continue
            assert False, l
        assert False, l
    return out

def dobody(r):
    """body of a loop whose last statement re-reads _la"""
    out = []
    while True:
        if r.peek() == LA and r.peek(1) == '}':
            r.next(); r.next(); return out
        # one statement at a time
        out += one(r)

def one(r):
    l = r.peek()
    if l == '{':
        r.next(); b = block(r, ['}']); r.want('}'); return b
    return single(r)

def single(r):
    l = r.peek()
    m = re.fullmatch(r'p\.SetState\((\d+)\)', l)
    if m: r.next(); return ['SState %s' % m.group(1)]
    if l == 'p.GetErrorHandler().Sync(p)': r.next(); return ['SSync']
    if l == 'switch p.GetTokenStream().LA(1) {':
        # delimit the switch, then parse it on its own
        j = r.i + 1; d = 1
        while d > 0:
            if r.ls[j].endswith('{'): d += 1
            if r.ls[j] == '}' or r.ls[j].startswith('} '): d -= 1
            j += 1
        sub = Rd(r.ls[r.i:j] + ['#']); r.i = j
        return block(sub, ['#'])
    if l == LA or l.startswith('_alt') or l.startswith('if') or l.startswith('switch'):
        j = r.i + 1; d = 0
        if l == LA or l.startswith('_alt'):
            assert r.ls[j].endswith('{'); d = 1; j += 1
        else: d = 1
        while d > 0:
            x = r.ls[j]
            if x.startswith('} else'): pass
            elif x.endswith('{'): d += 1
            elif x == '}': d -= 1
            j += 1
        sub = Rd(r.ls[r.i:j] + ['#']); r.i = j
        return block(sub, ['#'])
    assert False, l

funcs = []
for n, l in enumerate(lines):
    m = re.fullmatch(r'func \(p \*%s\) (\w+)\(\) \(localctx I(\w+)Context\) \{' % P, l)
    if m:
        e = next(k for k in range(n + 1, len(lines)) if lines[k] == '}')
        body = [x.strip() for x in lines[n + 1:e] if x.strip()]
        name = m.group(1); assert name in by_cap and m.group(2) == name
        rule = by_cap[name]
        pre = ['this := p', '_ = this', '',
               'localctx = New%sContext(p, p.GetParserRuleContext(), p.GetState())' % name]
        i = 0
        for x in pre:
            if x: assert body[i] == x, (body[i], x); i += 1
        mm = re.fullmatch(r'p\.EnterRule\(localctx, (\d+), %sRULE_(\w+)\)' % P, body[i]); assert mm and mm.group(2) == rule, body[i]; i += 1
        start = mm.group(1)
        if body[i] == 'var _la int': i += 1
        for x in ['defer func() {', 'p.ExitRule()', '}()', 'defer func() {', 'if err := recover(); err != nil {',
                  'if v, ok := err.(antlr.RecognitionException); ok {', 'localctx.SetException(v)',
                  'p.GetErrorHandler().ReportError(p, v)', 'p.GetErrorHandler().Recover(p, v)', '} else {', 'panic(err)', '}', '}', '}()']:
            assert body[i] == x, (name, body[i], x); i += 1
        if body[i] == 'var _alt int': i += 1
        r = Rd(body[i:])
        st = block(r, ['return localctx'])
        r.want('return localctx'); assert r.peek() is None
        funcs.append((rule, start, st, n + 1, e + 1))
assert [f[0] for f in funcs] == rules, 'order'

def ints(path):
    t = open(path).read()
    m = re.search(r'serializedATN = \[\]int32\{(.*?)\}', t, re.S)
    a = [int(x) for x in m.group(1).replace('\n', ' ').split(',') if x.strip()]
    l0 = t[:m.start()].count('\n') + 1; l1 = t[:m.end()].count('\n') + 1
    return a, l0, l1

def wrap(items, sep='; ', width=108, ind='  '):
    out, cur = [], ind
    for k, x in enumerate(items):
        x = x + (sep if k < len(items) - 1 else '')
        if len(cur) + len(x) > width: out.append(cur.rstrip()); cur = ind
        cur += x
    out.append(cur.rstrip())
    return '\n'.join(out)

def emit_code(out):
    o = open(out, 'w')
    o.write('''(** The rule functions of the generated parser, as data (written by tools/gen_code.py; each definition
    cites the function it transcribes).  The statements are those of GenSyntax.v. *)
From Coq Require Import List NArith ZArith.
From Verif Require Import Lexer Grammar GenSyntax.
Import ListNotations.
Local Open Scope N_scope.
''')
    for rule, start, st, a, b in funcs:
        body = '[' + '; '.join(st) + ']'
        words = body.split(' ')
        txt, cur = [], '  '
        for w in words:
            if len(cur) + len(w) + 1 > 110: txt.append(cur.rstrip()); cur = '  '
            cur += w + ' '
        txt.append(cur.rstrip())
        o.write('\n(** parser/rfc5322_parser.go:%d-%d *)\nDefinition c_%s : list stmt :=\n%s.\n' % (a, b, rule, '\n'.join(txt)))
    o.write('\n(** the function of each rule *)\nDefinition code (r : rule) : list stmt :=\n  match r with\n')
    for f in funcs: o.write('  | R_%s => c_%s\n' % (f[0], f[0]))
    o.write('  end.\n\n(** the state passed to p.EnterRule *)\nDefinition enter_state (r : rule) : N :=\n  match r with\n')
    for f in funcs: o.write('  | R_%s => %s\n' % (f[0], f[1]))
    o.write('  end.\n')

def emit_atn(out):
    o = open(out, 'w')
    a, l0, l1 = ints(SRC)
    b, m0, m1 = ints('/repo/parser/rfc5322_lexer.go')
    o.write('''(** The serialised ATNs of the generated parser and lexer (copied by tools/gen_code.py). *)
From Coq Require Import List ZArith.
Import ListNotations.

(** parser/rfc5322_parser.go:%d-%d *)
Definition parser_serialized : list Z := [
%s]%%Z.

(** parser/rfc5322_lexer.go:%d-%d *)
Definition lexer_serialized : list Z := [
%s]%%Z.
''' % (l0, l1, wrap([str(x) for x in a]), m0, m1, wrap([str(x) for x in b])))
    assert min(a) >= 0
    print('parser', len(a), 'lexer', len(b), 'min', min(b))

if __name__ == '__main__':
    d = '/verif/rocq/theories/'
    emit_code(d + 'GenCode.v'); emit_atn(d + 'GenAtnData.v')
