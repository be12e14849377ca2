#!/usr/bin/env python3
"""Transcribes the repository's own unit tests into rocq/theories/UnitTests.v: each test case
becomes a check that the model returns what the Go test expects.  (Evidence that the model is
faithful, not proofs of properties.)"""
import re, sys
import xml.etree.ElementTree as ET
R='/repo/'
def go_strings(src):
    return src
def lit(s):
    b=s.encode('utf-8') if isinstance(s,str) else s
    return '['+';'.join(str(x) for x in b)+']'
src=open(R+'parse_address_list_test.go',encoding='utf-8').read()
ok=[]; bad=[]
funcs=re.split(r'\nfunc ',src)
for f in funcs:
    name=f.split('(')[0]
    if name in('TestParseSingleAddress','TestParseSingleAddressEncodedWord','TestParseAddressList','TestParseGroup'):
        parts=f.split('input: `')[1:]
        for p in parts:
            inp,rest=p.split('`',1)
            addrs=[]
            # address entries
            for m in re.finditer(r'\{\s*((?:(?:Name|Address):\s*`[^`]*`,?(?:\s*//[^\n]*)?\s*)+)\}',rest):
                body=m.group(1)
                n=re.search(r'Name:\s*`([^`]*)`',body); a=re.search(r'Address:\s*`([^`]*)`',body)
                addrs.append((n.group(1) if n else '', a.group(1) if a else ''))
            ok.append((name,inp,addrs))
    elif name=='TestParseRejectedAddresses':
        for m in re.finditer(r'input: `([^`]*)`',f): bad.append(m.group(1))
valid=[]
for t in ET.parse(R+'tests.xml').getroot().iter('test'):
    if t.findtext('category')=='ISEMAIL_VALID_CATEGORY':
        valid.append(t.findtext('address') or '')
d=open(R+'parse_date_time_test.go',encoding='utf-8').read()
dates=re.findall(r'input: [`"]([^`"]*)[`"],\s*want:\s*`([^`]*)`',d)
dbad=re.findall(r'tests := \[\]string\{\s*`([^`]*)`',d)
def want(w):
    m=re.match(r'(\d+)-(\d+)-(\d+)T(\d+):(\d+):(\d+)(Z|[+-]\d\d:\d\d)$',w)
    y,mo,da,h,mi,s=map(int,m.groups()[:6]); z=m.group(7)
    off=0 if z=='Z' else (1 if z[0]=='+' else -1)*(int(z[1:3])*3600+int(z[4:6])*60)
    return f'({y}, {mo}, {da}, ({h}, {mi}, {s}), {off})%Z'.replace('(-','(-')
o=[]
o.append('''(** The repository's own unit tests, run on the model (generated by tools/gen_tests.py from
    /repo/parse_address_list_test.go, /repo/parse_date_time_test.go and /repo/tests.xml).
    These are tests of the model's faithfulness, not properties: [Succeed] makes the build fail
    when a test fails, and leaves nothing in the compiled file. *)
From Coq Require Import List NArith ZArith Bool.
From Verif Require Import Lexer Utf8 Strs Mime GoTime Parser Walker Api.
Import ListNotations.
Local Open Scope N_scope.

Definition e_test : env := mkEnv (mkWenv 2020 None) SkipBad.

Definition eqb_addr (a b : addr) : bool :=
  eqb_str (a_name a) (a_name b) && eqb_str (a_address a) (a_address b).

Fixpoint eqb_addrs (a b : list addr) : bool :=
  match a, b with
  | [], [] => true
  | x :: a', y :: b' => eqb_addr x y && eqb_addrs a' b'
  | _, _ => false
  end.

Definition expects (input : gostring) (want : list addr) : bool :=
  match ParseAddressList e_test input with
  | Ret s None => eqb_addrs (elems s) want
  | _ => false
  end.

Definition rejects (input : gostring) : bool :=
  match ParseAddressList e_test input with Ret None (Some _) => true | _ => false end.

Definition accepted (input : gostring) : bool :=
  match ParseAddressList e_test input with Ret _ None => true | _ => false end.

Definition expects_time (input : gostring) (want : Z * Z * Z * (Z * Z * Z) * Z) : bool :=
  match ParseDateTime e_test input with
  | Ret t None =>
      let '(y, mo, d, (h, mi, s), off) := want in
      let '(y', mo', d') := t_date t in
      let '(h', mi', s') := t_clock t in
      ((y =? y') && (mo =? mo') && (d =? d') && (h =? h') && (mi =? mi') && (s =? s')
       && (off =? t_zone_offset t))%Z
  | _ => false
  end.

Definition rejects_time (input : gostring) : bool :=
  match ParseDateTime e_test input with Ret _ (Some _) => true | _ => false end.
''')
def emit(name,items):
    o.append(f'Succeed Definition {name} := (@eq_refl bool true <: forallb (fun b => b) [\n  '+';\n  '.join(items)+'\n] = true).\n')
def cm(s): return '(* '+re.sub(r'[^A-Za-z0-9 <>@.,:;=?_-]','~',s).strip()+' *)'
by={}
for n,i,a in ok: by.setdefault(n,[]).append((i,a))
for n,l in by.items():
    emit(n,[f'{cm(i)} expects {lit(i)} ['+'; '.join(f'mkAddr {lit(x)} {lit(y)}' for x,y in a)+']' for i,a in l])
emit('TestParseRejectedAddresses',[f'{cm(i)} rejects {lit(i)}' for i in bad])
emit('TestIsEmailValidCategory',[f'accepted {lit(i)}' for i in valid])
emit('TestParseDateTime',[f'{cm(i)} expects_time {lit(i)} {want(w)}' for i,w in dates])
emit('TestParseDateTimeRejected',[f'{cm(i)} rejects_time {lit(i)}' for i in dbad])
open('/verif/rocq/theories/UnitTests.v','w').write('\n'.join(o))
print({k:len(v) for k,v in by.items()},len(bad),len(valid),len(dates),len(dbad))
