#!/usr/bin/env python3
"""Writes MANIFEST.json from the table below; checks that each theorem exists."""
import json, re, os, glob
root = os.path.join(os.path.dirname(__file__), '..')
T = {
 'C01': ('proved', ['C01_address_list_contract'], ''),
 'C02': ('proved', ['C02_date_time_contract'], ''),
 'C03': ('proved', ['C03_empty_input'], ''),
 'C04': ('proved', ['C04_accepts_grammar'], 'about the .g4 grammar as transcribed in Grammar.v'),
 'C05': ('proved', ['C05_accepts_grammar'], 'about the .g4 grammar as transcribed in Grammar.v'),
 'C06': ('proved', ['C06_reading_is_selected_tree'], ''),
 'C07': ('proved', ['C07_only_syntax_errors'], ''),
}
exec(open(os.path.join(os.path.dirname(__file__), 'manifest_more.py')).read()) if os.path.exists(os.path.join(os.path.dirname(__file__), 'manifest_more.py')) else None
src = ''.join(open(f).read() for f in glob.glob(root + '/rocq/theories/*.v'))
names = set(re.findall(r'^(?:Theorem|Lemma)\s+(\w+)', src, re.M))
for k, (s, th, n) in T.items():
    for t in th:
        assert t in names, (k, t)
props = [json.loads(l)['id'] for l in open(root + '/properties.jsonl')]
claims = [{'property': k, 'status': T[k][0], 'theorems': T[k][1], 'note': T[k][2]} for k in props if k in T]
json.dump({'claims': claims}, open(root + '/MANIFEST.json', 'w'), indent=1)
print(len(claims), 'claims; missing:', [p for p in props if p not in T])
