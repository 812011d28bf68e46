#!/usr/bin/env python3
"""Check that the anchors in properties.jsonl and the citations in Model/*.v exist in /repo."""
import glob, json, os, re, sys
bad = 0
def lines(f): return open(f, errors='replace').read().splitlines()
for l in open('/verif/properties.jsonl'):
    p = json.loads(l)
    for a in p['anchors']:
        f, _, rest = a.partition(':')
        if not os.path.exists('/repo/' + f):
            print(p['id'], a, 'no such file'); bad += 1; continue
        if re.fullmatch(r'[\d,\- ]*', rest):
            if rest and max(map(int, re.findall(r'\d+', rest))) > len(lines('/repo/' + f)):
                print(p['id'], a, 'beyond the end'); bad += 1
        else:
            src = '\n'.join(lines('/repo/' + f))
            for t in re.findall(r'\w+', rest):
                if not re.search(r'\b%s\b' % t, src): print(p['id'], a, 'no', t); bad += 1
by = {}
for d, _, fs in os.walk('/repo'):
    if '/.git' not in d:
        for f in fs: by.setdefault(f, []).append(os.path.join(d, f))
for v in sorted(glob.glob('/verif/rocq/theories/Model/*.v')):
    for m in re.finditer(r'(\w+\.(?:hpp|cc|h)):([\d,\-]+)', open(v).read()):
        if m.group(1) not in by: print(v, m.group(0), 'no such file'); bad += 1
        elif max(map(int, re.findall(r'\d+', m.group(2)))) > max(len(lines(x)) for x in by[m.group(1)]):
            print(v, m.group(0), 'beyond the end'); bad += 1
sys.exit(1 if bad else 0)
