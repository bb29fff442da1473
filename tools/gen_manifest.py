"""Writes MANIFEST.json: one entry per property, checked against the sources."""
import json, re, glob, os
root = os.path.dirname(os.path.dirname(os.path.abspath(__file__)))
names = set()
for f in glob.glob(root + '/rocq/theories/*.v'):
    names |= set(re.findall(r'^\s*(?:Theorem|Lemma|Corollary|Proposition|Fact)\s+([A-Za-z0-9_\']+)', open(f).read(), re.M))
props = [json.loads(l)['id'] for l in open(root + '/properties.jsonl')]
C = {}
def c(pid, status, theorems, note=''):
    C[pid] = (status, theorems.split(), note)

exec(open(root + '/tools/claims.py').read())

out = []
for p in props:
    if p not in C:
        continue
    status, th, note = C[p]
    for t in th:
        assert t in names, (p, t)
    out.append({"property": p, "status": status, "theorems": th, "note": note})
json.dump({"claims": out}, open(root + '/MANIFEST.json', 'w'), indent=1)
print(len(out), 'claims,', len(props), 'properties; missing:', ' '.join(p for p in props if p not in C))

# Assumptions.v: what each theorem of the manifest rests on, printed by the build
where = {}
for line in open(root + '/rocq/_CoqProject'):
    m = re.match(r'theories/(\w+)\.v', line.strip())
    if m and m.group(1) != 'Assumptions':
        for t in re.findall(r'^\s*(?:Theorem|Lemma|Corollary|Proposition|Fact)\s+([A-Za-z0-9_\']+)',
                            open(root + '/rocq/theories/%s.v' % m.group(1)).read(), re.M):
            where.setdefault(t, []).append(m.group(1))
used, body, seen = [], [], set()
for e in out:
    for t in e['theorems']:
        if t in seen:
            continue
        seen.add(t)
        assert len(where[t]) == 1, (t, where[t])
        f = where[t][0]
        if f not in used:
            used.append(f)
        body.append('  ev (@%s.%s)' % (f, t))
with open(root + '/rocq/theories/Assumptions.v', 'w') as fh:
    fh.write('(** What the theorems of MANIFEST.json rest on.  [manifest] collects their proofs,\n'
             '    so that one command looks through all of them; it prints "Closed under the\n'
             '    global context".  Written by tools/gen_manifest.py. *)\n')
    fh.write('From Coq Require Import List.\nImport ListNotations.\nFrom Verif Require %s.\n\n' % ' '.join(used))
    fh.write('Definition ev {P : Prop} (p : P) : { Q : Prop & Q } := existT (fun Q : Prop => Q) P p.\n\n')
    fh.write('Definition manifest : list { Q : Prop & Q } := [\n' + ';\n'.join(body) + '\n].\n\n')
    fh.write('Print Assumptions manifest.\n')
