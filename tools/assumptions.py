"""Prints the assumptions of every theorem of the manifest (needs a finished build in /verif/rocq) into tools/assumptions.json."""
import json, re, glob, os, subprocess
os.makedirs('/tmp/ax', exist_ok=True)
names = {}
for f in glob.glob('/verif/rocq/theories/*.v'):
    m = os.path.basename(f)[:-2]
    for n in re.findall(r"^\s*(?:Theorem|Lemma|Corollary|Example)\s+([\w']+)", open(f).read(), re.M): names.setdefault(n, []).append(m)
by = {}
for c in json.load(open('/verif/MANIFEST.json'))['claims']:
    for t in c['theorems']:
        ms = [m for m in names.get(t, []) if m.startswith('Prop')] or names[t]
        if len(ms) > 1: print("ambiguous", t, ms)
        by.setdefault(ms[0], []).append(t)
res = {}
if len(os.sys.argv) > 1:  # only the theorems that are not in the table yet
    res = json.load(open('/verif/tools/assumptions.json'))
    by = {m: [t for t in ts if t not in res] for m, ts in by.items()}
    by = {m: ts for m, ts in by.items() if ts}
for m, ts in by.items():
    with open(f'/tmp/ax/A_{m}.v', 'w') as g:
        g.write(f"From Verif Require {m}.\n")
        for t in dict.fromkeys(ts): g.write(f'Goal True. idtac "@@ {t}". Abort.\nPrint Assumptions {m}.{t}.\n')
    r = subprocess.run(f"cd /tmp/ax && timeout 900 coqc -Q /verif/rocq/theories Verif A_{m}.v", shell=True, capture_output=True, text=True)
    if r.returncode: print("FAILED", m, r.stderr[-500:])
    cur = None
    for l in r.stdout.splitlines():
        if l.startswith('@@ '): cur = l[3:].strip(); res[cur] = [m, []]
        elif cur and re.match(r"[A-Za-z_]", l) and not l.startswith(('Axioms', 'Closed')): res[cur][1].append(l.split()[0].rstrip(':'))
for v in res.values(): v[1] = sorted(set(v[1]))
json.dump(res, open('/verif/tools/assumptions.json', 'w'), indent=0, sort_keys=True)
print(len(res), "theorems", sorted({a for v in res.values() for a in v[1]}))
