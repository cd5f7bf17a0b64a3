"""Writes DESIGN.md: fixed text below, plus tables generated from properties.jsonl, MANIFEST.json and tools/assumptions.json
(the output of Print Assumptions for every theorem of the manifest; regenerate with tools/assumptions.py)."""
import json, collections
P = [json.loads(l) for l in open('/verif/properties.jsonl')]
C = {c['property']: c for c in json.load(open('/verif/MANIFEST.json'))['claims']}
A = json.load(open('/verif/tools/assumptions.json'))
exec(open('/verif/tools/design_text.py').read())
o = [HEAD]
o.append("## Files\n\n" + FILES)
o.append("## Plan and result per property\n\nModel file, method of proof, and what is proved. `proved`: every sentence of the statement in `properties.jsonl` holds of the model, for all inputs it ranges over. Where the code does not do what a user would first expect, the statement "
         "says exactly what it does, and names after \"Not guaranteed\" the expectation, whose counterexample is a theorem `..._refuted` of the claim (or named in the note). `partial`: something stated is not proved (the note says what).\n")
o.append("| Id | Property | Model | How proved | Status | Note |\n|----|----|----|----|----|----|")
for p in P:
    c = C[p['id']]
    mods = sorted({A[t][0] for t in c['theorems'] if t in A})
    model, how = PLAN.get(p['id'], ("", ""))
    o.append(f"| {p['id']} | {p['title']} | {model} → {', '.join('`'+m+'`' for m in mods)} | {how} | {c['status']} | {c.get('note','')} |")
o.append("\n" + NOTMODELLED)
o.append(FINDINGS)
o.append(TRUSTED)
ax = collections.OrderedDict()
for p in P:
    for t in C[p['id']]['theorems']:
        if t in A: ax.setdefault(tuple(A[t][1]), []).append((A[t][0], t))
names = {'ClassicalDedekindReals.sig_forall_dec': 'sig_forall_dec', 'ClassicalDedekindReals.sig_not_dec': 'sig_not_dec',
         'FunctionalExtensionality.functional_extensionality_dep': 'functional_extensionality_dep', 'Classical_Prop.classic': 'classic'}
o.append("### Print Assumptions, per theorem of the manifest\n")
for k, ts in sorted(ax.items(), key=lambda x: len(x[0])):
    o.append(f"**{'Closed under the global context (no axioms)' if not k else ', '.join(names[x] for x in k)}** ({len(dict.fromkeys(ts))} theorems):\n")
    by = collections.OrderedDict()
    for m, t in dict.fromkeys(ts): by.setdefault(m, []).append(t)
    for m, l in by.items(): o.append(f"* `{m}`: " + ", ".join(l))
    o.append("")
missing = [t for p in P for t in C[p['id']]['theorems'] if t not in A]
if missing: print("no assumptions recorded for", missing)
open('/verif/DESIGN.md', 'w').write("\n".join(o) + "\n")
