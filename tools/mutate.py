"""Mutation testing of the model (run outside /verif: copies /verif/rocq to a scratch directory).
usage: mutate.py mutants.py   -- the file defines M = [(file, definition, old, new, claim, [properties]), ...]
Appends one JSON line per mutant to /verif/seeded/LOG.jsonl."""
import sys, os, re, json, shutil, subprocess
SC = os.environ.get("SCRATCH", "/tmp/mut")
SRC = os.environ.get("SRC", "/verif/rocq")
KEEP = "" if os.environ.get("FAST") else "-k"   # FAST: stop at the first failure
def sh(c, **k): return subprocess.run(c, shell=True, capture_output=True, text=True, **k)
def enclosing(path, line):
    name = "?"
    for i, l in enumerate(open(path), 1):
        if i > line: break
        m = re.match(r"\s*(?:Local |Global )?(Theorem|Lemma|Example|Definition|Fixpoint|Corollary|Remark|Inductive|Record|Let)\s+([\w']+)", l)
        if m: name = m.group(2)
    return name
ns = {}
exec(open(sys.argv[1]).read(), ns)
claims = {c["property"]: c["theorems"] for c in json.load(open("/verif/MANIFEST.json"))["claims"]}
for (f, d, old, new, claim, props) in ns["M"]:
    sh(f"rm -rf {SC}; cp -a {SRC} {SC}")
    p = f"{SC}/theories/{f}"
    s = open(p).read()
    assert s.count(old) >= 1, (f, d, old)
    s = s.replace(old, new, 1)
    open(p, "w").write(s)
    for attempt in range(40):
        r = sh(f"cd {SC} && coq_makefile -f _CoqProject -o Makefile && timeout 3000 nice make {KEEP} -j{os.environ.get('JOBS','2')} 2>&1")
        open("/tmp/mut_last.log", "w").write(r.stdout + r.stderr)
        if r.returncode != 0 and "Error" not in r.stdout or r.returncode == 0 and attempt == 0 and f"COQC theories/{f}" not in r.stdout:
            print("BUILD PROBLEM", f, d, r.stdout[-800:], r.stderr[-800:], flush=True); sys.exit(1)
        fails = []
        again = False
        for m in re.finditer(r'File "\./(theories/[\w]+\.v)", line (\d+)[^\n]*\n(?:[^\n]*\n)?', r.stdout):
            if "Error" in r.stdout[m.start():m.start()+2000].split("\nFile")[0]:
                q = SC + '/' + m.group(1)
                n = enclosing(q, int(m.group(2)))
                # an Example is a test on literals: it does not count, admit it in the scratch copy and go on
                txt = open(q).read()
                k = re.search(r"^\s*Example\s+" + re.escape(n) + r"(?![\w'])", txt, re.M)
                if k:
                    i = txt.find("Proof", k.start()); j = txt.find("Qed.", i)
                    if i > 0 and j > 0:
                        open(q, "w").write(txt[:i] + "Admitted." + "\n" * txt[i:j].count("\n") + txt[j+4:])
                        again = True
                        continue
                fails.append(f"{os.path.basename(m.group(1))}:{n}")
        if not again: break
    # files that failed plus everything that depends on them
    deps = {}
    for l in sh(f"cd {SC} && coqdep -f _CoqProject").stdout.splitlines():
        if ".vo" not in l.split(":")[0]: continue
        src = [x for x in l.split(":")[0].split() if x.endswith(".vo")]
        for x in src: deps.setdefault(os.path.basename(x)[:-1], set()).update(
            os.path.basename(y)[:-1] for y in l.split(":")[1].split() if y.endswith(".vo") and "theories/" in y)
    bad = {x.split(":")[0] for x in fails}
    while True:
        more = {k for k, v in deps.items() if v & bad} - bad
        if not more: break
        bad |= more
    unbuilt = sorted(bad)
    # theorems of the manifest whose file did not build
    thm = set()
    for x in unbuilt:
        txt = open(f"{SC}/theories/{x}").read()
        for n in re.findall(r"^\s*Theorem\s+([\w']+)", txt, re.M): thm.add(n)
    if props is None:
        # generated mutants: an error in the model file itself means the edit is not a program
        if any(x.split(":")[0] == f and re.search(r"^\s*(Definition|Fixpoint|Record|Inductive|Context)\s+" + re.escape(x.split(":")[1]) + r"\b", s, re.M) for x in fails):
            print("INVALID", f, d, flush=True); continue
        props = sorted((q for q in claims if any(t in thm for t in claims[q])), key=lambda q: int(q[1:]))
        if s.count(new) and len(new) > 200: old, new = claim.split("): ")[-1].split(" replaced by ", 1)[0], claim.split(" replaced by ", 1)[-1]
    hit = sorted(t for q in props for t in claims.get(q, []) if t in thm)
    rec = {"definition": f"{f}: {d}", "edit": f"{old.strip()}  ==>  {new.strip()}", "claim_broken": claim,
           "properties": props, "first_failures": sorted(set(fails)), "theorems_failed": hit,
           "verdict": "caught" if hit else "SURVIVED", "theorems_tightened": []}
    with open("/verif/seeded/LOG.jsonl", "a") as g: g.write(json.dumps(rec, ensure_ascii=False) + "\n")
    print(rec["verdict"], f, d, rec["first_failures"], flush=True)
