"""Generates mutants of the model definitions by small syntactic edits (wrong comparison, off-by-one, swapped
branch or argument, dropped update).  usage: automut.py out.py per_definition seed file [file ...]"""
import re, sys, random, json
out, per, seed, files = sys.argv[1], int(sys.argv[2]), int(sys.argv[3]), sys.argv[4:]
random.seed(seed)
OPS = [(r"Nat\.ltb", "Nat.leb"), (r"Nat\.leb", "Nat.ltb"), (r"<\?", "<=?"), (r"<=\?", "<?"), (r"Z\.ltb", "Z.leb"), (r"Z\.leb", "Z.ltb"),
  (r"Z\.gtb", "Z.geb"), (r"Rlt_dec", "Rle_dec"), (r"Rle_dec", "Rlt_dec"), (r" \+ ", " - "), (r" - ", " + "), (r" \* ", " + "), (r" / ", " * "),
  (r"\bS (?=[a-z])", ""), (r"\b0\b", "1"), (r"\b1\b", "2"), (r"\b2\b", "3"), (r"&&", "||"), (r"\|\|", "&&"), (r"\btrue\b", "false"), (r"\bfalse\b", "true"),
  (r"\bfst\b", "snd"), (r"\bsnd\b", "fst"), (r"\bsin\b", "cos"), (r"\bcos\b", "sin"), (r"\bnegb ", ""), (r"\bsqrt\b", "Rabs"), (r"\bln\b", "exp"), (r"\bexp\b", "ln"),
  (r"InvalidOperation", "NullPointer"), (r"NullPointer", "InvalidOperation"), (r"BadArgument\b", "OutOfBound"), (r"OutOfBound\b", "BadArgument"),
  (r"(\w+) \+\+ (\[\w+\])", r"\2 ++ \1"), (r"(\w+) \+\+ (\w+)\b", r"\1"), (r"<\[(\w+) := ([^\]]*)\]> ?\(", r"("), (r"\bfilter \((.*?)\) ", ""),
  (r"\(\- ([^()]*)\)", r"(\1)"), (r"\b(\w+) (\w+)\)(?= )", r"\2 \1)"), (r"\b([a-z]\w*) ([a-z]\w*)\b(?= *\))", r"\2 \1"), (r"Nat\.eqb", "Nat.ltb"), (r"bool_decide (?=\()", "(fun b => negb (bool_decide b)) "),
  (r"\bmin\b", "max"), (r"\bmax\b", "min"), (r"\bhead\b", "last"), (r"\blast\b", "head"), (r"Ret tt", "Throw External"), (r"\brev ", ""), (r" ≤ ", " < "), (r"_x\b", "_y"), (r"_y\b", "_z"), (r"_min\b", "_max"),
  (r'"([A-Za-z][\w ]*)"', r'"x\1"'), (r"\bNone\b", "Diverge"), (r"Diverge", "UB"), (r"\bUB\b", "Ret tt"), (r"\bsome\b", "none"), (r"\[\]", "[0]"), (r"_z\b", "_x"), (r"\bTFloat\b", "TLongDouble")]
KIND = re.compile(r"^[ \t]*(Definition|Fixpoint)\s+([\w']+)", re.M)
ENDS = re.compile(r"\.\s*(\n|$)")
M = []
for f in files:
    t = open("/verif/rocq/theories/" + f).read()
    for m in KIND.finditer(t):
        e = ENDS.search(t, m.end())
        if not e: continue
        # the sentence can contain line comments; take text up to the first ".\n" outside comments
        pos = m.end(); depth = 0; i = pos
        while i < len(t):
            if t.startswith("(*", i): depth += 1; i += 2; continue
            if t.startswith("*)", i): depth -= 1; i += 2; continue
            if depth == 0 and t[i] == "." and (i + 1 == len(t) or t[i + 1] in " \n"): break
            i += 1
        body = t[m.start():i + 1]
        k = body.find(":=")
        if k < 0: continue
        head, rhs = body[:k + 2], body[k + 2:]
        cands = []
        for a, b in OPS:
            for x in re.finditer(a, rhs):
                if rhs.rfind("(*", 0, x.start()) > rhs.rfind("*)", 0, x.start()): continue
                new = rhs[:x.start()] + re.sub(a, b, x.group(0), 1) + rhs[x.end():]
                if new != rhs: cands.append((a, x.start(), x.group(0), re.sub(a, b, x.group(0), 1), new))
        random.shuffle(cands)
        c = t.rfind("(**", 0, m.start()); c2 = t.find("*)", c)
        com = " ".join(t[c + 3:c2].split())[:160] if c >= 0 else ""
        for a, p, o, n, new in cands[:per]:
            ctx = " ".join(rhs[max(0, p - 40):p + 40].split())
            M.append((f, m.group(2), head + rhs, head + new, f"{m.group(2)} ({com}): '{o.strip()}' replaced by '{n.strip()}' near '{ctx}'", None))
with open(out, "w") as g: g.write("M = " + repr(M) + "\n")
print(len(M))
