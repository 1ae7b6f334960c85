"""Rewrites section 6 of DESIGN.md from Print Assumptions (run after building in rocq/)."""
import json, os, re, subprocess, tempfile
root = os.path.dirname(os.path.dirname(os.path.abspath(__file__)))
rocq = os.path.join(root, "rocq")
theorems = sorted({t for c in json.load(open(os.path.join(root, "MANIFEST.json")))["claims"] for t in c["theorems"]})
where = {}
for d, _, fs in os.walk(os.path.join(rocq, "theories")):
    for f in fs:
        if f.endswith(".v"):
            for n in re.findall(r"(?m)^\s*(?:Theorem|Lemma) ([\w']+)", open(os.path.join(d, f)).read()):
                if n in theorems and f.startswith("Props"):
                    where[n] = os.path.relpath(os.path.join(d, f[:-2]), os.path.join(rocq, "theories")).replace("/", ".")
out = {}
for mod in sorted(set(where.values())):
    names = [t for t in theorems if where.get(t) == mod]
    src = "Require Verif.%s.\n" % mod + "".join('Print Assumptions Verif.%s.%s.\n' % (mod, n) for n in names)
    with tempfile.TemporaryDirectory() as tmp:
        p = os.path.join(tmp, "a.v"); open(p, "w").write(src)
        r = subprocess.run(["coqc", "-q", "-Q", "theories", "Verif", p], cwd=rocq, capture_output=True, text=True)
        assert r.returncode == 0, r.stderr
    blocks = re.split(r"(?m)^(?=Axioms:|Closed under the global context)", r.stdout)[1:]
    assert len(blocks) == len(names)
    for n, b in zip(names, blocks):
        out[n] = () if b.startswith("Closed") else tuple(sorted(re.findall(r"(?m)^([A-Za-z_][\w.']*)\s*(?::|$)", b.split("\n", 1)[1])))
groups = {}
for n, a in out.items(): groups.setdefault(a, []).append(n)
text = ""
for a in sorted(groups, key=len):
    text += ("* No assumptions (closed under the global context): " if not a else "* " + ", ".join("`%s`" % x for x in a) + ": ") + ", ".join(sorted(groups[a])) + ".\n"
missing = [t for t in theorems if t not in out]
assert not missing, missing
p = os.path.join(root, "DESIGN.md"); s = open(p).read()
i = s.index("<!-- assumptions -->")
open(p, "w").write(s[:i] + "<!-- assumptions -->\n" + text)
