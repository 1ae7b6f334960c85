"""Checks that every theorem named in MANIFEST.json exists in a Props.v file and vice versa."""
import json, os, re, glob
root = os.path.join(os.path.dirname(os.path.abspath(__file__)), "..")
m = json.load(open(root + "/MANIFEST.json"))
named = {t for c in m["claims"] for t in c["theorems"]}
have = set()
for f in glob.glob(root + "/rocq/theories/**/Props*.v", recursive=True):
    have |= set(re.findall(r"^Theorem (\w+)", open(f).read(), re.M))
print("missing:", sorted(named - have))
print("unlisted:", sorted(have - named))
props = [json.loads(l)["id"] for l in open(root + "/properties.jsonl")]
print("properties without claim:", [p for p in props if p not in {c["property"] for c in m["claims"]}])
