"""Check that every anchor in properties.jsonl names an existing file and symbols that occur in it."""
import json, os, re, sys
repo = sys.argv[1] if len(sys.argv) > 1 else "/repo"
here = os.path.dirname(os.path.abspath(__file__))
bad = 0
for line in open(os.path.join(here, "..", "properties.jsonl")):
    q = json.loads(line)
    for a in q["anchors"]:
        f, _, syms = a.partition(":")
        path = os.path.join(repo, f.strip())
        if not os.path.isfile(path):
            print(q["id"], "no file", f); bad += 1; continue
        text = open(path).read()
        for s in syms.split(","):
            s = s.strip()
            if s and not all(re.search(r"\b%s\b" % re.escape(w), text) for w in s.split("::")):
                print(q["id"], f, "no symbol", s); bad += 1
print(bad, "problems")
