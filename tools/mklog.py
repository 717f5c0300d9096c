"""Collect the results of mutation testing into seeded/LOG.jsonl (usage: mklog.py RESULTS...)."""
import json, sys
TIGHT = {"D02": ["C57_strip"], "D05": ["C68_factorized", "C68_arff"], "D09": ["C68_extension", "C68_unknown_format"], "I03": ["C81_other_inputs"], "G27": ["C113_score"], "G29": ["C113_point"], "H06": ["C55_growing_jumps"], "H08": ["C55_growing_jumps"]}
out = []
for f in sys.argv[1:]:
    for l in open(f):
        r = json.loads(l)
        if r.get("err") and not r["failed"] and not r["lemmas"]:
            continue
        o = {"id": r["id"], "definition": "theories/%s.v: %s" % (r["file"], r["definition"]), "edit": {"old": r["old"], "new": r["new"]},
             "claim": "%s (expected to break %s)" % (r["claim"], ", ".join(r["expect"])),
             "failed": r["failed"], "tightened": TIGHT.get(r["id"], [])}
        ex = [n for n in r["lemmas"] if n.startswith("C") and n[1:3].isdigit()]
        if ex: o["failed_examples"] = ex
        out.append(o)
open("/verif/seeded/LOG.jsonl", "w").write("".join(json.dumps(o) + "\n" for o in out))
print(len(out), [o["id"] for o in out if not o["failed"] and not o["tightened"]])
