"""Write DESIGN.md: tools/design_head.md followed by the table of properties."""
import json
man = {c["property"]: c for c in json.load(open("/verif/MANIFEST.json"))["claims"]}
how = json.load(open("/verif/tools/how.json"))
out = open("/verif/tools/design_head.md").read()
out += "| id | property | status | modelled and proved how | theorems |\n|---|---|---|---|---|\n"
for l in open("/verif/properties.jsonl"):
    p = json.loads(l); c = man[p["id"]]
    note = (" " + c["note"]) if c["note"] else ""
    out += f"| {p['id']} | {p['title']} | {c['status']} | {how.get(p['id'], '')}{note} | {', '.join('`'+t+'`' for t in c['theorems'])} |\n"
out += "\n## Axioms by theorem\n\nWhat `Print Assumptions` lists for every theorem of MANIFEST.json:\n\n" + open("/verif/tools/axioms.md").read()
open("/verif/DESIGN.md", "w").write(out)
print(len(out), [i for i in man if i not in how])
