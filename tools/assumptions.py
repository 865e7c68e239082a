"""Print the axioms behind every theorem of MANIFEST.json, grouped, and write tools/axioms.md (run after a build, before tools/design.py)."""
import json, re, subprocess, os, tempfile, collections
man = json.load(open("/verif/MANIFEST.json"))
mods = [l.strip()[len("theories/"):-2] for l in open("/verif/rocq/_CoqProject") if re.match(r"theories/P\d\d_", l)]
names = []
for c in man["claims"]:
    for t in c["theorems"]:
        if t not in names: names.append(t)
where = {}
for m in mods:
    s = open(f"/verif/rocq/theories/{m}.v").read()
    for t in names:
        if re.search(r"^(Theorem|Lemma|Corollary|Example) " + re.escape(t) + r"\b", s, re.M): where[t] = m
src = "From Verif Require " + " ".join(mods) + ".\n"
for t in names:
    src += f'Goal True. idtac "@@{t}". Abort.\nPrint Assumptions {where[t]}.{t}.\n'
d = tempfile.mkdtemp()
open(d + "/A.v", "w").write(src)
out = subprocess.run(["coqc", "-Q", "/verif/rocq/theories", "Verif", d + "/A.v"], capture_output=True, text=True)
assert out.returncode == 0, out.stderr
groups = collections.OrderedDict()
for part in out.stdout.split("@@")[1:]:
    t, rest = part.split("\n", 1)
    ax = sorted(set(re.findall(r"^([A-Za-z_][\w.']*) :", rest, re.M)) | set(re.findall(r"^([A-Za-z_][\w.']*)\n  :", rest, re.M)))
    groups.setdefault(tuple(ax), []).append(t)
with open("/verif/tools/axioms.md", "w") as f:
    for ax, ts in groups.items():
        print("AXIOMS:", ", ".join(ax) if ax else "none"); print("  ", len(ts), ", ".join(ts)); print()
        f.write("* " + (", ".join("`" + a + "`" for a in ax) if ax else "No axiom") + f" ({len(ts)} theorems): " + ", ".join("`" + t + "`" for t in ts) + ".\n")
