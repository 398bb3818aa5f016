#!/bin/sh
# Lists what Print Assumptions says about every theorem named in MANIFEST.json.
# Run after a build in rocq/.  Output: ASSUMPTIONS.txt
cd "$(dirname "$0")/../rocq" || exit 1
t=$(mktemp -d)
python3 - "$t/A.v" <<'END'
import json, glob, re, sys
names = []
for c in json.load(open("../MANIFEST.json"))["claims"]:
    for n in c["theorems"]:
        if n not in names: names.append(n)
where = {}
for f in sorted(glob.glob("theories/Props*.v")):
    for m in re.finditer(r"^(?:Theorem|Lemma|Corollary)\s+(\w+)", open(f).read(), re.M):
        where[m.group(1)] = f[9:-2]
mods = []
for n in names:
    if where[n] not in mods: mods.append(where[n])
with open(sys.argv[1], "w") as o:
    for m in mods: o.write(f"From Verif Require {m}.\n")
    for n in names:
        o.write(f'Redirect "{sys.argv[1]}.{n}" Print Assumptions {where[n]}.{n}.\n')
open(sys.argv[1] + ".names", "w").write("".join(n + "\n" for n in names))
END
coqc -Q theories Verif "$t/A.v" > /dev/null 2>&1
while read -r n; do printf '%s: %s\n' "$n" "$(tr '\n' ' ' < "$t/A.v.$n.out")"; done < "$t/A.v.names" > ../ASSUMPTIONS.txt
rm -r "$t"
