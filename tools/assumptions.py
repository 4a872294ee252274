#!/usr/bin/env python3
"""Prints, for every theorem in MANIFEST.json, what Print Assumptions lists.
Run after a build, from anywhere."""
import json, os, re, subprocess, tempfile
root = os.path.join(os.path.dirname(os.path.abspath(__file__)), "..")
names = []
for c in json.load(open(os.path.join(root, "MANIFEST.json")))["claims"]:
    names += [t for t in c["theorems"] if t not in names]
mods = [l.strip()[len("theories/"):-2] for l in open(os.path.join(root, "rocq/_CoqProject")) if l.startswith("theories/")]
where = {}
for m in mods:
    for t in re.findall(r"^(?:Theorem|Lemma|Corollary|Example)\s+(\w+)", open(os.path.join(root, "rocq/theories", m + ".v")).read(), re.M):
        where.setdefault(t, m)
with tempfile.TemporaryDirectory() as d:
    src = "".join(f"From Verif Require {m}.\n" for m in mods)
    for t in names:
        src += f'Eval compute in 0. Print Assumptions Verif.{where[t]}.{t}.\n'
    open(os.path.join(d, "a.v"), "w").write(src)
    out = subprocess.run(["coqc", "-Q", os.path.join(root, "rocq/theories"), "Verif", "a.v"], cwd=d, capture_output=True, text=True)
    if out.returncode: raise SystemExit(out.stderr)
parts = re.split(r"^\s*= 0\s*\n\s*: nat\s*\n", out.stdout, flags=re.M)[1:]
assert len(parts) == len(names)
groups = {}
for t, p in zip(names, parts):
    ax = tuple(sorted([a for a in re.findall(r"^(\S+)\s*:", p, re.M) if a != "Axioms"])) if "Closed under" not in p else ()
    groups.setdefault(ax, []).append(t)
for ax, ts in sorted(groups.items(), key=lambda x: len(x[0])):
    print("closed under the global context" if not ax else ", ".join(ax), "--", len(ts), "theorems:", " ".join(ts) if ax else "")
