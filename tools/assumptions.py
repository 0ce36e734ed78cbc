#!/usr/bin/env python3
"""Write ASSUMPTIONS.txt: what Print Assumptions says of every theorem named in
MANIFEST.json.  Run after a build in rocq/."""
import json, os, re, subprocess, tempfile

HERE = os.path.dirname(os.path.dirname(os.path.abspath(__file__)))

def main():
    mods = [l.split("/")[-1][:-2] for l in open(os.path.join(HERE, "rocq/_CoqProject")).read().split()
            if l.endswith(".v")]
    where = {}
    for m in mods:
        text = open(os.path.join(HERE, "rocq/theories", m + ".v")).read()
        for t in re.findall(r"^(?:Theorem|Corollary|Lemma)\s+(\w+)", text, re.M):
            where[t] = m
    names = [t for c in json.load(open(os.path.join(HERE, "MANIFEST.json")))["claims"] for t in c["theorems"]]
    out = []
    with tempfile.TemporaryDirectory() as d:
        src = os.path.join(d, "Assume.v")
        with open(src, "w") as f:
            for m in mods:
                f.write("From Verif Require %s.\n" % m)
            for t in names:
                f.write('Eval compute in tt.\nPrint Assumptions Verif.%s.%s.\n' % (where[t], t))
        r = subprocess.run(["coqc", "-Q", os.path.join(HERE, "rocq/theories"), "Verif", src],
                           capture_output=True, text=True)
        parts = re.split(r"     = tt\s*\n     : unit\s*\n", r.stdout)[1:]
        if r.returncode or len(parts) != len(names):
            raise SystemExit(r.stdout[-2000:] + r.stderr)
        for t, p in zip(names, parts):
            out.append("%s: %s" % (t, " ".join(p.split())))
    with open(os.path.join(HERE, "ASSUMPTIONS.txt"), "w") as f:
        f.write("\n".join(out) + "\n")
    print(len(out), "theorems;", sum("Closed under the global context" in l for l in out), "closed")

main()
