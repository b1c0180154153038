#!/usr/bin/env python3
"""Writes rocq/theories/ExampleData.v: the example configuration files of /repo/examples/file. The CSV
file is given as its bytes, the YAML file as the document it describes."""
import re
b = open("/repo/examples/file/table.csv", "rb").read()
y = open("/repo/examples/file/table.yaml", encoding="utf8").read().split("\n")
assert y[0] == "---" and y[1] == "items:" and y[-1] == ""
def scalar(s):
    if s[0] == '"':
        assert s[-1] == '"' and len(s) >= 2
        t = re.sub(r'\\(["\\])', r'\1', s[1:-1])
        assert "\\" not in t or t == "\\"
        return t
    assert s[0] != "'" and len(s) < 10
    return s
rows = []
for f, t in zip(y[2:-1:2], y[3:-1:2]):
    assert f.startswith("  - from: ") and t.startswith("    to: "), (f, t)
    rows.append((scalar(f[10:]), scalar(t[8:])))
assert len(rows) * 2 == len(y) - 3
n = lambda s: "[" + "; ".join("0x%X" % ord(c) for c in s) + "]"
out = ["(** Generated by tools/mkexamples.py from /repo/examples/file; do not edit. *)",
       "From Verif Require Import Base Yaml.", "Local Open Scope N_scope.", "",
       "(** The bytes of /repo/examples/file/table.csv. *)", "Definition example_csv : list N :=", "  ["]
l = [str(x) for x in b]
out[-1] += ";\n   ".join("; ".join(l[i:i+30]) for i in range(0, len(l), 30)) + "]."
out += ["", "(** The document in /repo/examples/file/table.yaml: pairs of the values of from and to. *)",
        "Definition example_yaml_pairs : list (str * str) :=",
        "  [ " + "\n  ; ".join("(%s, %s)" % (n(f), n(t)) for f, t in rows) + " ].",
        "Definition example_yaml : yval :=",
        '  YMap [(YStr (lit "items"), YSeq (map (fun p => YMap [(YStr (lit "from"), YStr (fst p)); (YStr (lit "to"), YStr (snd p))]) example_yaml_pairs))].']
open("/verif/rocq/theories/ExampleData.v", "w").write("\n".join(out) + "\n")
