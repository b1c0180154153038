#!/usr/bin/env python3
"""Writes rocq/theories/YamlData.v: the texts of the YAML files in /repo and of the YAML samples in README.md."""
import re
rd = lambda p: open(p, encoding="utf8", newline="").read()
blocks = re.findall(r"```yaml\n(.*?)```", rd("/repo/README.md"), re.S)
assert len(blocks) == 2 and blocks[0].startswith("items:") and blocks[1].startswith("modifiers:")
texts = [("readme_items", "README.md, the sample for items", blocks[0]),
         ("readme_modifiers", "README.md, the sample for modifiers", blocks[1]),
         ("test_yaml", "/repo/tests/resources/test.yaml", rd("/repo/tests/resources/test.yaml")),
         ("python_test_yaml", "/repo/bindings/python3/tests/test.yaml", rd("/repo/bindings/python3/tests/test.yaml")),
         ("example_yaml_text", "/repo/examples/file/table.yaml", rd("/repo/examples/file/table.yaml"))]
out = ["(** Generated by tools/mkyaml.py from /repo; do not edit. *)", "From Verif Require Import Base.", "Local Open Scope N_scope."]
for name, what, t in texts:
    l = [str(ord(c)) for c in t]
    out += ["", "(** %s *)" % what, "Definition %s : str :=" % name,
            "  [" + ";\n   ".join("; ".join(l[i:i+30]) for i in range(0, len(l), 30)) + "]."]
open("/verif/rocq/theories/YamlData.v", "w").write("\n".join(out) + "\n")
