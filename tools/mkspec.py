#!/usr/bin/env python3
"""Writes rocq/theories/CharSpec.v: reference data from the Unicode Character Database (Python's
unicodedata), independent of /repo."""
import unicodedata
def n(s): return "[" + "; ".join("0x%X" % ord(c) for c in s) + "]"
nf = lambda c: unicodedata.normalize("NFKC", chr(c))
out = ["(** Generated by tools/mkspec.py from the Unicode Character Database; do not edit.",
       "    Independent of /repo: reference data for the properties about character tables. *)",
       "From Verif Require Import Base.", "Local Open Scope N_scope.", "",
       "(** Compatibility (full-width) forms of U+FF61 .. U+FF9D, in order. *)",
       "Definition halfwidth_forms : list char :=",
       "  " + n("".join(nf(c) for c in range(0xFF61, 0xFF9E))) + ".", "",
       "(** NFKC of U+3300 .. U+33FF, in order. *)",
       "Definition cjk_forms : list str :=",
       "  [ " + "\n  ; ".join(n(nf(c)) for c in range(0x3300, 0x3400)) + " ].", "",
       "(** NFC of a kana followed by U+3099 (voiced) or U+309A (semi-voiced): (kana, composed), over",
       "    the hiragana and katakana blocks. *)"]
for name, mark in (("voiced_forms", "゙"), ("semivoiced_forms", "゚")):
    l = []
    for c in range(0x3041, 0x3100):
        x = unicodedata.normalize("NFC", chr(c) + mark)
        if len(x) == 1: l.append("(0x%X, 0x%X)" % (c, ord(x)))
    out += ["Definition %s : list (char * char) :=" % name, "  [ " + "; ".join(l) + " ]."]
open("/verif/rocq/theories/CharSpec.v", "w").write("\n".join(out) + "\n")
