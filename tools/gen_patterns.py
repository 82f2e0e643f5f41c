#!/usr/bin/env python3
"""Writes the embedded pattern files and the TeX files they come from as Coq string literals: theories/Pat*.v and
theories/Src*.v. Run from /verif."""
import os
SRC = "/repo/wordbreak/hyphenator/languages/"
NAMES = [("De", "hyph-de-1996.tex"), ("Gb", "hyph-en-gb.tex"), ("Es", "hyph-es.tex"), ("Fr", "hyph-fr.tex"),
         ("Us", "ushyphmax.tex")]
FILES = [("Pat" + m, m.lower(), f) for m, f in NAMES] + [("Src" + m, m.lower() + "_src", "tex/" + f) for m, f in NAMES]
for mod, name, f in FILES:
    data = open(SRC + f, "rb").read()
    assert b"\r" not in data and data.endswith(b"\n")
    lines = [l + "\n" for l in data.decode("utf8").split("\n")[:-1]]
    chunks = []
    for i in range(0, len(lines), 400):
        chunks.append("".join(lines[i:i + 400]))
    out = ["(** wordbreak/hyphenator/languages/%s, byte for byte; written by tools/gen_patterns.py. *)" % f,
           "From Verif Require Import Base Text.", "Local Open Scope text_scope.", ""]
    for i, c in enumerate(chunks):
        out.append('Definition %s_%d : text := "%s".' % (name, i, c.replace('"', '""')))
    out.append("Definition %s_file : list Z := flat_map textBytes [%s]." %
               (name, "; ".join("%s_%d" % (name, i) for i in range(len(chunks)))))
    open("rocq/theories/%s.v" % mod, "w", encoding="utf8").write("\n".join(out) + "\n")
