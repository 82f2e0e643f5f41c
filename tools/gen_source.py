#!/usr/bin/env python3
"""Writes terminal/runes/runes_tables.go as Coq string literals: theories/TablesGo.v. Run from /verif."""
data = open("/repo/terminal/runes/runes_tables.go", encoding="ascii").read()
lines = data.splitlines(keepends=True)
out = ["(** terminal/runes/runes_tables.go, byte for byte; written by tools/gen_source.py. *)",
       "From Verif Require Import Base Text.", "Local Open Scope text_scope.", ""]
chunks = ["".join(lines[i:i + 100]) for i in range(0, len(lines), 100)]
for i, c in enumerate(chunks):
    assert '"' not in c
    out.append('Definition tables_%d : text := "%s".' % (i, c))
out.append("Definition tables_go : list Z := flat_map textBytes [%s]." % "; ".join("tables_%d" % i for i in range(len(chunks))))
open("rocq/theories/TablesGo.v", "w", encoding="ascii").write("\n".join(out) + "\n")
