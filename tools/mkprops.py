#!/usr/bin/env python3
"""Writes /verif/properties.jsonl from the table below (one property per entry)."""
import json, os
P = []
def p(id, title, statement, quantifier, why, anchors):
    P.append(dict(id=id, title=title, statement=statement, quantifier=quantifier,
                  why_tests_cant=why, anchors=anchors))

exec(open(os.path.join(os.path.dirname(__file__), "props_table.py")).read())
ids = [x["id"] for x in P]
assert len(ids) == len(set(ids)), "duplicate id"
with open(os.path.join(os.path.dirname(__file__), "..", "properties.jsonl"), "w") as f:
    for x in P:
        f.write(json.dumps(x, ensure_ascii=False) + "\n")
print(len(P), "properties")
