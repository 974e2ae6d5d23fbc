"""Writes MANIFEST.json from the table below."""
import json, os
here = os.path.dirname(os.path.abspath(__file__))
C = {}
def claim(pid, status, theorems, note=""):
    C[pid] = {"property": pid, "status": status, "theorems": theorems, "note": note}
exec(open(os.path.join(here, "claims_table.py")).read())
with open(os.path.join(here, "..", "MANIFEST.json"), "w") as f:
    json.dump({"claims": [C[k] for k in sorted(C)]}, f, indent=1)
