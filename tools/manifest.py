"""Regenerate rocq/_CoqProject (file list) and MANIFEST.json from the property files.

Statuses and notes live in tools/notes.json: {"C01": {"status": "...", "note": "..."}}.
"""
import json
import pathlib
import re

root = pathlib.Path(__file__).resolve().parent.parent
th = root / "rocq" / "theories"
files = sorted(p.name for p in th.glob("*.v"))
(root / "rocq" / "_CoqProject").write_text(
    "-Q theories Verif\n" + "".join(f"theories/{f}\n" for f in files)
)
notes = json.loads((root / "tools" / "notes.json").read_text())
props = [json.loads(l)["id"] for l in (root / "properties.jsonl").read_text().splitlines() if l.strip()]
found: dict[str, list[str]] = {}
for f in files:
    for m in re.finditer(r"^(?:Theorem|Corollary)\s+(C(\d\d\d?)_\w+)", (th / f).read_text(), re.M):
        found.setdefault("C" + m.group(2), []).append(m.group(1))
claims = []
for pid in props:
    n = notes.get(pid, {})
    ths = found.get(pid, [])
    status = n.get("status", "proved" if ths else None)
    if status is None:
        continue
    claims.append({"property": pid, "status": status, "theorems": ths, "note": n.get("note", "")})
(root / "MANIFEST.json").write_text(json.dumps({"claims": claims}, indent=1) + "\n")
missing = [p for p in props if p not in {c["property"] for c in claims}]
print(len(claims), "claims;", sum(len(c["theorems"]) for c in claims), "theorems; missing:", " ".join(missing))
extra = [k for k in found if k not in props]
if extra:
    print("theorems without property:", extra)
