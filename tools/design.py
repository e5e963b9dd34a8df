"""Fill the generated part of DESIGN.md: the findings, from the comments beside the _refuted theorems."""
import pathlib
import re

root = pathlib.Path(__file__).resolve().parent.parent
th = root / "rocq" / "theories"
rows = []
for f in sorted(th.glob("*.v")):
    text = f.read_text()
    for m in re.finditer(r"^(?:Theorem|Corollary)\s+((C\d\d\d?)_\w+_refuted)\b", text, re.M):
        before = text[: m.start()].rstrip()
        comment = ""
        if before.endswith("*)"):
            comment = before[before.rindex("(*") :].strip("(*) \n")
            comment = re.sub(r"\s+", " ", comment).replace("|", "/")
            comment = re.sub(r"^C\d\d\d?[.:]?\s+", "", comment)
        rows.append((m.group(2), m.group(1), f.name, comment))
rows.sort()
lines = ["<!-- findings: generated by tools/design.py -->"]
for pid, name, f, comment in rows:
    lines.append(f"* **{pid}** `{name}` ({f}). {comment}")
lines.append("<!-- end of findings -->")
p = root / "DESIGN.md"
s = p.read_text()
a = s.index("<!-- findings:")
b = s.index("<!-- end of findings -->") + len("<!-- end of findings -->")
p.write_text(s[:a] + "\n".join(lines) + s[b:])
print(len(rows), "findings;", [r[1] for r in rows if not r[3]])
