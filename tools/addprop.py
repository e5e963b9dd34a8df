"""addprop.py < lines: append properties (one JSON object per line) that are not listed yet."""
import json, sys
p = 'properties.jsonl'
have = {json.loads(l)['id'] for l in open(p)}
with open(p, 'a') as f:
    for l in sys.stdin:
        if l.strip():
            d = json.loads(l)
            assert set(d) == {'id', 'title', 'statement', 'quantifier', 'why_tests_cant', 'anchors'}, d['id']
            if d['id'] not in have:
                f.write(json.dumps(d) + '\n')
