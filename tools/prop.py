#!/usr/bin/env python3
"""prop.py: read one JSON object on stdin and add it to (or replace it in) properties.jsonl."""
import json, os, sys
p = os.path.join(os.path.dirname(os.path.abspath(__file__)), '..', 'properties.jsonl')
d = json.load(sys.stdin)
ps = [json.loads(l) for l in open(p) if l.strip()]
ps = [x for x in ps if x["id"] != d["id"]] + [d]
ps.sort(key=lambda x: x["id"])
open(p, 'w').write(''.join(json.dumps(x) + '\n' for x in ps))
