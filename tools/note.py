#!/usr/bin/env python3
"""note.py ID 'text' [status]: set the manifest note of a property."""
import json, os, sys
p = os.path.join(os.path.dirname(os.path.abspath(__file__)), 'notes.json')
d = json.load(open(p))
d[sys.argv[1]] = {'note': sys.argv[2]}
if len(sys.argv) > 3:
    d[sys.argv[1]]['status'] = sys.argv[3]
json.dump(d, open(p, 'w'), indent=1)
