"""setnote.py ID STATUS NOTE: record the status and note of a property for manifest.py."""
import json, sys
p = 'tools/notes.json'
d = json.load(open(p))
d[sys.argv[1]] = {"status": sys.argv[2], "note": sys.argv[3]}
json.dump(d, open(p, 'w'), indent=1)
