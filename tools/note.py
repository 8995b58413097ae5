"""usage: note.py CNN status note... : set one entry of notes.json."""
import json, os, sys
p = os.path.join(os.path.dirname(os.path.abspath(__file__)), "notes.json")
d = json.load(open(p))
d[sys.argv[1]] = {"status": sys.argv[2], "note": " ".join(sys.argv[3:])}
json.dump(d, open(p, "w"), indent=0)
