"""usage: addprop.py id title statement quantifier why anchors(;-separated): append a property."""
import json, os, sys
p = os.path.join(os.path.dirname(os.path.dirname(os.path.abspath(__file__))), "properties.jsonl")
a = sys.argv[1:]
open(p, "a").write(json.dumps({"id": a[0], "title": a[1], "statement": a[2], "quantifier": a[3], "why_tests_cant": a[4], "anchors": a[5].split(";")}) + "\n")
