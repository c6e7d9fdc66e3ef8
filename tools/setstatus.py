"""setstatus.py ID STATUS NOTE: record the status of a property in tools/status.json."""
import json, sys, os
p = os.path.dirname(os.path.abspath(__file__)) + '/status.json'
d = json.load(open(p))
d[sys.argv[1]] = {'status': sys.argv[2], 'note': sys.argv[3]}
json.dump(d, open(p, 'w'), indent=1)
