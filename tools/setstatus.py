#!/usr/bin/env python3
"""setstatus.py ID STATUS NOTE: record a claim in status.json"""
import json,sys
q='/verif/tools/status.json'; d=json.load(open(q))
d[sys.argv[1]]={"status":sys.argv[2],"note":sys.argv[3]}
open(q,'w').write(json.dumps(dict(sorted(d.items())),indent=0)+'\n')
