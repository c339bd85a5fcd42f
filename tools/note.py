#!/usr/bin/env python3
"""note.py Cnn status 'note' -- sets an entry of notes.json"""
import json, sys, os
f = os.path.dirname(os.path.abspath(__file__)) + '/notes.json'
d = json.load(open(f)); d[sys.argv[1]] = {"status": sys.argv[2], "note": sys.argv[3]}
json.dump(d, open(f, 'w'), indent=1)
