#!/bin/sh
# DESIGN.md = DESIGN.in.md with the axiom table (needs a finished build in rocq/)
set -e
cd "$(dirname "$0")/.."
python3 tools/mkaxioms.py > /tmp/ax.md
python3 - <<'PY'
t=open('tools/DESIGN.in.md').read(); a=open('/tmp/ax.md').read().rstrip('\n')
assert a
open('DESIGN.md','w').write(t.replace('@@AX@@',a))
PY
