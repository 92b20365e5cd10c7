#!/bin/sh
# regenerate property files and the manifest, then build
set -e
cd "$(dirname "$0")/.."
python3 tools/genprops.py && python3 tools/manifest.py
cd rocq
{ echo "-Q theories Verif"; for f in $(ls theories/*.v | sort); do echo $f; done; } > _CoqProject
coq_makefile -f _CoqProject -o Makefile
rc=0
timeout 3000 make -j4 > /tmp/make.out 2>&1 || rc=$?
grep -v "^Closed under\|^COQ" /tmp/make.out | tail -${1:-30}
exit $rc
