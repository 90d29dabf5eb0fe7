#!/bin/sh
# Regenerate the theorem files and the manifest, then build.
set -e
cd "$(dirname "$0")/../rocq"
python3 ../tools/gen_thm.py
coq_makefile -f _CoqProject -o Makefile
log=$(mktemp)
make -j4 > "$log" 2>&1 || { grep -v "^COQ\|Closed under" "$log"; exit 1; }
python3 ../tools/manifest.py
