#!/bin/bash
# list files in _CoqProject if missing: addproj.sh Name...
cd "$(dirname "$0")/../rocq"
for n in "$@"; do grep -qx "theories/$n.v" _CoqProject || echo "theories/$n.v" >> _CoqProject; done
