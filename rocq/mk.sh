#!/bin/sh
# regenerate _CoqProject from the files present and build
cd "$(dirname "$0")" || exit 1
{ echo "-Q theories Verif"; find theories -name '*.v' | LC_ALL=C sort; } > _CoqProject
coq_makefile -f _CoqProject -o Makefile && timeout ${T:-2400} make -j4 "$@" 2>&1 | grep -v '^COQ\|Closed under'
