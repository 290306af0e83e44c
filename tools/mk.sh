#!/bin/bash
# regenerate _CoqProject from the files present and build; print only errors
cd ${D:-/verif}/rocq
( echo "-Q theories Verif"; find theories -name '*.v' | LC_ALL=C sort ) > _CoqProject
coq_makefile -f _CoqProject -o Makefile >/dev/null 2>&1
timeout ${T:-1800} make -k -j4 "$@" > /tmp/mk.log 2>&1
grep -A${L:-25} '^File\|^Error\|Killed' /tmp/mk.log | grep -v '^COQ\|^make'
