#!/bin/sh
# build and show only errors
cd /verif/rocq && coq_makefile -f _CoqProject -o Makefile && timeout ${1:-850} make -k -j4 2>&1 | grep -v "^COQC\|Closed under\|COQDEP" | tail -${2:-40}
