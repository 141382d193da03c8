#!/bin/sh
# Rebuild everything and show only errors.
/verif/tools/mkproject.sh
cd /verif/rocq && coq_makefile -f _CoqProject -o Makefile && timeout ${1:-900} make -j4 > /tmp/build.log 2>&1; rc=$?
grep -v '^Closed\|^COQ\|^make' /tmp/build.log | tail -${2:-40}
exit $rc
