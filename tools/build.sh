#!/bin/bash
# regenerate Props, _CoqProject and build
cd "$(dirname "$0")/../rocq" || exit 1
python3 ../tools/gen_props.py
echo "-Q theories Verif" > _CoqProject
for d in Model Spec Proofs Props; do ls theories/$d/*.v >> _CoqProject; done
coq_makefile -f _CoqProject -o Makefile && timeout 2400 make -j4 > /tmp/build.log 2>&1
rc=$?
grep -v "^COQ\|Closed under the global\|Nothing to be done" /tmp/build.log | tail -${1:-40}
exit $rc
