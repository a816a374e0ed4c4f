#!/bin/bash
# Developer convenience: incremental build under a timeout.
cd "$(dirname "$0")" && { [ Makefile -nt _CoqProject ] || coq_makefile -f _CoqProject -o Makefile; } && timeout ${1:-900} make -j4 2>&1 | grep -v "^COQ\|^Closed under\|make\[" 
