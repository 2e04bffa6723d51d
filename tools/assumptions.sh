#!/bin/bash
# prints the assumptions of every property theorem; needs a built /verif/rocq. Output directory: $1
out=${1:-/tmp/pad}; mkdir -p $out; cd "$(dirname "$0")/../rocq"
for f in theories/*Props.v; do b=$(basename $f .v)
 names=$(grep -oE "^(Theorem|Lemma|Corollary) c[0-9]+_\w+" $f | awk '{print $2}'); [ -z "$names" ] && continue
 o=$out/T_$b.v; echo "From Verif Require Import Base $b." > $o
 for n in $names; do echo "Goal True. idtac \"@@ $n\". Abort. Print Assumptions $n." >> $o; done
 coqc -R theories Verif $o > $out/$b.out 2>&1 || echo FAIL $b
done
