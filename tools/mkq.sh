#!/bin/bash
# mk.sh without the Print Assumptions chatter
/verif/tools/mk.sh "$@" | grep -v '^Axioms:\|^ClassicalDedekind\|^  : forall P : nat\|^    (forall n : nat, {P\|^    {n : nat\|^FunctionalExt\|^  : forall (A : Type) (B : A\|^    (forall x : A, f x\|^Classical_Prop\|^Closed under'
