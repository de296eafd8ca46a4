(** * SpecFl: vocabulary of the rounding properties, without floats and without model functions. *)
From Coq Require Import ZArith Reals.
Local Open Scope R_scope.

(** zero, or of size between 2^-e and 2^e *)
Definition in_range (e : Z) (v : R) : Prop := v = 0 \/ / IZR (2 ^ e) <= Rabs v <= IZR (2 ^ e).

(** relative error at most [d] *)
Definition close (d a b : R) : Prop := Rabs (a - b) <= d * Rabs b.
