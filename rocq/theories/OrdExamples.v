(** * OrdExamples: the two formats round to nearest. *)
From Coq Require Import ZArith Reals Lra.
From Flocq Require Import Core IEEE754.BinarySingleNaN.
From Verif Require Import Num NumB32 NumB64 SpecOrd OrdMain.
Local Open Scope R_scope.

Lemma near64 (L : libm64) : nearest prec53 max1024 (Num_B64 L).
Proof.
  constructor; try reflexivity; try (split; vm_compute; reflexivity).
  split; [vm_compute; reflexivity|]. cbn. vm_compute. lra.
Qed.
Lemma near32 (L : libm) : nearest prec24 max128 (Num_B32 L).
Proof.
  constructor; try reflexivity; try (split; vm_compute; reflexivity).
  split; [vm_compute; reflexivity|]. cbn. vm_compute. lra.
Qed.
