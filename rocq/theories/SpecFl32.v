(** * SpecFl32: how the single precision properties measure errors. *)
From Coq Require Import ZArith Reals.
From Flocq Require Import Core IEEE754.BinarySingleNaN.
From Verif Require Import NumB32.
Local Open Scope R_scope.

(** [g] is finite and differs from [v] by at most [C] units of 2^-24 of [m] *)
Definition off (C m : R) (g : b32) (v : R) : Prop :=
  is_finite g = true /\ Rabs (B2R g - v) <= C * / IZR (2 ^ 24) * m.
