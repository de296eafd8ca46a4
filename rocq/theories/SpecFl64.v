(** * SpecFl64: how the double precision properties measure errors. *)
From Coq Require Import ZArith Reals.
From Flocq Require Import Core IEEE754.BinarySingleNaN.
From Verif Require Import NumB64.
Local Open Scope R_scope.

(** [g] is finite and differs from [v] by at most [C] units of 2^-53 of [m] *)
Definition off64 (C m : R) (g : b64) (v : R) : Prop :=
  is_finite g = true /\ Rabs (B2R g - v) <= C * / IZR (2 ^ 53) * m.
