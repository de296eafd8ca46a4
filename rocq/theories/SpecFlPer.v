(** * SpecFlPer: a math library with an accurate cube root, for the rounding properties *)
From Coq Require Import ZArith Reals.
From Flocq Require Import Core IEEE754.BinarySingleNaN.
From Verif Require Import NumB32 NumB64 SpecFl32 SpecFl64.
Local Open Scope R_scope.

(** the cube root of a positive number, to a relative error of [c] units *)
Definition cube_root32 (L : libm) (c : nat) : Prop :=
  forall (x : b32) (y : R), is_finite x = true -> 0 < y -> y ^ 3 = B2R x -> off (INR c) y (m_cbrt L x) y.
Definition cube_root64 (L : libm64) (c : nat) : Prop :=
  forall (x : b64) (y : R), is_finite x = true -> 0 < y -> y ^ 3 = B2R x -> off64 (INR c) y (d_cbrt L x) y.
