(** * SpecTiny: what every good math library does on tiny arguments, and parabolic states

    Used by C105 and C106; nothing here mentions the code. *)
From Coq Require Import ZArith Reals.
From Flocq Require Import Core IEEE754.BinarySingleNaN.
From Verif Require Import Num NumB32 NumB64 Spec.
Local Open Scope R_scope.

(** correctly rounded on arguments with x^2 <= 2^-53 (double) or 2^-24 (single): the correctly rounded cosine and
    hyperbolic cosine are 1 there and the correctly rounded sine and hyperbolic sine are the argument
    ([C106_rounded_is_flat]) *)
Definition flat64 (L : libm64) : Prop := forall x : b64, is_finite x = true -> B2R x <> 0 -> B2R x ^ 2 <= / IZR (2 ^ 53) ->
  d_cos L x = b64_Z 1 /\ d_cosh L x = b64_Z 1 /\ d_sin L x = x /\ d_sinh L x = x.
Definition flat32 (L : libm) : Prop := forall x : b32, is_finite x = true -> B2R x <> 0 -> B2R x ^ 2 <= / IZR (2 ^ 24) ->
  m_cos L x = b32_Z 1 /\ m_cosh L x = b32_Z 1 /\ m_sin L x = x /\ m_sinh L x = x.

(** the result of rounding a real number to nearest, ties to even *)
Definition nearest64 (y : R) : R := round radix2 (FLT_exp (-1074) 53) ZnearestE y.
Definition nearest32 (y : R) : R := round radix2 (FLT_exp (-149) 24) ZnearestE y.
Definition rounded64 (f : b64 -> b64) (g : R -> R) : Prop := forall x : b64, is_finite x = true -> B2R x <> 0 ->
  B2R x ^ 2 <= / IZR (2 ^ 53) -> is_finite (f x) = true /\ B2R (f x) = nearest64 (g (B2R x)).
Definition rounded32 (f : b32 -> b32) (g : R -> R) : Prop := forall x : b32, is_finite x = true -> B2R x <> 0 ->
  B2R x ^ 2 <= / IZR (2 ^ 24) -> is_finite (f x) = true /\ B2R (f x) = nearest32 (g (B2R x)).

(** zero energy: 2 / |x| = |v|^2 / mu *)
Definition parabolic (mu : R) (x v : vec) : Prop := dot v v / 2 = mu / vnorm x.
