(** * NumB32: the model in IEEE-754 single precision, for an arbitrary libm.

    jax computes in float32 unless [jax_enable_x64] is set, and nothing in
    /repo/src sets it.  [binary_float 24 128] is Flocq's formalisation of that
    format (signed zeros, subnormals, infinities, one NaN); [+ - * / sqrt] are
    correctly rounded to nearest even, as XLA computes them.  The transcendental
    functions are not specified by IEEE-754 and differ between back ends, so they
    are fields of a record [libm] over which every theorem is quantified.

    Simplifications:
    - every operation is rounded separately.  XLA may contract a multiplication
      and an addition into one rounding.  The stopping tests (C29_first_step,
      C58_elliptic) contain no such pair; the left-hand sides in C58_universal and
      C58_hyperbolic and the starting guess in C29_far and C29_refuted do, and are
      stated for the separately rounded form only;
    - a decimal literal [p/q] is the rounded quotient of [p] and [q], which is
      the correctly rounded literal because every [p] and [q] in the code is
      below 2^24 (so both are exact);
    - subnormal results are kept (XLA on CPU may flush them to zero). *)
From Coq Require Import ZArith Reals List.
From Flocq Require Import Core IEEE754.BinarySingleNaN.
From Verif Require Import Num.

Definition b32 : Type := binary_float 24 128.

#[global] Instance prec24 : Prec_gt_0 24 := eq_refl.
#[global] Instance max128 : Prec_lt_emax 24 128 := eq_refl.

(** The functions IEEE-754 leaves to the implementation. *)
Record libm : Type := {
  m_cbrt : b32 -> b32;
  m_sin : b32 -> b32;
  m_cos : b32 -> b32;
  m_sinh : b32 -> b32;
  m_cosh : b32 -> b32;
  m_log : b32 -> b32;
  m_arccos : b32 -> b32;
  m_arctan2 : b32 -> b32 -> b32
}.

Definition b32_Z (z : Z) : b32 := binary_normalize 24 128 _ _ mode_NE z 0 false.
Definition b32_add : b32 -> b32 -> b32 := Bplus mode_NE.
Definition b32_sub : b32 -> b32 -> b32 := Bminus mode_NE.
Definition b32_mul : b32 -> b32 -> b32 := Bmult mode_NE.
Definition b32_div : b32 -> b32 -> b32 := Bdiv mode_NE.
Definition b32_sqrt : b32 -> b32 := Bsqrt mode_NE.
Definition b32_floor : b32 -> b32 := Bnearbyint mode_DN.
Definition b32_dec (p : Z) (q : positive) : b32 := b32_div (b32_Z p) (b32_Z (Zpos q)).
(** float32 nearest to pi: 13176795 * 2^-22 *)
Definition b32_pi : b32 := b32_div (b32_Z 13176795) (b32_Z 4194304).
(** [jnp.maximum] propagates NaN *)
Definition b32_max (x y : b32) : b32 :=
  if is_nan x then x else if is_nan y then y else if Bltb x y then y else x.

Definition Num_B32 (L : libm) : Num b32 := {|
  n_Z := b32_Z;
  n_dec := b32_dec;
  n_pi := b32_pi;
  n_add := b32_add;
  n_sub := b32_sub;
  n_mul := b32_mul;
  n_div := b32_div;
  n_neg := Bopp;
  n_abs := Babs;
  n_sqrt := b32_sqrt;
  n_cbrt := m_cbrt L;
  n_sin := m_sin L;
  n_cos := m_cos L;
  n_sinh := m_sinh L;
  n_cosh := m_cosh L;
  n_log := m_log L;
  n_arccos := m_arccos L;
  n_arctan2 := m_arctan2 L;
  n_floor := b32_floor;
  n_max := b32_max;
  n_lt := Bltb
|}.
