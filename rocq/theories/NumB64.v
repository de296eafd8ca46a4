(** * NumB64: the model in IEEE-754 double precision, for an arbitrary libm.

    The notebooks under /repo/docs/examples and the benchmarks switch jax to
    float64 with [jax_enable_x64]; the library then computes in this format.
    Same construction and same simplifications as [NumB32]: every operation is
    rounded separately, transcendental functions are fields of [libm64] over which
    every theorem is quantified, and a decimal literal [p/q] is the rounded
    quotient of [p] and [q] (exact, being below 2^53). *)
From Coq Require Import ZArith Reals List.
From Flocq Require Import Core IEEE754.BinarySingleNaN.
From Verif Require Import Num.

Definition b64 : Type := binary_float 53 1024.

#[global] Instance prec53 : Prec_gt_0 53 := eq_refl.
#[global] Instance max1024 : Prec_lt_emax 53 1024 := eq_refl.

(** The functions IEEE-754 leaves to the implementation. *)
Record libm64 : Type := {
  d_cbrt : b64 -> b64;
  d_sin : b64 -> b64;
  d_cos : b64 -> b64;
  d_sinh : b64 -> b64;
  d_cosh : b64 -> b64;
  d_log : b64 -> b64;
  d_arccos : b64 -> b64;
  d_arctan2 : b64 -> b64 -> b64
}.

Definition b64_Z (z : Z) : b64 := binary_normalize 53 1024 _ _ mode_NE z 0 false.
Definition b64_add : b64 -> b64 -> b64 := Bplus mode_NE.
Definition b64_sub : b64 -> b64 -> b64 := Bminus mode_NE.
Definition b64_mul : b64 -> b64 -> b64 := Bmult mode_NE.
Definition b64_div : b64 -> b64 -> b64 := Bdiv mode_NE.
Definition b64_sqrt : b64 -> b64 := Bsqrt mode_NE.
Definition b64_floor : b64 -> b64 := Bnearbyint mode_DN.
Definition b64_dec (p : Z) (q : positive) : b64 := b64_div (b64_Z p) (b64_Z (Zpos q)).
(** float64 nearest to pi: 884279719003555 * 2^-48 *)
Definition b64_pi : b64 := b64_div (b64_Z 884279719003555) (b64_Z 281474976710656).
(** [jnp.maximum] propagates NaN *)
Definition b64_max (x y : b64) : b64 :=
  if is_nan x then x else if is_nan y then y else if Bltb x y then y else x.

Definition Num_B64 (L : libm64) : Num b64 := {|
  n_Z := b64_Z;
  n_dec := b64_dec;
  n_pi := b64_pi;
  n_add := b64_add;
  n_sub := b64_sub;
  n_mul := b64_mul;
  n_div := b64_div;
  n_neg := Bopp;
  n_abs := Babs;
  n_sqrt := b64_sqrt;
  n_cbrt := d_cbrt L;
  n_sin := d_sin L;
  n_cos := d_cos L;
  n_sinh := d_sinh L;
  n_cosh := d_cosh L;
  n_log := d_log L;
  n_arccos := d_arccos L;
  n_arctan2 := d_arctan2 L;
  n_floor := b64_floor;
  n_max := b64_max;
  n_lt := Bltb
|}.
