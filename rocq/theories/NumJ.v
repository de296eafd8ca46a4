(** * NumJ: Python numbers and int32 and float32 arrays, mixed (jax without [jax_enable_x64]).

    The formulas of /repo/src/astrodynx do not convert their arguments, so a call may mix Python ints and floats
    with jax arrays.  Operations on two Python numbers are Python's (unbounded ints, binary64 floats, an exception
    when dividing by zero); an array makes the result an array, with jax's promotion: int32 with int32 or a Python
    int is int32 and wraps, everything else is float32; [/] and the functions of [jax.numpy] return float32.  A
    Python int outside the range of int32 cannot be turned into an array (OverflowError).

    Simplifications: [**] on Python floats is repeated multiplication (C's [pow] may differ in the last bit, and
    raises OverflowError where this gives an infinity); elements of an array are one number; [jnp.floor] returns a
    float; the branch of [where_] that is not taken is not evaluated, so no claim is made here about exceptions
    of functions that contain it.  float32 arithmetic is as in [NumB32], for any libm. *)
From Coq Require Import ZArith Reals List Bool.
From Flocq Require Import Core IEEE754.BinarySingleNaN.
From Verif Require Import Num NumB32 NumB64.
Local Open Scope Z_scope.

Inductive pyexc : Type := ZeroDivisionError | OverflowError.

Inductive val : Type :=
| PyI (z : Z)        (* Python int *)
| PyF (x : b64)      (* Python float *)
| I32 (z : Z)        (* int32 array; -2^31 <= z < 2^31 *)
| F32 (x : b32)      (* float32 array *)
| Exc (e : pyexc).

Definition wrap (z : Z) : Z := (z + 2 ^ 31) mod 2 ^ 32 - 2 ^ 31.
Definition fits (z : Z) : bool := (- 2 ^ 31 <=? z) && (z <? 2 ^ 31).

(** rounding of a binary64 number to binary32 *)
Definition to32 (x : b64) : b32 :=
  match x with
  | B754_zero s => B754_zero s
  | B754_infinity s => B754_infinity s
  | B754_nan => B754_nan
  | B754_finite s m e _ => binary_normalize 24 128 _ _ mode_NE (cond_Zopp s (Zpos m)) e s
  end.

(** what both operands become before an operation *)
Inductive pair : Type :=
| PZ (a b : Z) | PD (a b : b64) | PW (a b : Z) | PS (a b : b32) | PE (e : pyexc).

Definition meet (x y : val) : pair :=
  match x, y with
  | Exc e, _ => PE e
  | _, Exc e => PE e
  | PyI a, PyI b => PZ a b
  | PyI a, PyF b => PD (b64_Z a) b
  | PyF a, PyI b => PD a (b64_Z b)
  | PyF a, PyF b => PD a b
  | PyI a, I32 b => if fits a then PW a b else PE OverflowError
  | I32 a, PyI b => if fits b then PW a b else PE OverflowError
  | I32 a, I32 b => PW a b
  | PyI a, F32 b => if fits a then PS (b32_Z a) b else PE OverflowError
  | F32 a, PyI b => if fits b then PS a (b32_Z b) else PE OverflowError
  | I32 a, F32 b => PS (b32_Z a) b
  | F32 a, I32 b => PS a (b32_Z b)
  | PyF a, I32 b => PS (to32 a) (b32_Z b)
  | I32 a, PyF b => PS (b32_Z a) (to32 b)
  | PyF a, F32 b => PS (to32 a) b
  | F32 a, PyF b => PS a (to32 b)
  | F32 a, F32 b => PS a b
  end.

Definition ring_op (fz : Z -> Z -> Z) (fd : b64 -> b64 -> b64) (fs : b32 -> b32 -> b32) (x y : val) : val :=
  match meet x y with
  | PZ a b => PyI (fz a b)
  | PD a b => PyF (fd a b)
  | PW a b => I32 (wrap (fz a b))
  | PS a b => F32 (fs a b)
  | PE e => Exc e
  end.

Definition is_zero64 (x : b64) : bool := match x with B754_zero _ => true | _ => false end.

Definition j_div (x y : val) : val :=
  match meet x y with
  | PZ a b => if b =? 0 then Exc ZeroDivisionError else PyF (b64_div (b64_Z a) (b64_Z b))
  | PD a b => if is_zero64 b then Exc ZeroDivisionError else PyF (b64_div a b)
  | PW a b => F32 (b32_div (b32_Z a) (b32_Z b))
  | PS a b => F32 (b32_div a b)
  | PE e => Exc e
  end.

Definition j_neg (x : val) : val :=
  match x with
  | PyI z => PyI (- z)
  | PyF a => PyF (Bopp a)
  | I32 z => I32 (wrap (- z))
  | F32 a => F32 (Bopp a)
  | Exc e => Exc e
  end.

Definition j_abs (x : val) : val :=
  match x with
  | PyI z => if fits z then I32 (wrap (Z.abs z)) else Exc OverflowError
  | PyF a => F32 (Babs (to32 a))
  | I32 z => I32 (wrap (Z.abs z))
  | F32 a => F32 (Babs a)
  | Exc e => Exc e
  end.

(** a function of jax.numpy that returns floats *)
Definition j_fun (f : b32 -> b32) (x : val) : val :=
  match x with
  | PyI z => if fits z then F32 (f (b32_Z z)) else Exc OverflowError
  | PyF a => F32 (f (to32 a))
  | I32 z => F32 (f (b32_Z z))
  | F32 a => F32 (f a)
  | Exc e => Exc e
  end.

Definition j_fun2 (f : b32 -> b32 -> b32) (x y : val) : val :=
  match meet x y with
  | PZ a b => if fits a && fits b then F32 (f (b32_Z a) (b32_Z b)) else Exc OverflowError
  | PD a b => F32 (f (to32 a) (to32 b))
  | PW a b => F32 (f (b32_Z a) (b32_Z b))
  | PS a b => F32 (f a b)
  | PE e => Exc e
  end.

Definition j_max (x y : val) : val :=
  match meet x y with
  | PZ a b => if fits a && fits b then I32 (Z.max a b) else Exc OverflowError
  | PD a b => F32 (b32_max (to32 a) (to32 b))
  | PW a b => I32 (Z.max a b)
  | PS a b => F32 (b32_max a b)
  | PE e => Exc e
  end.

Definition j_lt (x y : val) : bool :=
  match meet x y with
  | PZ a b => a <? b
  | PD a b => Bltb a b
  | PW a b => a <? b
  | PS a b => Bltb a b
  | PE _ => false
  end.

Definition Num_J (L : libm) : Num val := {|
  n_Z := PyI;
  n_dec := fun p q => PyF (b64_dec p q);
  n_pi := PyF b64_pi;
  n_add := ring_op Z.add b64_add b32_add;
  n_sub := ring_op Z.sub b64_sub b32_sub;
  n_mul := ring_op Z.mul b64_mul b32_mul;
  n_div := j_div;
  n_neg := j_neg;
  n_abs := j_abs;
  n_sqrt := j_fun b32_sqrt;
  n_cbrt := j_fun (m_cbrt L);
  n_sin := j_fun (m_sin L);
  n_cos := j_fun (m_cos L);
  n_sinh := j_fun (m_sinh L);
  n_cosh := j_fun (m_cosh L);
  n_log := j_fun (m_log L);
  n_arccos := j_fun (m_arccos L);
  n_arctan2 := j_fun2 (m_arctan2 L);
  n_floor := j_fun b32_floor;
  n_max := j_max;
  n_lt := j_lt
|}.
