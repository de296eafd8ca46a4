(** * NumD: dual numbers, the arithmetic of forward-mode differentiation

    [jax.jvp] and [jax.jacfwd] run a function on pairs of a value (the primal) and a derivative (the
    tangent); each primitive has a rule (jax/_src/lax: the [ad.defjvp] tables).  Here the pairs are over
    exact reals.  Constants have tangent 0; comparisons look at the values only, so [jax.lax.cond],
    [jnp.where] and the loop conditions choose by value.

    Simplifications: [x ** n] is differentiated through its multiplications rather than by the rule of
    [integer_pow] (the same number); [jnp.linalg.vector_norm] through square root and sum; where a rule
    divides by zero (square root at 0, arccos at 1, ...) jax returns inf or NaN and this instance returns
    what the division of [R] returns, so results are only used where no rule does so. *)
From Coq Require Import Reals ZArith List.
From Verif Require Import Num NumR.
Local Open Scope R_scope.

Record dual : Type := mkD { val : R; tang : R }.
Definition konst (x : R) : dual := mkD x 0.
Definition sgn (x : R) : R := if Rlt_dec x 0 then -1 else if Rlt_dec 0 x then 1 else 0.

Definition Num_D : Num dual := {|
  n_Z := fun z => konst (IZR z);
  n_dec := fun p q => konst (IZR p / IZR (Zpos q));
  n_pi := konst PI;
  n_add := fun a b => mkD (val a + val b) (tang a + tang b);
  n_sub := fun a b => mkD (val a - val b) (tang a - tang b);
  n_mul := fun a b => mkD (val a * val b) (tang a * val b + val a * tang b);
  n_div := fun a b => mkD (val a / val b) (tang a / val b - val a * tang b / (val b * val b));
  n_neg := fun a => mkD (- val a) (- tang a);
  n_abs := fun a => mkD (Rabs (val a)) (tang a * sgn (val a));
  n_sqrt := fun a => mkD (sqrt (val a)) (tang a / (2 * sqrt (val a)));
  n_cbrt := fun a => mkD (cbrt (val a)) (tang a / (3 * (cbrt (val a) * cbrt (val a))));
  n_sin := fun a => mkD (sin (val a)) (tang a * cos (val a));
  n_cos := fun a => mkD (cos (val a)) (- (tang a * sin (val a)));
  n_sinh := fun a => mkD (sinh (val a)) (tang a * cosh (val a));
  n_cosh := fun a => mkD (cosh (val a)) (tang a * sinh (val a));
  n_log := fun a => mkD (ln (val a)) (tang a / val a);
  n_arccos := fun a => mkD (acos (val a)) (- (tang a / sqrt (1 - val a * val a)));
  n_arctan2 := fun y x => mkD (atan2 (val y) (val x))
    ((tang y * val x - tang x * val y) / (val x * val x + val y * val y));
  n_floor := fun a => konst (floorR (val a));
  n_max := fun a b => mkD (Rmax (val a) (val b))
    (if Rlt_dec (val b) (val a) then tang a else if Rlt_dec (val a) (val b) then tang b else (tang a + tang b) / 2);
  n_lt := fun a b => ltb (val a) (val b)
|}.

(** A state and a direction, as one argument. *)
Definition vdual (x dx : V3 R) : V3 dual := vzip3 mkD x dx.
Definition vval (d : V3 dual) : V3 R := vmap3 val d.
Definition vtang (d : V3 dual) : V3 R := vmap3 tang d.
