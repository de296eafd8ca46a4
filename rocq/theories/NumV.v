(** * NumV: values with their pullbacks, the arithmetic of reverse-mode differentiation

    [jax.grad] and [jax.vjp] run a function forwards, recording the values, and then carry cotangents
    backwards: each primitive turns the cotangent of its result into cotangents of its operands
    (jax/_src/lax: the transposes of the [ad.defjvp] tables), and the cotangents arriving at an input are
    added.  A [node] is a value together with the backward pass from it: [back r ct i] is what a cotangent
    [ct] at the node contributes to the [i]-th input.  Here everything is over exact reals.  [live] says
    whether the value depends on an input that is being differentiated.

    Simplifications as in [NumD]: [x ** n] is differentiated through its multiplications; where a rule
    divides by zero this instance returns what the division of [R] returns.  [jax.lax.cond] and [jnp.where]
    choose by value; the branch not taken gets no cotangent. *)
From Coq Require Import Reals ZArith List Bool.
From Verif Require Import Num NumR NumD.
Local Open Scope R_scope.

Record node : Type := mkN { nval : R; back : R -> nat -> R; live : bool }.
Definition constant (x : R) : node := mkN x (fun _ _ => 0) false.
(** the [i]-th of the differentiated inputs *)
Definition input (i : nat) (x : R) : node := mkN x (fun ct j => if Nat.eqb i j then ct else 0) true.

(** a primitive with one operand: value, and the factor of the cotangent *)
Definition unary (f df : R -> R) (a : node) : node :=
  mkN (f (nval a)) (fun ct => back a (ct * df (nval a))) (live a).
Definition binary (f da db : R -> R -> R) (a b : node) : node :=
  mkN (f (nval a) (nval b))
    (fun ct i => back a (ct * da (nval a) (nval b)) i + back b (ct * db (nval a) (nval b)) i) (live a || live b).

Definition Num_V : Num node := {|
  n_Z := fun z => constant (IZR z);
  n_dec := fun p q => constant (IZR p / IZR (Zpos q));
  n_pi := constant PI;
  n_add := binary Rplus (fun _ _ => 1) (fun _ _ => 1);
  n_sub := binary Rminus (fun _ _ => 1) (fun _ _ => -1);
  n_mul := binary Rmult (fun _ b => b) (fun a _ => a);
  n_div := binary Rdiv (fun _ b => / b) (fun a b => - (a / (b * b)));
  n_neg := unary Ropp (fun _ => -1);
  n_abs := unary Rabs sgn;
  n_sqrt := unary sqrt (fun a => / (2 * sqrt a));
  n_cbrt := unary cbrt (fun a => / (3 * (cbrt a * cbrt a)));
  n_sin := unary sin cos;
  n_cos := unary cos (fun a => - sin a);
  n_sinh := unary sinh cosh;
  n_cosh := unary cosh sinh;
  n_log := unary ln Rinv;
  n_arccos := unary acos (fun a => - / sqrt (1 - a * a));
  n_arctan2 := binary atan2 (fun y x => x / (x * x + y * y)) (fun y x => - (y / (x * x + y * y)));
  n_floor := fun a => constant (floorR (nval a));
  n_max := binary Rmax (fun a b => if Rlt_dec b a then 1 else if Rlt_dec a b then 0 else / 2)
    (fun a b => if Rlt_dec b a then 0 else if Rlt_dec a b then 1 else / 2);
  n_lt := fun a b => ltb (nval a) (nval b)
|}.
Definition vnval (d : V3 node) : V3 R := vmap3 nval d.
