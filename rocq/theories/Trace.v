(** * Trace: what jax's transformations do to [kepler]

    /repo/src/astrodynx/prop/_kepler.py:99-101 converts [alpha], [r0] and [sigma0] to Python floats with
    [.item()] before calling the mapped solver.  [PropKepler.kepler] treats [.item()] as the identity;
    here it is an explicit operation, which may fail, so that the transformations documented in
    /repo/docs/basics.rst:166 ([jax.vmap] over states), :190 ([jax.jacfwd]) and :201 ([jax.jit]) can be told apart.

    What is assumed about jax (>= 0.7.0, /repo/pyproject.toml; [Array.item] is
    [concrete_or_error(np.asarray, self)]):
    - on an array with a known value [.item()] returns the value;
    - on the tracers of [jax.jit] and [jax.vmap] it raises [ConcretizationTypeError];
    - while [jax.jit] traces, the result of every operation is a tracer, known operands or not;
    - under [jax.vmap] an operation with no mapped operand is carried out at once;
    - on the tracer of [jax.jvp]/[jax.jacfwd] it returns the value and the derivative is lost.
    Comparisons stay decidable on tracers here, because [jax.lax.cond] and [jax.lax.while_loop] accept them. *)
From Coq Require Import ZArith List Bool Reals.
Import ListNotations.
From Verif Require Import Num NumR OrbIntegrals Uniformulas Lagrange KepEqu StateTrans PropKepler NumD.

Section Items.
  Context {T : Type} {N : Num T}.
  (** _kepler.py:94-122 with [.item()] made explicit; [None] is the exception. *)
  Definition kepler_items (item : T -> option T) (ts : list T) (r0_vec v0_vec : V3 T) (mu : T)
    : option (list (V3 T * V3 T)) :=
    let r0 := vector_norm r0_vec in
    let v0 := vector_norm v0_vec in
    let alpha := alpha_of r0 v0 mu in
    let sigma0 := sigma_fn r0_vec v0_vec mu in
    match item alpha, item r0, item sigma0 with
    | Some alpha', Some r0', Some sigma0' =>
        Some (map (fun chi => state_at_chi chi alpha sigma0 r0 r0_vec v0_vec mu)
                (vmap_solve_kepler_uni ts alpha' r0' sigma0' mu))
    | _, _, _ => None
    end.
End Items.

(** A value seen by Python while a transformation traces: the number it stands for, and whether the number
    is known at that moment. *)
Record traced (T : Type) : Type := mkT { number : T; known : bool }.
Arguments mkT {T} _ _.
Arguments number {T} _.
Arguments known {T} _.

Section Traced.
  Context {T : Type} {N : Num T}.
  (** [jit]: inside [jax.jit]. *)
  Context (jit : bool).
  Definition op1 (f : T -> T) (a : traced T) : traced T := mkT (f (number a)) (negb jit && known a).
  Definition op2 (f : T -> T -> T) (a b : traced T) : traced T :=
    mkT (f (number a) (number b)) (negb jit && (known a && known b)).
  Definition Num_T : Num (traced T) := {|
    n_Z := fun z => mkT (n_Z z) true;
    n_dec := fun p q => mkT (n_dec p q) true;
    n_pi := mkT n_pi true;
    n_add := op2 n_add; n_sub := op2 n_sub; n_mul := op2 n_mul; n_div := op2 n_div;
    n_neg := op1 n_neg; n_abs := op1 n_abs; n_sqrt := op1 n_sqrt; n_cbrt := op1 n_cbrt;
    n_sin := op1 n_sin; n_cos := op1 n_cos; n_sinh := op1 n_sinh; n_cosh := op1 n_cosh;
    n_log := op1 n_log; n_arccos := op1 n_arccos; n_arctan2 := op2 n_arctan2;
    n_floor := op1 n_floor; n_max := op2 n_max;
    n_lt := fun a b => n_lt (number a) (number b)
  |}.
  Definition item_T (a : traced T) : option (traced T) := if known a then Some a else None.
  Definition vnumber (a : V3 (traced T)) : V3 T := vmap3 number a.
  Definition vknown (a : V3 (traced T)) : bool := known (c0 a) && known (c1 a) && known (c2 a).
End Traced.

(** [.item()] under [jax.jvp]: the value, without the derivative. *)
Definition item_D (d : dual) : option dual := Some (konst (val d)).
