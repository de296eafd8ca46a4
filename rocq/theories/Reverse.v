(** * Reverse: the propagator and the solvers under [jax.grad], [jax.vjp] and [jax.jacrev]

    The three Newton solvers are [jax.lax.while_loop]s (_kep_equ.py:396, 447, 518).  jax has no backward pass
    for [while_loop]: when a cotangent has to go through one, it raises [ValueError] ("Reverse-mode
    differentiation does not work for lax.while_loop", jax/_src/lax/control_flow/loops.py,
    [_while_transpose_error]).  A cotangent has to go
    through the loop exactly when the carried value depends on a differentiated input; jax decides that without
    running the loop, from the initial value and from what one pass through the body adds.  Here it is read off
    the nodes: the loop has no backward pass ([None]) if the value after one pass ([once]) or the
    returned value is [live].

    What is assumed about [.item()] is as in [Trace]: on the tracers of reverse mode it returns the value,
    and the dependence on the inputs is lost. *)
From Coq Require Import ZArith List Bool Reals.
Import ListNotations.
From Verif Require Import Num OrbIntegrals Uniformulas KepEqu StateTrans PropKepler NumV.

(** [.item()] in reverse mode *)
Definition item_V (a : node) : node := constant (nval a).
(** a [while_loop] in reverse mode: the carried value after one pass and at the end; [None] is the exception *)
Definition looped (once last : node) : option node := if live once || live last then None else Some last.
Definition carried (s : loop_state (T := node)) : node := snd (fst s).

(** [jax.vjp] of _kep_equ.py:348-397, 400-448 and 451-519 with constant [tol] *)
Definition vjp_solve_elps (M e : node) (tol : R) (max_iter : Z) : option node :=
  looped (carried (@elps_body _ Num_V M e (@elps_init _ Num_V M e (constant tol))))
    (@solve_kepler_elps _ Num_V M e (constant tol) max_iter).
Definition vjp_solve_hypb (Nm e : node) (tol : R) (max_iter : Z) : option node :=
  looped (carried (@hypb_body _ Num_V Nm e (@hypb_init _ Num_V Nm e (constant tol))))
    (@solve_kepler_hypb _ Num_V Nm e (constant tol) max_iter).
Definition vjp_solve_uni (deltat alpha r0 sigma0 mu : node) (tol : R) (max_iter : Z) : option node :=
  looped (carried (@uni_body _ Num_V deltat alpha r0 sigma0 mu (@uni_init _ Num_V deltat alpha mu (constant tol))))
    (@solve_kepler_uni _ Num_V deltat alpha r0 sigma0 mu (constant tol) max_iter).

(** [jax.vjp] of _kepler.py:94-122.  All lanes of the mapped solver are one loop. *)
Definition vjp_kepler (ts : list node) (r0_vec v0_vec : V3 node) (mu : node) : option (list (V3 node * V3 node)) :=
  let r0 := @vector_norm _ Num_V r0_vec in
  let v0 := @vector_norm _ Num_V v0_vec in
  let alpha := @alpha_of _ Num_V r0 v0 mu in
  let sigma0 := @sigma_fn _ Num_V r0_vec v0_vec mu in
  let chi := @vmap_solve_kepler_uni _ Num_V ts (item_V alpha) (item_V r0) (item_V sigma0) mu in
  let once := map (fun t => lane_chi (@lane_body _ Num_V (item_V alpha) (item_V r0) (item_V sigma0) mu
                               (@lane_init _ Num_V (item_V alpha) mu t))) ts in
  if existsb live once || existsb live chi then None
  else Some (map (fun chi => @state_at_chi _ Num_V chi alpha sigma0 r0 r0_vec v0_vec mu) chi).
