(** * Model of /repo/src/astrodynx/prop/_kepler.py *)
From Coq Require Import ZArith List.
Import ListNotations.
From Verif Require Import Num OrbIntegrals Uniformulas Lagrange KepEqu StateTrans.
Local Open Scope num_scope.

Section PropKepler.
  Context {T : Type} {N : Num T}.

  (* _kepler.py:11-46 *)
  Definition lagrange_prop (F G Ft Gt : T) (r0_vec v0_vec : V3 T) : V3 T * V3 T :=
    (vadd (vscale F r0_vec) (vscale G v0_vec),
     vadd (vscale Ft r0_vec) (vscale Gt v0_vec)).

  (** One lane of [jax.vmap(solve_kepler_uni, in_axes=(0, None, None, None, None))]:
      the lane's [deltat] together with the loop carry; [tol] and [max_iter] take
      their defaults.  _kepler.py:99-101. *)
  Definition lane : Type := (T * loop_state (T := T))%type.
  Definition lane_cond (alpha r0 sigma0 mu : T) (l : lane) : bool :=
    uni_cond (fst l) alpha r0 sigma0 mu default_tol uni_max_iter (snd l).
  Definition lane_body (alpha r0 sigma0 mu : T) (l : lane) : lane :=
    (fst l, uni_body (fst l) alpha r0 sigma0 mu (snd l)).
  Definition lane_init (alpha mu : T) (deltat : T) : lane :=
    (deltat, uni_init deltat alpha mu default_tol).
  Definition lane_chi (l : lane) : T := snd (fst (snd l)).

  (* _kepler.py:99-101; the [None] branch is unreachable (kepler_batch_independent) *)
  Definition vmap_solve_kepler_uni (ts : list T) (alpha r0 sigma0 mu : T) : list T :=
    match vwhile_fuel (loop_fuel uni_max_iter)
            (lane_cond alpha r0 sigma0 mu) (lane_body alpha r0 sigma0 mu)
            (map (lane_init alpha mu) ts) with
    | Some ls => map lane_chi ls
    | None => map (fun t => uni_guess t alpha mu) ts
    end.

  (** What [kepler] returns for one element of [chi], _kepler.py:102-122. *)
  Definition state_at_chi (chi alpha sigma0 r0 : T) (r0_vec v0_vec : V3 T) (mu : T)
    : V3 T * V3 T :=
    let F := lagrange_F (ufunc2 chi alpha) r0 in
    let G := lagrange_G (ufunc1 chi alpha) (ufunc2 chi alpha) sigma0 r0 mu in
    let r := equ_of_orb_uvi (ufunc0 chi alpha) (ufunc1 chi alpha) (ufunc2 chi alpha)
               r0 sigma0 in
    let Ft := lagrange_Ft (ufunc1 chi alpha) r r0 mu in
    let Gt := lagrange_Gt (ufunc2 chi alpha) r in
    lagrange_prop F G Ft Gt r0_vec v0_vec.

  (** [kepler(ts, r0_vec, v0_vec, mu)], _kepler.py:49-122.  [ts] is the list of
      times after [jnp.atleast_1d]; the result is the list of rows of the two
      (n,3) arrays.  [.item()] is the identity on values. *)
  Definition kepler (ts : list T) (r0_vec v0_vec : V3 T) (mu : T) : list (V3 T * V3 T) :=
    let r0 := vector_norm r0_vec in
    let v0 := vector_norm v0_vec in
    let alpha := alpha_of r0 v0 mu in
    let sigma0 := sigma_fn r0_vec v0_vec mu in
    let chi := vmap_solve_kepler_uni ts alpha r0 sigma0 mu in
    map (fun chi => state_at_chi chi alpha sigma0 r0 r0_vec v0_vec mu) chi.
End PropKepler.
