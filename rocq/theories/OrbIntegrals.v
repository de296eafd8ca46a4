(** * Model of /repo/src/astrodynx/twobody/_orb_integrals.py *)
From Coq Require Import ZArith.
From Verif Require Import Num.
Local Open Scope num_scope.

Section OrbIntegrals.
  Context {T : Type} {N : Num T}.

  (* _orb_integrals.py:8-46  [2 * jnp.pi * jnp.sqrt(a**3 / mu)] *)
  Definition orb_period (a mu : T) : T :=
    #2 * n_pi * n_sqrt (a ** 3 / mu).

  (* _orb_integrals.py:49-83  [jnp.cbrt(orbperiod**2 * mu / 4 / jnp.pi**2)] *)
  Definition a_from_period (orbperiod mu : T) : T :=
    n_cbrt (orbperiod ** 2 * mu / #4 / n_pi ** 2).

  (* _orb_integrals.py:86-125  [jnp.cross(pos_vec, vel_vec)]; one row of a batch *)
  Definition angular_momentum (pos_vec vel_vec : V3 T) : V3 T :=
    vcross pos_vec vel_vec.

  (* _orb_integrals.py:128-169  [1 / (2 / r_mag - v_mag**2 / mu)] *)
  Definition semimajor_axis (r_mag v_mag mu : T) : T :=
    #1 / (#2 / r_mag - v_mag ** 2 / mu).

  (* _orb_integrals.py:172-219; one row of a batch, [mu] the row's scalar *)
  Definition eccentricity_vector (pos_vec vel_vec : V3 T) (mu : T) : V3 T :=
    let h := angular_momentum pos_vec vel_vec in
    vsub (vdivs (vcross vel_vec h) mu) (vdivs pos_vec (vector_norm pos_vec)).

  (* _orb_integrals.py:222-260  [h_mag**2 / mu] *)
  Definition semiparameter (h_mag mu : T) : T := h_mag ** 2 / mu.

  (* _orb_integrals.py:263-298  [2 * jnp.pi / P] *)
  Definition mean_motion (P : T) : T := #2 * n_pi / P.

  (* _orb_integrals.py:301-342  [p / (1 + e * jnp.cos(f))] *)
  Definition equ_of_orbit (p e f : T) : T := p / (#1 + e * n_cos f).

  (* _orb_integrals.py:345-393  [r0 * U0 + sigma0 * U1 + U2] *)
  Definition equ_of_orb_uvi (U0 U1 U2 r0 sigma0 : T) : T :=
    r0 * U0 + sigma0 * U1 + U2.

  (* _orb_integrals.py:396-434  [p / (1 + e)] *)
  Definition radius_periapsis (p e : T) : T := p / (#1 + e).

  (* _orb_integrals.py:437-475  [p / (1 - e)] *)
  Definition radius_apoapsis (p e : T) : T := p / (#1 - e).

  (* _orb_integrals.py:478-516  [a * (1 - e**2)] *)
  Definition semipara_from_ae (a e : T) : T := a * (#1 - e ** 2).

  (* _orb_integrals.py:519-557  [p / (1 - e**2)] *)
  Definition a_from_pe (p e : T) : T := p / (#1 - e ** 2).
End OrbIntegrals.
