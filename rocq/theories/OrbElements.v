(** * Model of /repo/src/astrodynx/twobody/_orb_elements.py (one row of a batch;
    [keepdims]/[squeeze]/[expand_dims] only move unit axes and are dropped) *)
From Coq Require Import ZArith.
From Verif Require Import Num OrbIntegrals RotMat.
Local Open Scope num_scope.

Section OrbElements.
  Context {T : Type} {N : Num T}.

  (* _orb_elements.py:13-29 *)
  Definition inclination (h_vec : V3 T) : T :=
    n_arccos (c2 h_vec / vector_norm h_vec).

  (* _orb_elements.py:32-56 *)
  Definition true_anomaly (pos_vec e_vec : V3 T) : T :=
    let true_anom := n_arctan2 (vector_norm (vcross e_vec pos_vec)) (vinner e_vec pos_vec) in
    where_ (n_lt true_anom #0) (#2 * n_pi + true_anom) true_anom.

  (* _orb_elements.py:59-60 *)
  Definition node_vec (h_vec : V3 T) : V3 T := vcross (mk3 #0 #0 #1) h_vec.

  (* _orb_elements.py:63-80 *)
  Definition right_ascension (node_vec : V3 T) : T :=
    let raan := n_arctan2 (c1 node_vec) (c0 node_vec) in
    where_ (n_lt raan #0) (#2 * n_pi + raan) raan.

  (* _orb_elements.py:83-104 *)
  Definition argument_of_periapsis (node_vec e_vec : V3 T) : T :=
    let argp := n_arctan2 (vector_norm (vcross node_vec e_vec)) (vinner node_vec e_vec) in
    where_ (n_lt argp #0) (#2 * n_pi + argp) argp.

  (** The 6-tuple returned by [rv2coe]. *)
  Record coe : Type := mkcoe {
    coe_p : T; coe_e : T; coe_incl : T; coe_raan : T; coe_argp : T; coe_f : T }.

  (* _orb_elements.py:107-181 *)
  Definition rv2coe (pos_vec vel_vec : V3 T) (mu : T) : coe :=
    let h_vec := angular_momentum pos_vec vel_vec in
    let h_mag := vector_norm h_vec in
    let e_vec := eccentricity_vector pos_vec vel_vec mu in
    let e_mag := vector_norm e_vec in
    let p := semiparameter h_mag mu in
    let incl := inclination h_vec in
    let N := node_vec h_vec in
    let raan := right_ascension N in
    let argp := argument_of_periapsis N e_vec in
    let true_anom := true_anomaly pos_vec e_vec in
    mkcoe p e_mag incl raan argp true_anom.

  (* _orb_elements.py:184-269 *)
  Definition coe2rv (p e incl raan argp true_anom mu : T) : V3 T * V3 T :=
    let r_pf := vscale (p / (#1 + e * n_cos true_anom))
                  (mk3 (n_cos true_anom) (n_sin true_anom) #0) in
    let v_pf := vscale (n_sqrt (mu / p))
                  (mk3 (- n_sin true_anom) (e + n_cos true_anom) #0) in
    let rotmat := mmul (mmul (rotmat3dz raan) (rotmat3dx incl)) (rotmat3dz argp) in
    (mvec rotmat r_pf, mvec rotmat v_pf).
End OrbElements.
