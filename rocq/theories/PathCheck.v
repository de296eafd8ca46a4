(** * Model of /repo/src/astrodynx/twobody/_path_check.py *)
From Coq Require Import ZArith Bool.
From Verif Require Import Num OrbIntegrals.
Local Open Scope num_scope.

Section PathCheck.
  Context {T : Type} {N : Num T}.

  (* _path_check.py:8-55 *)
  Definition nmax_by_periapsis (rp_min r1 r2 tof mu : T) : T :=
    let amin := n_dec 1 2 * (n_max r1 r2 + rp_min) in
    n_floor (tof / (#2 * n_pi) * n_sqrt (mu / amin ** 3)).

  (* _path_check.py:58-86 *)
  Definition is_short_way (r1 v1 r2 : V3 T) : bool :=
    n_gt (vinner (vcross r1 v1) (vcross r1 r2)) #0.

  (* _path_check.py:89-133 *)
  Definition pass_perigee (r1 v1 r2 : V3 T) (mu : T) : bool :=
    let e := eccentricity_vector r1 v1 mu in
    let b1 := n_gt (vinner (vcross r1 r2) (vcross r1 e)) #0 in
    let b2 := n_gt (vinner (vcross r1 r2) (vcross e r2)) #0 in
    Bool.eqb (andb b1 b2) (is_short_way r1 v1 r2).

  (* _path_check.py:136-163 *)
  Definition rp_islower_rmin (rmin : T) (r v : V3 T) (mu : T) : bool :=
    let p := semiparameter (vector_norm (angular_momentum r v)) mu in
    let e := vector_norm (eccentricity_vector r v mu) in
    n_lt (radius_periapsis p e) rmin.
End PathCheck.
