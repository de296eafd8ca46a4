(** * Model of /repo/src/astrodynx/twobody/_state_trans.py *)
From Coq Require Import ZArith.
From Verif Require Import Num OrbIntegrals Uniformulas Lagrange KepEqu.
Local Open Scope num_scope.

Section StateTrans.
  Context {T : Type} {N : Num T}.

  (* _state_trans.py:12-43 *)
  Definition C_func (chi U2 U4 U5 deltat mu : T) : T :=
    (#3 * U5 - chi * U4 - n_sqrt mu * deltat * U2) / n_sqrt mu.

  (* _state_trans.py:46-89 *)
  Definition prpr0 (r_vec v_vec r0_vec v0_vec : V3 T) (F C mu : T) : M3 T :=
    let r0_mag := vector_norm r0_vec in
    madd (madd (madd
      (mscale (vector_norm r_vec / mu) (outer (vsub v_vec v0_vec) (vsub v_vec v0_vec)))
      (mscale (#1 - F) (outer (vdivs r_vec r0_mag) (vdivs r0_vec r0_mag))))
      (mscale (C / r0_mag ** 2) (outer v_vec (vdivs r0_vec r0_mag))))
      (mscale F eye3).

  (* _state_trans.py:92-137 *)
  Definition prpv0 (r_vec v_vec r0_vec v0_vec : V3 T) (F G C mu : T) : M3 T :=
    madd (madd
      (mscale (vector_norm r0_vec / mu * (#1 - F))
         (msub (outer (vsub r_vec r0_vec) v0_vec) (outer (vsub v_vec v0_vec) r0_vec)))
      (mscale (C / mu) (outer v_vec v0_vec)))
      (mscale G eye3).

  (* _state_trans.py:140-196; [/ mu @ ...] parses as [(... / mu) @ (...)] *)
  Definition pvpr0 (r_vec v_vec r0_vec v0_vec : V3 T) (Ft C mu : T) : M3 T :=
    let r0_mag := vector_norm r0_vec in
    let r_mag := vector_norm r_vec in
    msub (madd (msub
      (mneg (outer (vsub v_vec v0_vec) (vdivs r0_vec (r0_mag ** 2))))
      (outer (vdivs r_vec (r_mag ** 2)) (vsub v_vec v0_vec)))
      (mscale Ft
        (madd (msub eye3 (outer (vdivs r_vec r_mag) (vdivs r_vec r_mag)))
              (mmul (mdivs (msub (outer r_vec v_vec) (outer v_vec r_vec)) mu)
                    (outer (vdivs r_vec r_mag) (vsub v_vec v0_vec))))))
      (mscale (mu / r_mag ** 2 * C / r0_mag ** 2)
         (outer (vdivs r_vec r_mag) (vdivs r0_vec r0_mag))).

  (* _state_trans.py:199-240 *)
  Definition pvpv0 (r_vec v_vec r0_vec v0_vec : V3 T) (F Gt C mu : T) : M3 T :=
    let r0_mag := vector_norm r0_vec in
    let r_mag := vector_norm r_vec in
    madd (msub (madd
      (mscale (r0_mag / mu) (outer (vsub v_vec v0_vec) (vsub v_vec v0_vec)))
      (mdivs (vmap3 (fun row => vmap3 (fun x => x * r0_mag) row)
                (mscale (#1 - F) (outer (vdivs r_vec r_mag) (vdivs r0_vec r_mag)))) r_mag))
      (mscale (C / r_mag ** 2) (outer (vdivs r_vec r_mag) v0_vec)))
      (mscale Gt eye3).

  (** The 6x6 [jnp.block] as its four 3x3 blocks. *)
  Record M6 : Type := mkM6 { b_rr : M3 T; b_rv : M3 T; b_vr : M3 T; b_vv : M3 T }.

  (** [alpha = 1.0 / adx.semimajor_axis(r0_mag, vector_norm(v0_vec), mu)],
      _state_trans.py:299 (and _kepler.py:96). *)
  Definition alpha_of (r0_mag v0_mag mu : T) : T :=
    n_dec 1 1 / semimajor_axis r0_mag v0_mag mu.

  (* _state_trans.py:243-327 *)
  Definition dxdx0 (r_vec v_vec r0_vec v0_vec : V3 T) (deltat mu : T) : M6 :=
    let r0_mag := vector_norm r0_vec in
    let r_mag := vector_norm r_vec in
    let alpha := alpha_of r0_mag (vector_norm v0_vec) mu in
    let chi := generalized_anomaly alpha (sigma_fn r_vec v_vec mu)
                 (sigma_fn r0_vec v0_vec mu) deltat mu in
    let C := C_func chi (ufunc2 chi alpha) (ufunc4 chi alpha) (ufunc5 chi alpha)
               deltat mu in
    let F := lagrange_F (ufunc2 chi alpha) r0_mag in
    let G := lagrange_G (ufunc1 chi alpha) (ufunc2 chi alpha)
               (sigma_fn r0_vec v0_vec mu) r0_mag mu in
    let Ft := lagrange_Ft (ufunc1 chi alpha) r_mag r0_mag mu in
    let Gt := lagrange_Gt (ufunc2 chi alpha) r_mag in
    mkM6 (prpr0 r_vec v_vec r0_vec v0_vec F C mu)
         (prpv0 r_vec v_vec r0_vec v0_vec F G C mu)
         (pvpr0 r_vec v_vec r0_vec v0_vec Ft C mu)
         (pvpv0 r_vec v_vec r0_vec v0_vec F Gt C mu).
End StateTrans.
