(** * NdModel: the array versions of the functions of /repo/src/astrodynx

    Written operation by operation as in the source, on whole arrays.  The purely elementwise
    functions need no definition here: their array version is the definition of the other model files
    at the instance [Num_nd]. *)
From Coq Require Import ZArith List Bool Arith.
Import ListNotations.
From Verif Require Import Num Nd OrbIntegrals Uniformulas Lagrange KepEqu StateTrans PropKepler.
Local Open Scope num_scope.

Section NdModel.
  Context {T : Type} {N : Num T}.
  Local Instance Num_arrays : Num (nd T) := Num_nd.

  (** ** twobody/_orb_integrals.py *)
  (* :86-125 *)
  Definition angular_momentum_nd (pos_vec vel_vec : nd T) : nd T := cross_nd pos_vec vel_vec.
  (* :172-219 *)
  Definition eccentricity_vector_nd (pos_vec vel_vec mu : nd T) : nd T :=
    let h := angular_momentum_nd pos_vec vel_vec in
    cross_nd vel_vec h / mu - pos_vec / norm_last pos_vec.

  (** ** twobody/_uniformulas.py *)
  (* :9-50 *)
  Definition sigma_fn_nd (pos_vec vel_vec mu : nd T) : nd T :=
    sum_last (pos_vec * vel_vec) / n_sqrt mu.
  (* :53-102 *)
  Definition ufunc0_nd (chi alpha : nd T) : nd T :=
    lax_cond (nd_lt #0 alpha)
      (n_cos (n_sqrt alpha * chi))
      (lax_cond (nd_lt alpha #0)
        (n_cosh (n_sqrt (- alpha) * chi))
        (full_like (n_Z 1) chi)).
  (* :105-154 *)
  Definition ufunc1_nd (chi alpha : nd T) : nd T :=
    lax_cond (nd_lt #0 alpha)
      (n_sin (n_sqrt alpha * chi) / n_sqrt alpha)
      (lax_cond (nd_lt alpha #0)
        (n_sinh (n_sqrt (- alpha) * chi) / n_sqrt (- alpha))
        chi).
  (* :157-206 *)
  Definition ufunc2_nd (chi alpha : nd T) : nd T :=
    lax_cond (nd_lt #0 alpha)
      ((#1 - n_cos (n_sqrt alpha * chi)) / alpha)
      (lax_cond (nd_lt alpha #0)
        ((n_cosh (n_sqrt (- alpha) * chi) - #1) / (- alpha))
        (chi ** 2 / #2)).
  (* :209-262 *)
  Definition ufunc3_nd (chi alpha : nd T) : nd T :=
    lax_cond (nd_lt #0 alpha)
      ((n_sqrt alpha * chi - n_sin (n_sqrt alpha * chi)) / alpha / n_sqrt alpha)
      (lax_cond (nd_lt alpha #0)
        ((n_sqrt (- alpha) * chi - n_sinh (n_sqrt (- alpha) * chi)) / alpha / n_sqrt (- alpha))
        (chi ** 3 / #6)).
  (* :265-316 *)
  Definition ufunc4_nd (chi alpha : nd T) : nd T :=
    lax_cond (nd_lt #0 alpha)
      ((alpha * chi ** 2 - #2 + #2 * n_cos (n_sqrt alpha * chi)) / (#2 * alpha ** 2))
      (lax_cond (nd_lt alpha #0)
        ((alpha * chi ** 2 - #2 + #2 * n_cosh (n_sqrt (- alpha) * chi)) / (#2 * alpha ** 2))
        (chi ** 4 / #24)).
  (* :319-378 *)
  Definition ufunc5_nd (chi alpha : nd T) : nd T :=
    lax_cond (nd_lt #0 alpha)
      ((alpha ** 2 * chi ** 3 - #6 * alpha * chi
          + #6 * n_sqrt alpha * n_sin (n_sqrt alpha * chi)) / (#6 * alpha ** 3))
      (lax_cond (nd_lt alpha #0)
        ((alpha ** 2 * chi ** 3 - #6 * alpha * chi
            - #6 * n_sqrt (- alpha) * n_sinh (n_sqrt (- alpha) * chi)) / (#6 * alpha ** 3))
        (chi ** 5 / #120)).

  (** ** twobody/_kep_equ.py *)
  (* :223-284 *)
  Definition kepler_equ_uni_nd (chi alpha r0 sigma0 deltat mu : nd T) : nd T :=
    r0 * ufunc1_nd chi alpha + sigma0 * ufunc2_nd chi alpha + ufunc3_nd chi alpha
      - n_sqrt mu * deltat.
  (* :287-290 *)
  Definition dchi_nd (chi alpha r0 sigma0 : nd T) : nd T :=
    equ_of_orb_uvi (ufunc0_nd chi alpha) (ufunc1_nd chi alpha) (ufunc2_nd chi alpha) r0 sigma0.

  (** ** utils/_rot_mat.py *)
  (* :6-60 *)
  Definition rotmat3dx_nd (angle : nd T) : nd T :=
    let c := n_cos angle in
    let s := n_sin angle in
    let z := full_like (n_Z 0) angle in
    let o := full_like (n_Z 1) angle in
    stack3_2 (stack3 o z z) (stack3 z c (- s)) (stack3 z s c).
  (* :63-117 *)
  Definition rotmat3dy_nd (angle : nd T) : nd T :=
    let c := n_cos angle in
    let s := n_sin angle in
    let z := full_like (n_Z 0) angle in
    let o := full_like (n_Z 1) angle in
    stack3_2 (stack3 c z s) (stack3 z o z) (stack3 (- s) z c).
  (* :120-174 *)
  Definition rotmat3dz_nd (angle : nd T) : nd T :=
    let c := n_cos angle in
    let s := n_sin angle in
    let z := full_like (n_Z 0) angle in
    let o := full_like (n_Z 1) angle in
    stack3_2 (stack3 c (- s) z) (stack3 s c z) (stack3 z z o).

  (** ** twobody/_orb_elements.py *)
  (* :13-29 *)
  Definition inclination_nd (h_vec : nd T) : nd T :=
    n_arccos (slice_last 2 h_vec / norm_last h_vec).
  (* :32-56 *)
  Definition true_anomaly_nd (pos_vec e_vec : nd T) : nd T :=
    let true_anom := n_arctan2 (norm_last (cross_nd e_vec pos_vec)) (sum_last (e_vec * pos_vec)) in
    nd_where (nd_lt true_anom #0) (#2 * n_pi + true_anom) true_anom.
  (* :59-60; the integer entries are converted by the arithmetic *)
  Definition unit_z : nd T :=
    Some (mkArr [3] (fun i => sel3 (hd 0 i) (n_Z 0) (n_Z 0) (n_Z 1))).
  Definition node_vec_nd (h_vec : nd T) : nd T := cross_nd unit_z h_vec.
  (* :63-80 *)
  Definition right_ascension_nd (node_vec : nd T) : nd T :=
    let raan := n_arctan2 (slice_last 1 node_vec) (slice_last 0 node_vec) in
    nd_where (nd_lt raan #0) (#2 * n_pi + raan) raan.
  (* :83-104 *)
  Definition argument_of_periapsis_nd (node_vec e_vec : nd T) : nd T :=
    let argp := n_arctan2 (norm_last (cross_nd node_vec e_vec)) (sum_last (node_vec * e_vec)) in
    nd_where (nd_lt argp #0) (#2 * n_pi + argp) argp.

  Record coe_nd : Type := mkcoe_nd {
    nd_p : arr T; nd_e : arr T; nd_incl : arr T; nd_raan : arr T; nd_argp : arr T; nd_f : arr T }.
  (* :107-181 *)
  Definition rv2coe_nd (pos_vec vel_vec mu : nd T) : option coe_nd :=
    let h_vec := angular_momentum_nd pos_vec vel_vec in
    let h_mag := norm_last h_vec in
    let e_vec := eccentricity_vector_nd pos_vec vel_vec mu in
    let e_mag := norm_last e_vec in
    let p := semiparameter h_mag mu in
    let incl := inclination_nd h_vec in
    let Nv := node_vec_nd h_vec in
    let raan := right_ascension_nd Nv in
    let argp := argument_of_periapsis_nd Nv e_vec in
    let true_anom := true_anomaly_nd pos_vec e_vec in
    let? p' := squeeze_last p in let? e' := squeeze_last e_mag in let? i' := squeeze_last incl in
    let? O' := squeeze_last raan in let? w' := squeeze_last argp in let? f' := squeeze_last true_anom in
    Some (mkcoe_nd p' e' i' O' w' f').
  (* :184-269 *)
  Definition coe2rv_nd (p e incl raan argp true_anom mu : nd T) : option (arr T * arr T) :=
    let r_pf := expand_last (p / (#1 + e * n_cos true_anom))
                * stack3 (n_cos true_anom) (n_sin true_anom) (full_like (n_Z 0) true_anom) in
    let v_pf := expand_last (n_sqrt (mu / p))
                * stack3 (- n_sin true_anom) (e + n_cos true_anom) (full_like (n_Z 0) true_anom) in
    let rotmat := matmul (matmul (rotmat3dz_nd raan) (rotmat3dx_nd incl)) (rotmat3dz_nd argp) in
    let r_ijk := matmul rotmat (expand_last r_pf) in
    let v_ijk := matmul rotmat (expand_last v_pf) in
    let? r := squeeze_last r_ijk in let? v := squeeze_last v_ijk in Some (r, v).

  (** ** prop/_kepler.py *)
  (** [jnp.linalg.vector_norm(x)] without an axis: the norm of all elements, whatever the shape; [cells s]
      lists the indices of an array with axes [s] (last numpy axis first, running fastest). *)
  Fixpoint cells (s : list nat) : list (list nat) :=
    match s with
    | [] => [[]]
    | n :: s' => flat_map (fun j => map (fun k => k :: j) (seq 0 n)) (cells s')
    end.
  Definition norm_all (x : nd T) : nd T :=
    let? a := x in
    let js := cells (dims a) in
    scalar (n_sqrt (sum_n (fun k => at_ a (nth k js []) * at_ a (nth k js [])) (length js))).
  (** [x.item()]: the only element of an array of size 1. *)
  Definition item (x : nd T) : option T :=
    let? a := x in
    if fold_right Nat.mul 1%nat (dims a) =? 1 then Some (at_ a (map (fun _ => 0%nat) (dims a))) else None.
  (** [jnp.atleast_1d(x)] *)
  Definition atleast_1d (x : nd T) : nd T :=
    let? a := x in
    match dims a with [] => Some (mkArr [1%nat] (fun _ => at_ a [])) | _ => Some a end.
  (** [jax.vmap(solve_kepler_uni, in_axes=(0, None, None, None, None))(ts, ...)]: the lanes are the
      slices along the outermost axis; the loop condition must be a scalar in each lane, so the lanes
      and [mu] are scalars. *)
  Definition vmap_solve_nd (ts : nd T) (alpha r0 sigma0 : T) (mu : nd T) : nd T :=
    let? a := ts in let? m := mu in
    match dims a, dims m with
    | [n], [] => let chi := vmap_solve_kepler_uni (map (fun k => at_ a [k]) (seq 0 n)) alpha r0 sigma0 (at_ m []) in
                 Some (mkArr [n] (fun i => nth (hd 0%nat i) chi (n_Z 0)))
    | _, _ => None
    end.
  (** [F[:, jnp.newaxis]] on a one-axis array. *)
  Definition newaxis (x : nd T) : nd T :=
    let? a := x in match dims a with [n] => expand_last x | _ => None end.
  (* :11-46, :49-122 *)
  Definition kepler_nd (ts r0_vec v0_vec mu : nd T) : option (arr T * arr T) :=
    let r0 := norm_all r0_vec in
    let v0 := norm_all v0_vec in
    let alpha := n_dec 1 1 / semimajor_axis r0 v0 mu in
    let sigma0 := sigma_fn_nd r0_vec v0_vec mu in
    let? alpha_ := item alpha in let? r0_ := item r0 in let? sigma0_ := item sigma0 in
    let chi := vmap_solve_nd (atleast_1d ts) alpha_ r0_ sigma0_ mu in
    let F := lagrange_F (ufunc2_nd chi alpha) r0 in
    let G := lagrange_G (ufunc1_nd chi alpha) (ufunc2_nd chi alpha) sigma0 r0 mu in
    let r := equ_of_orb_uvi (ufunc0_nd chi alpha) (ufunc1_nd chi alpha) (ufunc2_nd chi alpha) r0 sigma0 in
    let Ft := lagrange_Ft (ufunc1_nd chi alpha) r r0 mu in
    let Gt := lagrange_Gt (ufunc2_nd chi alpha) r in
    let? rr := newaxis F * r0_vec + newaxis G * v0_vec in
    let? vv := newaxis Ft * r0_vec + newaxis Gt * v0_vec in
    Some (rr, vv).

  (** ** twobody/_state_trans.py *)
  (** [jnp.outer(x, y)].  Simplification: one axis each. *)
  Definition outer_nd (x y : nd T) : nd T :=
    let? a := x in let? b := y in
    match dims a, dims b with
    | [m], [n] => Some (mkArr [n; m] (fun i => at_ a [hd 0%nat (tl i)] * at_ b [hd 0%nat i]))
    | _, _ => None
    end.
  Definition eye_nd : nd T :=
    Some (mkArr [3; 3] (fun i => if hd 0 i =? hd 0 (tl i) then n_Z 1 else n_Z 0)%nat).
  (* :46-89 *)
  Definition prpr0_nd (r_vec v_vec r0_vec v0_vec F C mu : nd T) : nd T :=
    let r0_mag := norm_all r0_vec in
    norm_all r_vec / mu * outer_nd (v_vec - v0_vec) (v_vec - v0_vec)
    + (#1 - F) * outer_nd (r_vec / r0_mag) (r0_vec / r0_mag)
    + C / r0_mag ** 2 * outer_nd v_vec (r0_vec / r0_mag)
    + F * eye_nd.
  (* :92-137 *)
  Definition prpv0_nd (r_vec v_vec r0_vec v0_vec F G C mu : nd T) : nd T :=
    norm_all r0_vec / mu * (#1 - F)
      * (outer_nd (r_vec - r0_vec) v0_vec - outer_nd (v_vec - v0_vec) r0_vec)
    + C / mu * outer_nd v_vec v0_vec
    + G * eye_nd.
  (* :140-196 *)
  Definition pvpr0_nd (r_vec v_vec r0_vec v0_vec Ft C mu : nd T) : nd T :=
    let r0_mag := norm_all r0_vec in
    let r_mag := norm_all r_vec in
    - outer_nd (v_vec - v0_vec) (r0_vec / r0_mag ** 2)
    - outer_nd (r_vec / r_mag ** 2) (v_vec - v0_vec)
    + Ft * (eye_nd - outer_nd (r_vec / r_mag) (r_vec / r_mag)
            + matmul ((outer_nd r_vec v_vec - outer_nd v_vec r_vec) / mu)
                     (outer_nd (r_vec / r_mag) (v_vec - v0_vec)))
    - mu / r_mag ** 2 * C / r0_mag ** 2 * outer_nd (r_vec / r_mag) (r0_vec / r0_mag).
  (* :199-240 *)
  Definition pvpv0_nd (r_vec v_vec r0_vec v0_vec F Gt C mu : nd T) : nd T :=
    let r0_mag := norm_all r0_vec in
    let r_mag := norm_all r_vec in
    r0_mag / mu * outer_nd (v_vec - v0_vec) (v_vec - v0_vec)
    + (#1 - F) * outer_nd (r_vec / r_mag) (r0_vec / r_mag) * r0_mag / r_mag
    - C / r_mag ** 2 * outer_nd (r_vec / r_mag) v0_vec
    + Gt * eye_nd.
  (** [jnp.block([[A, B], [C, D]])] of four 3x3 arrays. *)
  Definition block_nd (x y z w : nd T) : nd T :=
    let? a := x in let? b := y in let? c := z in let? d := w in
    if same_dims (dims a) [3; 3] && same_dims (dims b) [3; 3] && same_dims (dims c) [3; 3] && same_dims (dims d) [3; 3]
    then Some (mkArr [6; 6] (fun i =>
           let col := hd 0 i in let row := hd 0 (tl i) in
           let blk := if row <? 3 then (if col <? 3 then a else b) else (if col <? 3 then c else d) in
           at_ blk [col mod 3; row mod 3]))%nat
    else None.
  (* :243-327 *)
  Definition dxdx0_nd (r_vec v_vec r0_vec v0_vec deltat mu : nd T) : nd T :=
    let r0_mag := norm_all r0_vec in
    let r_mag := norm_all r_vec in
    let alpha := n_dec 1 1 / semimajor_axis r0_mag (norm_all v0_vec) mu in
    let chi := generalized_anomaly alpha (sigma_fn_nd r_vec v_vec mu) (sigma_fn_nd r0_vec v0_vec mu) deltat mu in
    let C := C_func chi (ufunc2_nd chi alpha) (ufunc4_nd chi alpha) (ufunc5_nd chi alpha) deltat mu in
    let F := lagrange_F (ufunc2_nd chi alpha) r0_mag in
    let G := lagrange_G (ufunc1_nd chi alpha) (ufunc2_nd chi alpha) (sigma_fn_nd r0_vec v0_vec mu) r0_mag mu in
    let Ft := lagrange_Ft (ufunc1_nd chi alpha) r_mag r0_mag mu in
    let Gt := lagrange_Gt (ufunc2_nd chi alpha) r_mag in
    block_nd (prpr0_nd r_vec v_vec r0_vec v0_vec F C mu) (prpv0_nd r_vec v_vec r0_vec v0_vec F G C mu)
             (pvpr0_nd r_vec v_vec r0_vec v0_vec Ft C mu) (pvpv0_nd r_vec v_vec r0_vec v0_vec F Gt C mu).

  (** ** The Newton loops of twobody/_kep_equ.py called on arrays *)
  (** [jax.lax.while_loop] with carry (int, x, x_prev): the condition must be a scalar and the body
      must return a carry of the same shapes. *)
  Definition loop_accepts (x0 : nd T) (test : nd T -> nd T -> nd bool) (prev : nd T) (step : nd T -> nd T) : bool :=
    match x0, prev, test x0 prev, step x0 with
    | Some a, Some b, Some c, Some d =>
        same_dims (dims c) [] && same_dims (dims d) (dims a) && same_dims (dims a) (dims b)
    | _, _, _, _ => false
    end.
  (* :382-397 *)
  Definition elps_accepts (M e tol : nd T) : bool :=
    let E0 := elps_guess M e in
    loop_accepts E0 (fun E E_prev => nd_lt tol (n_abs (E - E_prev))) (E0 + #2 * tol)
      (fun E => E - (E - e * n_sin E - M) / dE E e).
  (* :434-448 *)
  Definition hypb_accepts (Nm e tol : nd T) : bool :=
    let H0 := hypb_guess Nm e in
    loop_accepts H0 (fun H _ => nd_lt tol (n_abs (kepler_equ_hypb H e Nm))) (H0 + #2 * tol)
      (fun H => H - kepler_equ_hypb H e Nm / dH H e).
  (* :501-519 *)
  Definition uni_accepts (deltat alpha r0 sigma0 mu tol : nd T) : bool :=
    let chi0 := uni_guess deltat alpha mu in
    loop_accepts chi0 (fun chi _ => nd_lt tol (n_abs (kepler_equ_uni_nd chi alpha r0 sigma0 deltat mu))) (chi0 + #2 * tol)
      (fun chi => chi - kepler_equ_uni_nd chi alpha r0 sigma0 deltat mu / dchi_nd chi alpha r0 sigma0).
End NdModel.
