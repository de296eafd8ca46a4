(** * Mutants4: wrong rotations, elements, transfer checks and propagation, and the properties that are
    false of them (see [Mutants]) *)
From Coq Require Import Reals Lra Lia Psatz ZArith List.
Import ListNotations.
From Verif Require Import Num NumR Spec SpecPath RLib Atan2 RotMat RotFacts OrbIntegrals OrbElements Uniformulas Lagrange KepEqu
  StateTrans PropKepler PathCheck OrbFacts ElemFacts ElemExamples PathFacts PathExamples KepState UFacts LoopFacts
  NumB32 LibmRef Mutants Mutants3.

Section Wrong.
  Context {T : Type} {N : Num T}.
  Local Open Scope num_scope.
  Definition m043_rotmat3dx (angle : T) : M3 T :=
    let c := n_cos angle in
    let s := n_sin angle in
    let z := #0 in
    let o := #1 in
    mk3 (mk3 o z z)
        (mk3 z c s)
        (mk3 z (- s) c).
  Definition m044_rotmat3dy (angle : T) : M3 T :=
    let c := n_cos angle in
    let s := n_sin angle in
    let z := #0 in
    let o := #1 in
    mk3 (mk3 c z (- s))
        (mk3 z o z)
        (mk3 (- s) z c).
  Definition m045_inclination (h_vec : V3 T) : T :=
    n_arccos (c1 h_vec / vector_norm h_vec).
  Definition m046_node_vec (h_vec : V3 T) : V3 T := vcross h_vec (mk3 #0 #0 #1).
  Definition m047_right_ascension (node_vec : V3 T) : T :=
    let raan := n_arctan2 (c0 node_vec) (c1 node_vec) in
    where_ (n_lt raan #0) (#2 * n_pi + raan) raan.
  Definition m048_right_ascension (node_vec : V3 T) : T :=
    let raan := n_arctan2 (c1 node_vec) (c0 node_vec) in
    where_ (n_lt raan #0) (n_pi + raan) raan.
  Definition m049_coe2rv (p e incl raan argp true_anom mu : T) : V3 T * V3 T :=
    let r_pf := vscale (p / (#1 + e * n_cos true_anom))
                  (mk3 (n_cos true_anom) (n_sin true_anom) #0) in
    let v_pf := vscale (n_sqrt (mu / p))
                  (mk3 (- n_sin true_anom) (n_cos true_anom) #0) in
    let rotmat := mmul (mmul (rotmat3dz raan) (rotmat3dx incl)) (rotmat3dz argp) in
    (mvec rotmat r_pf, mvec rotmat v_pf).
  Definition m050_coe2rv (p e incl raan argp true_anom mu : T) : V3 T * V3 T :=
    let r_pf := vscale (p / (#1 + e * n_cos true_anom))
                  (mk3 (n_cos true_anom) (n_sin true_anom) #0) in
    let v_pf := vscale (n_sqrt (mu / p))
                  (mk3 (- n_sin true_anom) (e + n_cos true_anom) #0) in
    let rotmat := mmul (mmul (rotmat3dz argp) (rotmat3dx incl)) (rotmat3dz raan) in
    (mvec rotmat r_pf, mvec rotmat v_pf).
  Definition m051_rv2coe (pos_vec vel_vec : V3 T) (mu : T) : coe :=
    let h_vec := angular_momentum pos_vec vel_vec in
    let h_mag := vector_norm h_vec in
    let e_vec := eccentricity_vector pos_vec vel_vec mu in
    let e_mag := vector_norm e_vec in
    let p := semiparameter h_mag mu in
    let incl := inclination h_vec in
    let N := node_vec h_vec in
    let raan := right_ascension N in
    let argp := argument_of_periapsis N e_vec in
    let true_anom := true_anomaly pos_vec e_vec in
    mkcoe p e_mag incl argp raan true_anom.
  Definition m058_nmax_by_periapsis (rp_min r1 r2 tof mu : T) : T :=
    let amin := n_dec 1 2 * (n_max r1 r2) in
    n_floor (tof / (#2 * n_pi) * n_sqrt (mu / amin ** 3)).
  Definition m059_is_short_way (r1 v1 r2 : V3 T) : bool :=
    n_gt (vinner (vcross r1 v1) (vcross r2 r1)) #0.
  Definition m060_pass_perigee (r1 v1 r2 : V3 T) (mu : T) : bool :=
    let e := eccentricity_vector r1 v1 mu in
    let b1 := n_gt (vinner (vcross r1 r2) (vcross e r1)) #0 in
    let b2 := n_gt (vinner (vcross r1 r2) (vcross e r2)) #0 in
    Bool.eqb (andb b1 b2) (is_short_way r1 v1 r2).
  Definition m061_rp_islower_rmin (rmin : T) (r v : V3 T) (mu : T) : bool :=
    let p := semiparameter (vector_norm (angular_momentum r v)) mu in
    let e := vector_norm (eccentricity_vector r v mu) in
    negb (n_lt rmin (radius_periapsis p e)).
  Definition m062_lagrange_prop (F G Ft Gt : T) (r0_vec v0_vec : V3 T) : V3 T * V3 T :=
    (vadd (vscale F r0_vec) (vscale G v0_vec),
     vadd (vscale Gt r0_vec) (vscale Ft v0_vec)).
  Definition m062_state_at_chi (chi alpha sigma0 r0 : T) (r0_vec v0_vec : V3 T) (mu : T)
    : V3 T * V3 T :=
    let F := lagrange_F (ufunc2 chi alpha) r0 in
    let G := lagrange_G (ufunc1 chi alpha) (ufunc2 chi alpha) sigma0 r0 mu in
    let r := equ_of_orb_uvi (ufunc0 chi alpha) (ufunc1 chi alpha) (ufunc2 chi alpha)
               r0 sigma0 in
    let Ft := lagrange_Ft (ufunc1 chi alpha) r r0 mu in
    let Gt := lagrange_Gt (ufunc2 chi alpha) r in
    m062_lagrange_prop F G Ft Gt r0_vec v0_vec.
  Definition m063_kepler (ts : list T) (r0_vec v0_vec : V3 T) (mu : T) : list (V3 T * V3 T) :=
    let r0 := vector_norm r0_vec in
    let v0 := vector_norm v0_vec in
    let alpha := alpha_of r0 v0 mu in
    let sigma0 := sigma_fn v0_vec v0_vec mu in
    let chi := vmap_solve_kepler_uni ts alpha r0 sigma0 mu in
    map (fun chi => state_at_chi chi alpha sigma0 r0 r0_vec v0_vec mu) chi.
  Definition m064_lane_body (alpha r0 sigma0 mu : T) (l : lane) : lane :=
    (fst l, uni_body #0 alpha r0 sigma0 mu (snd l)).
  Definition m064_vmap_solve_kepler_uni (ts : list T) (alpha r0 sigma0 mu : T) : list T :=
    match vwhile_fuel (loop_fuel uni_max_iter)
            (lane_cond alpha r0 sigma0 mu) (m064_lane_body alpha r0 sigma0 mu)
            (map (lane_init alpha mu) ts) with
    | Some ls => map lane_chi ls
    | None => map (fun t => uni_guess t alpha mu) ts
    end.
End Wrong.

Local Open Scope R_scope.

Lemma m043_C30_right_handed : ~ (forall (a : R) (u : vec),
  (let k := mk3 1 0 0 in row_col (m043_rotmat3dx a) u =
     vplus (vplus (smul (cos a) u) (smul (sin a) (cross k u))) (smul ((1 - cos a) * dot k u) k)) /\
  (let k := mk3 0 1 0 in row_col (rotmat3dy a) u =
     vplus (vplus (smul (cos a) u) (smul (sin a) (cross k u))) (smul ((1 - cos a) * dot k u) k)) /\
  (let k := mk3 0 0 1 in row_col (rotmat3dz a) u =
     vplus (vplus (smul (cos a) u) (smul (sin a) (cross k u))) (smul ((1 - cos a) * dot k u) k))).
Proof.
  intro H. destruct (H (PI / 2) (mk3 1 2 3)) as [A _]. cbv zeta in A. apply (f_equal c1) in A. revert A.
  unfold row_col, m043_rotmat3dx, vplus, smul, cross, dot. unnum. cbn. rewrite cos_PI2, sin_PI2. lra.
Qed.

Lemma m044_C30_right_handed : ~ (forall (a : R) (u : vec),
  (let k := mk3 1 0 0 in row_col (rotmat3dx a) u =
     vplus (vplus (smul (cos a) u) (smul (sin a) (cross k u))) (smul ((1 - cos a) * dot k u) k)) /\
  (let k := mk3 0 1 0 in row_col (m044_rotmat3dy a) u =
     vplus (vplus (smul (cos a) u) (smul (sin a) (cross k u))) (smul ((1 - cos a) * dot k u) k)) /\
  (let k := mk3 0 0 1 in row_col (rotmat3dz a) u =
     vplus (vplus (smul (cos a) u) (smul (sin a) (cross k u))) (smul ((1 - cos a) * dot k u) k))).
Proof.
  intro H. destruct (H (PI / 2) (mk3 1 2 3)) as (_ & A & _). cbv zeta in A. apply (f_equal c0) in A. revert A.
  unfold row_col, m044_rotmat3dy, vplus, smul, cross, dot. unnum. cbn. rewrite cos_PI2, sin_PI2. lra.
Qed.

Lemma m045_C34_inclination_defined : ~ (forall h : vec, h <> vzero ->
  -1 <= c2 h / vnorm h <= 1 /\ cos (m045_inclination h) * vnorm h = c2 h).
Proof.
  intro H. assert (Z : mk3 0 0 1 <> vzero) by (unfold vzero; intro K; injection K; lra).
  destruct (H (mk3 0 0 1) Z) as [_ A]. revert A. unfold m045_inclination. rewrite vector_norm_vnorm, ez_n. unnum. cbn.
  replace (0 / 1) with 0 by lra. rewrite acos_0, cos_PI2. lra.
Qed.

(** Before it was tightened, [C34_node_direction] took the node from the program, and was true of this one as well. *)
Lemma m046_C34_node_direction : ~ (forall h : vec, cross (mk3 0 0 1) h <> vzero ->
  let n := cross (mk3 0 0 1) h in let O := right_ascension (m046_node_vec h) in
  n = smul (vnorm n) (mk3 (cos O) (sin O) 0)).
Proof.
  intro H. assert (Z : cross (mk3 0 0 1) (mk3 0 (-1) 0) <> vzero) by (unfold vzero, cross; cbn; intro K; injection K; lra).
  specialize (H (mk3 0 (-1) 0) Z). cbv zeta in H.
  assert (V : vnorm (cross (mk3 0 0 1) (mk3 0 (-1) 0)) = 1) by (unfold vnorm; apply sqrt_is; unfold dot, cross; cbn; lra).
  rewrite V in H. pose proof PI_RGT_0.
  assert (R : right_ascension (m046_node_vec (mk3 0 (-1) 0)) = PI).
  { rewrite right_ascension_R. unfold m046_node_vec. rewrite vcross_cross. unnum.
    replace (c1 _) with (1 * sin PI) by (rewrite sin_PI; unfold cross; cbn; ring).
    replace (c0 _) with (1 * cos PI) by (rewrite cos_PI; unfold cross; cbn; ring).
    apply wrap_atan2; lra. }
  rewrite R, cos_PI in H. apply (f_equal c0) in H. unfold cross, smul in H. cbn in H. lra.
Qed.

Lemma m047_C34_node_direction : ~ (forall h : vec, cross (mk3 0 0 1) h <> vzero ->
  let n := cross (mk3 0 0 1) h in let O := m047_right_ascension (node_vec h) in
  n = smul (vnorm n) (mk3 (cos O) (sin O) 0)).
Proof.
  intro H. assert (Z : cross (mk3 0 0 1) (mk3 0 (-1) 0) <> vzero) by (unfold vzero, cross; cbn; intro K; injection K; lra).
  specialize (H (mk3 0 (-1) 0) Z). cbv zeta in H.
  assert (V : vnorm (cross (mk3 0 0 1) (mk3 0 (-1) 0)) = 1) by (unfold vnorm; apply sqrt_is; unfold dot, cross; cbn; lra).
  rewrite V in H. pose proof PI_RGT_0.
  assert (R : m047_right_ascension (node_vec (mk3 0 (-1) 0)) = PI / 2).
  { change (m047_right_ascension (node_vec (mk3 0 (-1) 0)))
      with (wrap (atan2 (c0 (node_vec (mk3 0 (-1) 0))) (c1 (node_vec (mk3 0 (-1) 0))))). rewrite node_vec_R.
    replace (c0 _) with (1 * sin (PI / 2)) by (rewrite sin_PI2; unfold cross, ez; cbn; ring).
    replace (c1 _) with (1 * cos (PI / 2)) by (rewrite cos_PI2; unfold cross, ez; cbn; ring).
    apply wrap_atan2; lra. }
  rewrite R, cos_PI2 in H. apply (f_equal c0) in H. unfold cross, smul in H. cbn in H. lra.
Qed.

Lemma m048_C34_node_direction : ~ (forall h : vec, cross (mk3 0 0 1) h <> vzero ->
  let n := cross (mk3 0 0 1) h in let O := m048_right_ascension (node_vec h) in
  n = smul (vnorm n) (mk3 (cos O) (sin O) 0)).
Proof.
  intro H. assert (Z : cross (mk3 0 0 1) (mk3 (-1) 0 0) <> vzero) by (unfold vzero, cross; cbn; intro K; injection K; lra).
  specialize (H (mk3 (-1) 0 0) Z). cbv zeta in H.
  assert (V : vnorm (cross (mk3 0 0 1) (mk3 (-1) 0 0)) = 1) by (unfold vnorm; apply sqrt_is; unfold dot, cross; cbn; lra).
  rewrite V in H. pose proof PI_RGT_0.
  assert (R : m048_right_ascension (node_vec (mk3 (-1) 0 0)) = PI / 2).
  { unfold m048_right_ascension. rewrite node_vec_R.
    change (n_arctan2 (c1 (cross ez (mk3 (-1) 0 0))) (c0 (cross ez (mk3 (-1) 0 0))))
      with (atan2 (c1 (cross ez (mk3 (-1) 0 0))) (c0 (cross ez (mk3 (-1) 0 0)))).
    replace (c1 _) with (1 * sin (- (PI / 2))) by (rewrite sin_neg, sin_PI2; unfold cross, ez; cbn; ring).
    replace (c0 _) with (1 * cos (- (PI / 2))) by (rewrite cos_neg, cos_PI2; unfold cross, ez; cbn; ring).
    rewrite atan2_polar by lra. unnum. off. lra. }
  rewrite R, sin_PI2 in H. apply (f_equal c1) in H. unfold cross, smul in H. cbn in H. lra.
Qed.

Lemma m049_C31_shape : ~ (forall (p e i O w f mu : R) (r v : vec),
  0 < p -> 0 <= e -> 0 < mu -> 0 < 1 + e * cos f -> m049_coe2rv p e i O w f mu = (r, v) ->
  vnorm r = p / (1 + e * cos f) /\
  dot r v / vnorm r = sqrt (mu / p) * e * sin f /\
  semiparameter (vnorm (cross r v)) mu = p /\
  vnorm (eccentricity_vector r v mu) = e).
Proof.
  intro H.
  destruct (H 1 (1 / 2) 0 0 0 (PI / 2) 1 _ _ ltac:(lra) ltac:(lra) ltac:(lra) ltac:(rewrite cos_PI2; lra) (surjective_pairing _)) as (A & B & _).
  rewrite A in B. destruct zero_xyz as (X & _ & Z).
  unfold m049_coe2rv in B. cbn [fst snd] in B. rewrite !mmul_mprod, X, Z, !mprod_ident_r in B. repeat rewrite mvec_row_col in B. repeat rewrite vscale_smul in B.
  revert B. unnum. rewrite cos_PI2, sin_PI2. replace (1 / 1) with 1 by lra. rewrite sqrt_1. munfold. unfold mvec, vscale, vmap3, vinner. unnum. cbn [c0 c1 c2]. lra.
Qed.

Lemma m050_C31_plane : ~ (forall (p e i O w f mu : R) (r v : vec),
  0 < p -> 0 <= e -> 0 < mu -> 0 < 1 + e * cos f -> m050_coe2rv p e i O w f mu = (r, v) ->
  cross r v = smul (sqrt (mu * p)) (mk3 (sin O * sin i) (- (cos O * sin i)) (cos i))).
Proof.
  intro H.
  specialize (H 1 0 (PI / 2) (PI / 2) 0 0 1 _ _ ltac:(lra) ltac:(lra) ltac:(lra) ltac:(lra) (surjective_pairing _)).
  destruct zero_xyz as (_ & _ & Z).
  assert (X : rotmat3dx (PI / 2) = mk3 (mk3 1 0 0) (mk3 0 0 (-1)) (mk3 0 1 0)).
  { unfold rotmat3dx. unnum. rewrite cos_PI2, sin_PI2. repeat f_equal; lra. }
  assert (Y : rotmat3dz (PI / 2) = mk3 (mk3 0 (-1) 0) (mk3 1 0 0) (mk3 0 0 1)).
  { unfold rotmat3dz. unnum. rewrite cos_PI2, sin_PI2. repeat f_equal; lra. }
  apply (f_equal c0) in H. unfold m050_coe2rv in H. cbn [fst snd] in H.
  rewrite !mmul_mprod, X, Y, Z, mprod_ident_l in H. repeat rewrite mvec_row_col in H. repeat rewrite vscale_smul in H. revert H. unnum.
  rewrite sin_0, cos_0, sin_PI2, cos_PI2. replace (1 / 1) with 1 by lra. replace (1 * 1) with 1 by lra. rewrite ?sqrt_1.
  munfold. unfold mvec, vscale, vmap3, vinner. unnum. cbn [c0 c1 c2]. lra.
Qed.

Lemma m051_C32_what_is_read : ~ (forall p e i O w f mu : R,
  0 < p -> 0 < e -> 0 < i < PI -> 0 <= O < 2 * PI -> 0 <= w < 2 * PI -> 0 <= f < 2 * PI ->
  0 < mu -> 0 < 1 + e * cos f ->
  (let x := coe2rv p e i O w f mu in m051_rv2coe (fst x) (snd x) mu)
  = mkcoe p e i O (Rmin w (2 * PI - w)) (Rmin f (2 * PI - f))).
Proof.
  intro H. pose proof PI_RGT_0. pose proof PI2_1.
  assert (C : 0 < 1 + 1 / 2 * cos (PI / 2)) by (rewrite cos_PI2; lra).
  specialize (H 1 (1 / 2) (PI / 2) 0 (PI / 2) (PI / 2) 1 ltac:(lra) ltac:(lra) ltac:(lra) ltac:(lra) ltac:(lra) ltac:(lra) ltac:(lra) C).
  pose proof (read_back_fold 1 (1 / 2) (PI / 2) 0 (PI / 2) (PI / 2) 1 ltac:(lra) ltac:(lra) ltac:(lra) ltac:(lra) ltac:(lra) ltac:(lra) ltac:(lra) C) as K.
  cbv zeta in H, K. apply (f_equal coe_raan) in H. apply (f_equal coe_argp) in K.
  pose proof (eq_trans (eq_sym K) H) as Q. cbn in Q. rewrite Rmin_left in Q by lra. lra.
Qed.

Lemma m058_C38_largest : ~ (forall rp r1 r2 tof mu : R, 0 < rp -> 0 < r1 -> 0 < r2 -> 0 < mu ->
  (exists k : Z, m058_nmax_by_periapsis rp r1 r2 tof mu = IZR k) /\
  forall n : Z, IZR n * (2 * PI * sqrt (((Rmax r1 r2 + rp) / 2) ^ 3 / mu)) <= tof <->
    IZR n <= m058_nmax_by_periapsis rp r1 r2 tof mu).
Proof.
  intro H. destruct (H 2 2 2 (2 * PI) 1 ltac:(lra) ltac:(lra) ltac:(lra) ltac:(lra)) as [_ A]. pose proof PI_RGT_0.
  assert (V : 1 <= m058_nmax_by_periapsis 2 2 2 (2 * PI) 1).
  { unfold m058_nmax_by_periapsis. unnum. apply (floorR_max _ 1). rewrite Rmax_left by lra.
    replace (2 * PI / (2 * PI)) with 1 by (field; lra). rewrite (sqrt_is _ 1) by lra. lra. }
  apply (A 1%Z) in V. rewrite Rmax_left in V by lra.
  assert (S : 1 < sqrt (((2 + 2) / 2) ^ 3 / 1)) by (rewrite <- sqrt_1 at 1; apply sqrt_lt_1; lra). nra.
Qed.

Lemma m059_C35_transfer_angle : ~ (forall (r1 v1 : vec) (rho t : R),
  cross r1 v1 <> vzero -> 0 < rho -> 0 <= t < 2 * PI ->
  (m059_is_short_way r1 v1 (turn (cross r1 v1) r1 rho t) = true <-> 0 < t < PI)).
Proof.
  intro H. pose proof PI_RGT_0.
  assert (Z : cross ex_ ey_ <> vzero) by (rewrite exy; unfold vzero; intro K; injection K; lra).
  destruct (H ex_ ey_ 1 (PI / 2) Z ltac:(lra) ltac:(lra)) as [_ A]. specialize (A ltac:(lra)). revert A.
  rewrite exy. unfold turn. rewrite ez_n, cos_PI2, sin_PI2. unfold m059_is_short_way. unnum. unfold vinner, vcross, vplus, smul, cross, ex_, ey_.
  unnum. cbn. off. discriminate.
Qed.

Lemma m060_C36_short_arcs : ~ (forall (r1 v1 r2 : vec) (mu f d rho1 rho2 : R),
  let h := cross r1 v1 in let e := eccentricity_vector r1 v1 mu in
  0 < mu -> h <> vzero -> e <> vzero -> 0 <= f < 2 * PI -> 0 < d < 2 * PI ->
  0 < rho1 -> 0 < rho2 -> r1 = turn h e rho1 f -> r2 = turn h e rho2 (f + d) ->
  d < PI ->
  (m060_pass_perigee r1 v1 r2 mu = true <-> exists phi, f < phi < f + d /\ cos phi = 1)).
Proof.
  intro H. pose proof PI_RGT_0. destruct pass_refuted as (A & B & C & _). cbv zeta in A, B, C.
  destruct (H qr qv (turn (cross qr qv) (eccentricity_vector qr qv 1) 1 (PI / 2 + PI / 4)) 1 (PI / 2) (PI / 4) 2 1 ltac:(lra) A B
    ltac:(lra) ltac:(lra) ltac:(lra) ltac:(lra) C eq_refl ltac:(lra)) as [D _].
  destruct D as (phi & P1 & P2).
  2:{ pose proof (cos_decreasing_1 0 phi ltac:(lra) ltac:(lra) ltac:(lra) ltac:(lra) ltac:(lra)). rewrite cos_0 in *. lra. }
  assert (Q1 : cross qr qv = mk3 0 0 1) by (unfold cross, qr, qv; cbn; f_equal; lra).
  assert (Q2 : eccentricity_vector qr qv 1 = mk3 (1 / 2) 0 0).
  { rewrite eccentricity_vector_R. replace (vnorm qr) with 1 by (symmetry; unfold vnorm; apply sqrt_is; unfold dot, qr; cbn; lra).
    unfold vminus, smul, cross, qr, qv. cbn. f_equal; lra. }
  assert (S : 0 < sin (PI / 4)) by (apply sin_gt_0; lra). assert (Cc : 0 < cos (PI / 4)) by (apply cos_gt_0; lra).
  rewrite Q1, Q2. unfold turn. rewrite ez_n, cos_plus, sin_plus, cos_PI2, sin_PI2.
  unfold m060_pass_perigee. rewrite Q2. unfold is_short_way, vinner, vcross, vplus, smul, cross, qr, qv. unnum. cbn.
  off; try reflexivity; exfalso; nra.
Qed.

Lemma m061_C37_conic : ~ (forall (r v : vec) (mu rmin : R), 0 < mu -> cross r v <> vzero ->
  (m061_rp_islower_rmin rmin r v mu = true <->
   exists q, dot q (cross r v) = 0 /\
     vnorm q = semiparameter (vnorm (cross r v)) mu - dot (eccentricity_vector r v mu) q /\
     vnorm q < rmin)).
Proof.
  intro H.
  assert (Z : cross ex_ ey_ <> vzero) by (rewrite exy; unfold vzero; intro K; injection K; lra).
  assert (E : eccentricity_vector ex_ ey_ 1 = vzero).
  { rewrite eccentricity_vector_R, ex_n. unfold vminus, smul, cross, ex_, ey_, vzero. cbn. f_equal; lra. }
  assert (E0 : vnorm vzero = 0) by (unfold vnorm; apply sqrt_is; unfold dot, vzero; cbn; lra).
  destruct (H ex_ ey_ 1 1 ltac:(lra) Z) as [A _]. rewrite E, exy, ez_n in A. destruct A as (q & _ & Q1 & Q2).
  - unfold m061_rp_islower_rmin. change (@vector_norm R Num_R) with vnorm. rewrite angular_momentum_R, E, exy, ez_n, E0, semiparameter_R, radius_periapsis_R.
    unnum. off. reflexivity.
  - rewrite semiparameter_R in Q1. unfold dot, vzero in Q1. cbn in Q1. lra.
Qed.

Lemma m062_C17_anomaly_recovered : ~ (forall (mu t chi : R) (r0 v0 r v : vec),
  0 < mu -> cross r0 v0 <> vzero ->
  let alpha := alpha_of (vnorm r0) (vnorm v0) mu in
  let sigma0 := sigma_fn r0 v0 mu in
  (r, v) = m062_state_at_chi chi alpha sigma0 (vnorm r0) r0 v0 mu ->
  generalized_anomaly alpha (sigma_fn r v mu) sigma0 t mu
  = chi - alpha * kepler_equ_uni chi alpha (vnorm r0) sigma0 t mu).
Proof.
  intro H.
  assert (Z : cross ex_ ey_ <> vzero) by (rewrite exy; unfold vzero; intro K; injection K; lra).
  specialize (H 1 0 0 ex_ ey_ _ _ ltac:(lra) Z (surjective_pairing _)). cbv zeta in H.
  assert (A : alpha_of (vnorm ex_) (vnorm ey_) 1 = 1) by (rewrite alpha_of_R, ex_n, ey_n; lra).
  rewrite A, ex_n in H. destruct (ufunc_zero 1) as (U0 & U1 & U2 & U3 & _).
  unfold m062_state_at_chi in H. cbn [fst snd] in H. unfold kepler_equ_uni in H. rewrite U0, U1, U2, U3 in H.
  revert H. unfold generalized_anomaly, sigma_fn, m062_lagrange_prop, lagrange_F, lagrange_G, lagrange_Ft, lagrange_Gt, equ_of_orb_uvi, vinner, vadd, vscale, ex_, ey_.
  unnum. cbn. rewrite sqrt_1. lra.
Qed.

Lemma m064_C21_solver : ~ (forall (T : Type) (N : Num T) (ts : list T) (alpha r0 sigma0 mu : T),
  m064_vmap_solve_kepler_uni ts alpha r0 sigma0 mu
  = map (fun t => solve_kepler_uni t alpha r0 sigma0 mu (n_dec 1 1000000) 50) ts)%num.
Proof.
  intro H. specialize (H b32 N1 [b1] (b32_dec 3 2) b1 (b32_dec 1 4) b1). cbn [map] in H.
  apply (f_equal (map (fun x => same x (@solve_kepler_uni _ N1 b1 (b32_dec 3 2) b1 (b32_dec 1 4) b1 (@n_dec _ N1 1 1000000) 50)))) in H.
  revert H. vm_compute. discriminate.
Qed.

(** m063: a circular orbit so slow that the guess always passes the test. *)

Lemma m063_C11_rows_conserve : ~ (forall (ts : list R) (r0 v0 : vec) (mu : R) (r v : vec),
  0 < mu -> cross r0 v0 <> vzero -> In (r, v) (m063_kepler ts r0 v0 mu) ->
  angular_momentum r v = angular_momentum r0 v0 /\
  eccentricity_vector r v mu = eccentricity_vector r0 v0 mu /\
  energy mu r v = energy mu r0 v0 /\
  semimajor_axis (vnorm r) (vnorm v) mu = semimajor_axis (vnorm r0) (vnorm v0) mu).
Proof.
  intro H. set (k := / 10000000). assert (K : 0 < k) by (unfold k; lra). pose proof PI_RGT_0.
  set (v0 := mk3 0 k 0). assert (KK : sqrt (k * k) = k) by (apply sqrt_is; lra).
  assert (V0 : vnorm v0 = k) by (unfold vnorm; apply sqrt_is; unfold dot, v0; cbn; lra).
  assert (Z : cross ex_ v0 <> vzero) by (unfold cross, ex_, v0, vzero; cbn; intro Q; injection Q; lra).
  assert (A : alpha_of (vnorm ex_) (vnorm v0) (k * k) = 1) by (rewrite alpha_of_R, ex_n, V0; field; lra).
  assert (S : sigma_fn v0 v0 (k * k) = k).
  { rewrite sigma_fn_R, KK. unfold dot, v0. cbn. field. lra. }
  assert (U : ufunc0 (PI / 2) 1 = 0 /\ ufunc1 (PI / 2) 1 = 1 /\ ufunc2 (PI / 2) 1 = 1 /\ ufunc3 (PI / 2) 1 = PI / 2 - 1).
  { unfold ufunc0, ufunc1, ufunc2, ufunc3. unnum. unfold ltb. destruct (Rlt_dec 0 1); [|lra].
    rewrite sqrt_1, Rmult_1_l, cos_PI2, sin_PI2. lra. }
  destruct U as (U0 & U1 & U2 & U3).
  assert (G : solve_kepler_uni (PI / 2 / k) 1 1 k (k * k) default_tol uni_max_iter = PI / 2).
  { destruct (uni_char (PI / 2 / k) 1 1 k (k * k) default_tol uni_max_iter) as (j & _ & E & L & _). cbv zeta in E, L.
    assert (G : uni_guess (PI / 2 / k) 1 (k * k) = PI / 2).
    { unfold uni_guess. unnum. rewrite KK, Rabs_R1. field. lra. }
    rewrite G in E, L. destruct j as [|j]; [exact E|]. exfalso. specialize (L O ltac:(lia)). cbn [iterate] in L.
    unfold kepler_equ_uni in L. rewrite U1, U2, U3 in L. revert L. unfold exceeds, default_tol. unnum. rewrite KK. unfold ltb.
    match goal with |- context [Rlt_dec ?a (Rabs ?b)] => replace b with k by (field; lra); destruct (Rlt_dec a (Rabs k)) as [L|L] end;
      [|discriminate]. rewrite Rabs_pos_eq in L by lra. unfold k in L. lra. }
  assert (R : m063_kepler [PI / 2 / k] ex_ v0 (k * k) = [state_at_chi (PI / 2) 1 k 1 ex_ v0 (k * k)]).
  { unfold m063_kepler. change (@vector_norm R Num_R) with vnorm. cbv zeta. rewrite A, S, ex_n, vmap_solve_eq. cbn [map]. rewrite G. reflexivity. }
  destruct (H [PI / 2 / k] ex_ v0 (k * k) (fst (state_at_chi (PI / 2) 1 k 1 ex_ v0 (k * k))) (snd (state_at_chi (PI / 2) 1 k 1 ex_ v0 (k * k)))
    ltac:(nra) Z) as (_ & _ & E & _).
  { rewrite R. left. now destruct (state_at_chi _ _ _ _ _ _ _). }
  unfold state_at_chi in E. rewrite U0, U1, U2 in E. rewrite lagrange_F_R, lagrange_G_R, lagrange_Ft_R, lagrange_Gt_R, equ_of_orb_uvi_R, KK in E.
  unfold energy, lagrange_prop in E. cbn [fst snd] in E. rewrite ex_n in E.
  assert (W : vnorm (vadd (vscale (1 - 1 / 1) ex_) (vscale ((1 * 1 + k * 1) / k) v0)) = 1 + k).
  { unfold vnorm. apply sqrt_is; [lra|]. unfold dot, vadd, vscale, ex_, v0. cbn. field. lra. }
  rewrite W in E. revert E. unfold dot, vadd, vscale, ex_, v0. cbn. intro E.
  apply Rminus_diag_eq in E. revert E. match goal with |- ?x = 0 -> _ => replace x with (k * k * (k * k) * / ((1 + k) * (1 + k))) by (field; lra) end.
  apply Rgt_not_eq, Rmult_lt_0_compat; [repeat apply Rmult_lt_0_compat; exact K|apply Rinv_0_lt_compat, Rmult_lt_0_compat; clear - K; lra].

Qed.
