(** * Properties C30-C34: rotation matrices and classical orbital elements

    Theorems only; proofs are in [RotFacts], [ElemFacts], [ElemExamples].  Exact real arithmetic. *)
From Coq Require Import Reals Lra.
From Verif Require Import Num NumR Spec RLib RotMat RotFacts OrbIntegrals OrbFacts OrbElements ElemFacts ElemExamples.
Local Open Scope R_scope.

(** ** C30: right-handed rotation about the axis k (Rodrigues' formula) *)
Theorem C30_right_handed : forall (a : R) (u : vec),
  (let k := mk3 1 0 0 in row_col (rotmat3dx a) u =
     vplus (vplus (smul (cos a) u) (smul (sin a) (cross k u))) (smul ((1 - cos a) * dot k u) k)) /\
  (let k := mk3 0 1 0 in row_col (rotmat3dy a) u =
     vplus (vplus (smul (cos a) u) (smul (sin a) (cross k u))) (smul ((1 - cos a) * dot k u) k)) /\
  (let k := mk3 0 0 1 in row_col (rotmat3dz a) u =
     vplus (vplus (smul (cos a) u) (smul (sin a) (cross k u))) (smul ((1 - cos a) * dot k u) k)).
Proof. intros a u. exact (conj (rodrigues_x a u) (conj (rodrigues_y a u) (rodrigues_z a u))). Qed.
Print Assumptions C30_right_handed.

Theorem C30_rotation : forall a : R,
  rotation (rotmat3dx a) /\ rotation (rotmat3dy a) /\ rotation (rotmat3dz a).
Proof. intros a. exact (conj (rot_x a) (conj (rot_y a) (rot_z a))). Qed.
Print Assumptions C30_rotation.

Theorem C30_angles_add : forall a b : R,
  mprod (rotmat3dx a) (rotmat3dx b) = rotmat3dx (a + b) /\
  mprod (rotmat3dy a) (rotmat3dy b) = rotmat3dy (a + b) /\
  mprod (rotmat3dz a) (rotmat3dz b) = rotmat3dz (a + b).
Proof. intros a b. exact (conj (add_x a b) (conj (add_y a b) (add_z a b))). Qed.
Print Assumptions C30_angles_add.

Theorem C30_inverse : forall a : R,
  rotmat3dx (- a) = trans (rotmat3dx a) /\ rotmat3dy (- a) = trans (rotmat3dy a) /\
  rotmat3dz (- a) = trans (rotmat3dz a) /\
  rotmat3dx 0 = ident /\ rotmat3dy 0 = ident /\ rotmat3dz 0 = ident.
Proof. intros a. exact (conj (neg_x a) (conj (neg_y a) (conj (neg_z a) zero_xyz))). Qed.
Print Assumptions C30_inverse.

Theorem C30_periodic : forall a : R,
  rotmat3dx (a + 2 * PI) = rotmat3dx a /\ rotmat3dy (a + 2 * PI) = rotmat3dy a /\
  rotmat3dz (a + 2 * PI) = rotmat3dz a.
Proof. intros a. exact (conj (period_x a) (conj (period_y a) (period_z a))). Qed.
Print Assumptions C30_periodic.

Example C30_example :
  row_col (rotmat3dx (PI / 2)) (mk3 1 2 3) = mk3 1 (-3) 2 /\
  row_col (rotmat3dy (PI / 2)) (mk3 1 2 3) = mk3 3 2 (-1) /\
  row_col (rotmat3dz (PI / 2)) (mk3 1 2 3) = mk3 (-2) 1 3.
Proof. exact quarter_turns. Qed.

(** ** C31 *)
Theorem C31_shape : forall (p e i O w f mu : R) (r v : vec),
  0 < p -> 0 <= e -> 0 < mu -> 0 < 1 + e * cos f -> coe2rv p e i O w f mu = (r, v) ->
  vnorm r = p / (1 + e * cos f) /\
  dot r v / vnorm r = sqrt (mu / p) * e * sin f /\
  semiparameter (vnorm (cross r v)) mu = p /\
  vnorm (eccentricity_vector r v mu) = e.
Proof.
  intros p e i O w f mu r v Hp He Hm Hf E.
  exact (conj (coe_r p e i O w f mu Hp He Hm Hf r v E)
        (conj (coe_vr p e i O w f mu Hp He Hm Hf r v E)
        (conj (coe_p_ok p e i O w f mu Hp He Hm Hf r v E)
              (coe_ecc p e i O w f mu Hp He Hm Hf r v E)))).
Qed.
Print Assumptions C31_shape.

(** Angular momentum: size sqrt(mu p), tilted by [i] about the node line at longitude [O]. *)
Theorem C31_plane : forall (p e i O w f mu : R) (r v : vec),
  0 < p -> 0 <= e -> 0 < mu -> 0 < 1 + e * cos f -> coe2rv p e i O w f mu = (r, v) ->
  cross r v = smul (sqrt (mu * p)) (mk3 (sin O * sin i) (- (cos O * sin i)) (cos i)).
Proof.
  intros p e i O w f mu r v Hp He Hm Hf E. exact (coe_h p e i O w f mu Hp He Hm Hf r v E).
Qed.
Print Assumptions C31_plane.

(** Position at argument of latitude [w + f]. *)
Theorem C31_position : forall (p e i O w f mu : R) (r v : vec),
  0 < p -> 0 <= e -> 0 < mu -> 0 < 1 + e * cos f -> coe2rv p e i O w f mu = (r, v) ->
  r = smul (p / (1 + e * cos f))
    (mk3 (cos O * cos (w + f) - sin O * sin (w + f) * cos i)
         (sin O * cos (w + f) + cos O * sin (w + f) * cos i)
         (sin (w + f) * sin i)).
Proof.
  intros p e i O w f mu r v Hp He Hm Hf E. exact (coe_pos p e i O w f mu Hp He Hm Hf r v E).
Qed.
Print Assumptions C31_position.

(** The eccentricity vector points to argument of latitude [w]. *)
Theorem C31_periapsis : forall (p e i O w f mu : R) (r v : vec),
  0 < p -> 0 <= e -> 0 < mu -> 0 < 1 + e * cos f -> coe2rv p e i O w f mu = (r, v) ->
  eccentricity_vector r v mu = smul e
    (mk3 (cos O * cos w - sin O * sin w * cos i)
         (sin O * cos w + cos O * sin w * cos i)
         (sin w * sin i)).
Proof.
  intros p e i O w f mu r v Hp He Hm Hf E. rewrite <- Q_ex.
  exact (coe_e_vec p e i O w f mu Hp He Hm Hf r v E).
Qed.
Print Assumptions C31_periapsis.

Example C31_example : coe2rv 1 (1 / 2) (PI / 2) 0 (PI / 2) (PI / 2) 1
  = (mk3 (-1) 0 0, mk3 (- (1 / 2)) 0 (-1)).
Proof. exact coe2rv_example. Qed.

(** ** C32: the argument of periapsis and the true anomaly are folded into [0, PI] *)
Theorem C32_what_is_read : forall p e i O w f mu : R,
  0 < p -> 0 < e -> 0 < i < PI -> 0 <= O < 2 * PI -> 0 <= w < 2 * PI -> 0 <= f < 2 * PI ->
  0 < mu -> 0 < 1 + e * cos f ->
  (let x := coe2rv p e i O w f mu in rv2coe (fst x) (snd x) mu)
  = mkcoe p e i O (Rmin w (2 * PI - w)) (Rmin f (2 * PI - f)).
Proof. exact read_back_fold. Qed.
Print Assumptions C32_what_is_read.

(** Missing for the full property: the elements come back only when neither angle exceeds PI. *)
Theorem C32_round_trip_partial : forall p e i O w f mu : R,
  0 < p -> 0 < e -> 0 < i < PI -> 0 <= O < 2 * PI -> 0 <= w < 2 * PI -> 0 <= f < 2 * PI ->
  0 < mu -> 0 < 1 + e * cos f ->
  ((let x := coe2rv p e i O w f mu in rv2coe (fst x) (snd x) mu) = mkcoe p e i O w f
   <-> w <= PI /\ f <= PI).
Proof. exact round_trip_iff. Qed.
Print Assumptions C32_round_trip_partial.

Theorem C32_refuted : exists p e i O w f mu : R,
  0 < p /\ 0 < e /\ 0 < i < PI /\ 0 <= O < 2 * PI /\ 0 <= w < 2 * PI /\ 0 <= f < 2 * PI /\
  0 < mu /\ 0 < 1 + e * cos f /\
  (let x := coe2rv p e i O w f mu in rv2coe (fst x) (snd x) mu) <> mkcoe p e i O w f.
Proof. exact round_trip_false. Qed.
Print Assumptions C32_refuted.

(** On equatorial orbits node and argument of periapsis are reported as 0, on circular orbits
    argument of periapsis and anomaly are. *)
Theorem C32_degenerate : forall p e i O w f mu : R,
  0 < p -> 0 <= e -> 0 < mu -> 0 < 1 + e * cos f ->
  let c := (let x := coe2rv p e i O w f mu in rv2coe (fst x) (snd x) mu) in
  (sin i = 0 -> coe_raan c = 0 /\ coe_argp c = 0) /\
  (e = 0 -> coe_argp c = 0 /\ coe_f c = 0).
Proof. exact degenerate_elements. Qed.
Print Assumptions C32_degenerate.

Example C32_example :
  (let x := coe2rv 7 (1 / 2) 1 5 2 1 3 in rv2coe (fst x) (snd x) 3) = mkcoe 7 (1 / 2) 1 5 2 1 /\
  (let x := coe2rv 1 (1 / 2) (PI / 2) 0 (3 * (PI / 2)) (3 * (PI / 2)) 1 in rv2coe (fst x) (snd x) 1)
  = mkcoe 1 (1 / 2) (PI / 2) 0 (PI / 2) (PI / 2).
Proof. exact (conj round_trip_kept round_trip_lost). Qed.

(** ** C33: the state comes back exactly when periapsis is not south of the equator and the
    motion is not inbound.  Missing for the full property: all other states. *)
Theorem C33_round_trip_partial : forall (r v : vec) (mu : R),
  0 < mu -> cross r v <> vzero -> eccentricity_vector r v mu <> vzero ->
  cross (mk3 0 0 1) (cross r v) <> vzero ->
  let c := rv2coe r v mu in
  (coe2rv (coe_p c) (coe_e c) (coe_incl c) (coe_raan c) (coe_argp c) (coe_f c) mu = (r, v)
   <-> 0 <= c2 (eccentricity_vector r v mu) /\ 0 <= dot r v).
Proof. exact state_round_trip. Qed.
Print Assumptions C33_round_trip_partial.

(** Every such state is nevertheless the image of some elements. *)
Theorem C33_onto : forall (r v : vec) (mu : R),
  0 < mu -> cross r v <> vzero -> eccentricity_vector r v mu <> vzero ->
  cross (mk3 0 0 1) (cross r v) <> vzero ->
  exists i O w f, 0 < i < PI /\ 0 <= O < 2 * PI /\ 0 <= w < 2 * PI /\ 0 <= f < 2 * PI /\
    0 < 1 + vnorm (eccentricity_vector r v mu) * cos f /\
    coe2rv (semiparameter (vnorm (cross r v)) mu) (vnorm (eccentricity_vector r v mu)) i O w f mu = (r, v).
Proof. exact surjective. Qed.
Print Assumptions C33_onto.

(** The state that does come back has the same reported elements. *)
Theorem C33_same_elements : forall (r v : vec) (mu : R),
  0 < mu -> cross r v <> vzero -> eccentricity_vector r v mu <> vzero ->
  cross (mk3 0 0 1) (cross r v) <> vzero ->
  let c := rv2coe r v mu in
  let x := coe2rv (coe_p c) (coe_e c) (coe_incl c) (coe_raan c) (coe_argp c) (coe_f c) mu in
  rv2coe (fst x) (snd x) mu = c.
Proof. exact elements_idempotent. Qed.
Print Assumptions C33_same_elements.

Theorem C33_refuted : exists (r v : vec) (mu : R),
  0 < mu /\ cross r v <> vzero /\ eccentricity_vector r v mu <> vzero /\
  cross (mk3 0 0 1) (cross r v) <> vzero /\
  let c := rv2coe r v mu in
  fst (coe2rv (coe_p c) (coe_e c) (coe_incl c) (coe_raan c) (coe_argp c) (coe_f c) mu) = smul (-1) r.
Proof. exact state_round_trip_false. Qed.
Print Assumptions C33_refuted.

Example C33_example :
  (let c := rv2coe (mk3 (-1) 0 0) (mk3 (- (1 / 2)) 0 (-1)) 1 in
   coe2rv (coe_p c) (coe_e c) (coe_incl c) (coe_raan c) (coe_argp c) (coe_f c) 1)
  = (mk3 (-1) 0 0, mk3 (- (1 / 2)) 0 (-1)) /\
  (let c := rv2coe (mk3 1 0 0) (mk3 (- (1 / 2)) 0 1) 1 in
   coe2rv (coe_p c) (coe_e c) (coe_incl c) (coe_raan c) (coe_argp c) (coe_f c) 1)
  = (mk3 (-1) 0 0, mk3 (- (1 / 2)) 0 (-1)).
Proof. exact (conj outbound_round_trip inbound_state_lost). Qed.

(** ** C34 *)
Theorem C34_ranges : forall (r v : vec) (mu : R),
  let c := rv2coe r v mu in
  0 <= coe_incl c <= PI /\ 0 <= coe_raan c < 2 * PI /\
  0 <= coe_argp c <= PI /\ 0 <= coe_f c <= PI.
Proof. exact coe_ranges. Qed.
Print Assumptions C34_ranges.

(** The clipping done by the total arccosine never happens: its argument is a cosine. *)
Theorem C34_inclination_defined : forall h : vec, h <> vzero ->
  -1 <= c2 h / vnorm h <= 1 /\ cos (inclination h) * vnorm h = c2 h.
Proof. intros h H. exact (conj (incl_arg h H) (incl_cos h H)). Qed.
Print Assumptions C34_inclination_defined.

(** The right ascension is the longitude of the ascending node, which is in the direction k x h. *)
Theorem C34_node_direction : forall h : vec, cross (mk3 0 0 1) h <> vzero ->
  let n := cross (mk3 0 0 1) h in let O := right_ascension (node_vec h) in
  n = smul (vnorm n) (mk3 (cos O) (sin O) 0).
Proof. exact node_direction. Qed.
Print Assumptions C34_node_direction.

Example C34_example : rv2coe (mk3 1 0 0) (mk3 (- (1 / 2)) 0 1) 1
  = mkcoe 1 (1 / 2) (PI / 2) 0 (PI / 2) (PI / 2).
Proof. exact rv2coe_inbound. Qed.
