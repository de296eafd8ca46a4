(** * ElemExamples: concrete instances and witnesses for C30-C34 *)
From Coq Require Import Reals Lra Lia Psatz.
From Verif Require Import Num NumR Spec RLib Atan2 RotMat RotFacts OrbIntegrals OrbFacts OrbElements ElemFacts UFacts.
Local Open Scope R_scope.

Lemma period_x a : rotmat3dx (a + 2 * PI) = rotmat3dx a.
Proof. replace (2 * PI) with (2 * INR 1 * PI) by (simpl; ring). now rewrite !rotmat3dx_R, cos_period, sin_period. Qed.
Lemma period_y a : rotmat3dy (a + 2 * PI) = rotmat3dy a.
Proof. replace (2 * PI) with (2 * INR 1 * PI) by (simpl; ring). now rewrite !rotmat3dy_R, cos_period, sin_period. Qed.
Lemma period_z a : rotmat3dz (a + 2 * PI) = rotmat3dz a.
Proof. replace (2 * PI) with (2 * INR 1 * PI) by (simpl; ring). now rewrite !rotmat3dz_R, cos_period, sin_period. Qed.
Lemma half_turn_differs : rotmat3dz PI <> rotmat3dz 0.
Proof. rewrite !rotmat3dz_R, cos_PI, cos_0. intros H. injection H. intros. lra. Qed.

(** A quarter turn about each axis. *)
Lemma quarter_turns :
  row_col (rotmat3dx (PI / 2)) (mk3 1 2 3) = mk3 1 (-3) 2 /\
  row_col (rotmat3dy (PI / 2)) (mk3 1 2 3) = mk3 3 2 (-1) /\
  row_col (rotmat3dz (PI / 2)) (mk3 1 2 3) = mk3 (-2) 1 3.
Proof.
  rewrite rotmat3dx_R, rotmat3dy_R, rotmat3dz_R, sin_PI2, cos_PI2. munfold.
  split; [|split]; apply mk3_eq; ring.
Qed.

Lemma cos_3PI2' : cos (3 * (PI / 2)) = 0.
Proof. apply cos_3PI2. Qed.
Lemma sqrt_1_1 : sqrt (1 / 1) = 1.
Proof. replace (1 / 1) with 1 by field. apply sqrt_1. Qed.

(** Polar orbit, quarter of the way round after periapsis. *)
Lemma coe2rv_example : coe2rv 1 (1 / 2) (PI / 2) 0 (PI / 2) (PI / 2) 1
  = (mk3 (-1) 0 0, mk3 (- (1 / 2)) 0 (-1)).
Proof.
  rewrite coe2rv_R. unfold rpf, vpf. rewrite !row_col_smul, !Q_vec.
  rewrite sin_PI2, cos_PI2, sin_0, cos_0, sqrt_1_1. f_equal; unfold smul; cbn [c0 c1 c2]; apply mk3_eq; field.
Qed.
Lemma vnorm_100 : vnorm (mk3 1 0 0) = 1.
Proof. apply vnorm_unique; [lra|]. unfold dot; cbn [c0 c1 c2]. ring. Qed.
Lemma ecc_inbound : eccentricity_vector (mk3 1 0 0) (mk3 (- (1 / 2)) 0 1) 1 = mk3 0 0 (1 / 2).
Proof.
  rewrite eccentricity_vector_R, vnorm_100. munfold. apply mk3_eq; field.
Qed.
Lemma rv2coe_inbound : rv2coe (mk3 1 0 0) (mk3 (- (1 / 2)) 0 1) 1
  = mkcoe 1 (1 / 2) (PI / 2) 0 (PI / 2) (PI / 2).
Proof.
  rewrite rv2coe_R, ecc_inbound.
  assert (H : cross (mk3 1 0 0) (mk3 (- (1 / 2)) 0 1) = mk3 0 (-1) 0)
    by (munfold; apply mk3_eq; ring).
  rewrite H.
  assert (Hn : vnorm (mk3 0 (-1) 0) = 1)
    by (apply vnorm_unique; [lra|]; unfold dot; cbn [c0 c1 c2]; ring).
  assert (En : vnorm (mk3 0 0 (1 / 2)) = 1 / 2)
    by (apply vnorm_unique; [lra|]; unfold dot; cbn [c0 c1 c2]; ring).
  assert (A90 : forall y, 0 < y -> wrap (atan2 y 0) = PI / 2).
  { intros y Hy. pose proof PI_pos. unfold atan2. destruct (Rlt_dec 0 0); [lra|].
    destruct (Rlt_dec 0 y); [|lra]. apply wrap_nonneg. lra. }
  f_equal.
  - rewrite semiparameter_R, Hn. field.
  - exact En.
  - rewrite inclination_R, Hn. cbn [c2]. replace (0 / 1) with 0 by field. apply acos_0.
  - rewrite right_ascension_R, node_vec_R. unfold ez, cross; cbn [c0 c1 c2].
    replace (1 * 0 - 0 * 0) with (1 * sin 0) by (rewrite sin_0; ring).
    replace (0 * 0 - 1 * -1) with (1 * cos 0) by (rewrite cos_0; ring).
    apply wrap_atan2; [lra|]. pose proof PI_pos. lra.
  - rewrite argument_of_periapsis_R, node_vec_R.
    replace (cross (cross ez (mk3 0 (-1) 0)) (mk3 0 0 (1 / 2))) with (mk3 0 (- (1 / 2)) 0)
      by (unfold ez; munfold; apply mk3_eq; field).
    replace (dot (cross ez (mk3 0 (-1) 0)) (mk3 0 0 (1 / 2))) with 0
      by (unfold ez; munfold; field).
    replace (vnorm (mk3 0 (- (1 / 2)) 0)) with (1 / 2). apply A90; lra.
    symmetry. apply vnorm_unique; [lra|]; unfold dot; cbn [c0 c1 c2]; ring.
  - rewrite true_anomaly_R.
    replace (cross (mk3 0 0 (1 / 2)) (mk3 1 0 0)) with (mk3 0 (1 / 2) 0) by (munfold; apply mk3_eq; field).
    replace (dot (mk3 0 0 (1 / 2)) (mk3 1 0 0)) with 0 by (munfold; field).
    replace (vnorm (mk3 0 (1 / 2) 0)) with (1 / 2). apply A90; lra.
    symmetry. apply vnorm_unique; [lra|]; unfold dot; cbn [c0 c1 c2]; ring.
Qed.
(** An inbound state comes back on the opposite side of the attracting body. *)
Lemma inbound_state_lost : state_of (rv2coe (mk3 1 0 0) (mk3 (- (1 / 2)) 0 1) 1) 1
  = (mk3 (-1) 0 0, mk3 (- (1 / 2)) 0 (-1)).
Proof. rewrite rv2coe_inbound. apply coe2rv_example. Qed.
Lemma ecc_outbound : eccentricity_vector (mk3 (-1) 0 0) (mk3 (- (1 / 2)) 0 (-1)) 1 = mk3 0 0 (1 / 2).
Proof.
  rewrite eccentricity_vector_R. replace (vnorm (mk3 (-1) 0 0)) with 1.
  munfold. apply mk3_eq; field.
  symmetry. apply vnorm_unique; [lra|]. unfold dot; cbn [c0 c1 c2]. ring.
Qed.
Lemma not_vzero (a b c : R) : a <> 0 \/ b <> 0 \/ c <> 0 -> mk3 a b c <> vzero.
Proof. intros H E. injection E as -> -> ->. tauto. Qed.
Lemma outbound_round_trip :
  state_of (rv2coe (mk3 (-1) 0 0) (mk3 (- (1 / 2)) 0 (-1)) 1) 1 = (mk3 (-1) 0 0, mk3 (- (1 / 2)) 0 (-1)).
Proof.
  apply state_round_trip; [lra| | | |].
  - munfold. apply not_vzero. right; left. lra.
  - rewrite ecc_outbound. apply not_vzero. lra.
  - unfold ez. munfold. apply not_vzero. lra.
  - rewrite ecc_outbound. unfold dot; cbn [c0 c1 c2]. lra.
Qed.
Lemma round_trip_lost :
  elements_of (coe2rv 1 (1 / 2) (PI / 2) 0 (3 * (PI / 2)) (3 * (PI / 2)) 1) 1
  = mkcoe 1 (1 / 2) (PI / 2) 0 (PI / 2) (PI / 2).
Proof.
  pose proof PI_pos.
  rewrite read_back_fold; try lra.
  - replace (2 * PI - 3 * (PI / 2)) with (PI / 2) by field.
    rewrite Rmin_right by lra. reflexivity.
  - rewrite cos_3PI2'. lra.
Qed.
Lemma round_trip_kept :
  elements_of (coe2rv 7 (1 / 2) 1 5 2 1 3) 3 = mkcoe 7 (1 / 2) 1 5 2 1.
Proof.
  pose proof PI2_3_2. pose proof (COS_bound 1).
  apply round_trip_iff; try lra.
Qed.
(** Equatorial and circular orbits: the undefined angles are reported as zero. *)
Lemma equatorial_elements p e i O w f mu :
  0 < p -> 0 <= e -> sin i = 0 -> 0 < mu -> 0 < 1 + e * cos f ->
  coe_raan (elements_of (coe2rv p e i O w f mu) mu) = 0 /\
  coe_argp (elements_of (coe2rv p e i O w f mu) mu) = 0.
Proof.
  intros Hp He Hi Hmu Hf. destruct (coe2rv p e i O w f mu) as [r v] eqn:E.
  unfold elements_of; cbn [fst snd]. rewrite rv2coe_R; cbn [coe_raan coe_argp]. split.
  - apply (coe_raan_retro p e i O w f mu Hp He Hmu Hf r v E); auto.
  - apply (coe_argp_degenerate p e i O w f mu Hp He Hmu Hf r v E); auto.
Qed.
Lemma circular_elements p i O w f mu :
  0 < p -> 0 < mu ->
  coe_argp (elements_of (coe2rv p 0 i O w f mu) mu) = 0 /\
  coe_f (elements_of (coe2rv p 0 i O w f mu) mu) = 0.
Proof.
  intros Hp Hmu. destruct (coe2rv p 0 i O w f mu) as [r v] eqn:E.
  unfold elements_of; cbn [fst snd]. rewrite rv2coe_R; cbn [coe_f coe_argp].
  assert (Hf : 0 < 1 + 0 * cos f) by lra. assert (He : 0 <= 0) by lra. split.
  - apply (coe_argp_degenerate p 0 i O w f mu Hp He Hmu Hf r v E); auto.
  - apply (coe_f_degenerate p 0 i O w f mu Hp He Hmu Hf r v E); auto.
Qed.
Lemma degenerate_elements p e i O w f mu :
  0 < p -> 0 <= e -> 0 < mu -> 0 < 1 + e * cos f ->
  let c := elements_of (coe2rv p e i O w f mu) mu in
  (sin i = 0 -> coe_raan c = 0 /\ coe_argp c = 0) /\
  (e = 0 -> coe_argp c = 0 /\ coe_f c = 0).
Proof.
  intros Hp He Hmu Hf. split.
  - intros Hi. now apply equatorial_elements.
  - intros ->. now apply circular_elements.
Qed.
Lemma round_trip_false : exists p e i O w f mu : R,
  0 < p /\ 0 < e /\ 0 < i < PI /\ 0 <= O < 2 * PI /\ 0 <= w < 2 * PI /\ 0 <= f < 2 * PI /\
  0 < mu /\ 0 < 1 + e * cos f /\
  elements_of (coe2rv p e i O w f mu) mu <> mkcoe p e i O w f.
Proof.
  pose proof PI_pos. exists 1, (1 / 2), (PI / 2), 0, (3 * (PI / 2)), (3 * (PI / 2)), 1.
  do 7 (split; [lra|]). split; [rewrite cos_3PI2'; lra|].
  rewrite round_trip_lost. intros H1. injection H1. lra.
Qed.
Lemma state_round_trip_false : exists (r v : vec) (mu : R),
  0 < mu /\ cross r v <> vzero /\ eccentricity_vector r v mu <> vzero /\
  cross ez (cross r v) <> vzero /\ fst (state_of (rv2coe r v mu) mu) = smul (-1) r.
Proof.
  exists (mk3 1 0 0), (mk3 (- (1 / 2)) 0 1), 1. split; [lra|].
  split; [munfold; apply not_vzero; right; left; lra|].
  split; [rewrite ecc_inbound; apply not_vzero; lra|].
  split; [unfold ez; munfold; apply not_vzero; lra|].
  rewrite inbound_state_lost. cbn [fst]. munfold. apply mk3_eq; ring.
Qed.
Lemma coe_ranges r v mu : let c := rv2coe r v mu in
  0 <= coe_incl c <= PI /\ 0 <= coe_raan c < 2 * PI /\
  0 <= coe_argp c <= PI /\ 0 <= coe_f c <= PI.
Proof.
  rewrite rv2coe_R; cbn [coe_incl coe_raan coe_argp coe_f].
  split; [apply incl_range|]. split; [apply raan_range|]. split; [apply argp_range|apply f_range].
Qed.
Lemma node_direction h : cross ez h <> vzero ->
  let n := cross ez h in let O := right_ascension (node_vec h) in
  n = smul (vnorm n) (mk3 (cos O) (sin O) 0).
Proof. intros H. rewrite node_vec_R. apply raan_dir; [|exact H]. unfold ez. munfold. ring. Qed.
