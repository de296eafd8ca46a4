(** * Properties C01-C05: sizes, shapes and energies of orbits

    Theorems only; proofs are in [OrbFacts].  The model functions are taken at
    exact real arithmetic ([NumR.Num_R]). *)
From Coq Require Import Reals Lra.
From Verif Require Import Num NumR Spec RLib OrbIntegrals OrbElements KepEqu OrbFacts OrbFacts2 Witness.
Local Open Scope R_scope.

(** ** C01 *)
Theorem C01_axis_of_period : forall a mu : R,
  0 < a -> 0 < mu -> a_from_period (orb_period a mu) mu = a.
Proof. exact a_from_orb_period. Qed.
Print Assumptions C01_axis_of_period.

Theorem C01_period_of_axis : forall P mu : R,
  0 < P -> 0 < mu -> orb_period (a_from_period P mu) mu = P.
Proof. exact orb_period_a_from. Qed.
Print Assumptions C01_period_of_axis.

Theorem C01_third_law : forall a mu : R,
  0 < a -> 0 < mu -> mean_motion (orb_period a mu) ^ 2 * a ^ 3 = mu.
Proof. exact mean_motion_law. Qed.
Print Assumptions C01_third_law.

Theorem C01_one_revolution : forall a mu : R,
  0 < a -> 0 < mu -> mean_anomaly_elps a (orb_period a mu) mu = 2 * PI.
Proof. exact mean_anomaly_period. Qed.
Print Assumptions C01_one_revolution.

(** A circular orbit of radius 4 around mu = 1 has period 16 pi. *)
Example C01_example : orb_period 4 1 = 16 * PI /\ a_from_period (16 * PI) 1 = 4.
Proof.
  assert (E : orb_period 4 1 = 16 * PI).
  { rewrite orb_period_R. replace (4 ^ 3 / 1) with (8 * 8) by field. rewrite sqrt_square by lra. ring. }
  split; [exact E|]. rewrite <- E. apply C01_axis_of_period; lra.
Qed.

(** ** C02 *)
Theorem C02_semiparameter_of_axis : forall (r v : vec) (mu : R),
  r <> vzero -> 0 < mu -> energy mu r v <> 0 ->
  semipara_from_ae (semimajor_axis (vnorm r) (vnorm v) mu) (vnorm (eccentricity_vector r v mu))
  = semiparameter (vnorm (angular_momentum r v)) mu.
Proof.
  intros r v mu Hr Hmu He. rewrite angular_momentum_R. apply semipara_of_state; auto.
  now apply alpha_neq.
Qed.
Print Assumptions C02_semiparameter_of_axis.

Theorem C02_axis_of_semiparameter : forall (r v : vec) (mu : R),
  0 < mu -> energy mu r v <> 0 -> cross r v <> vzero ->
  a_from_pe (semiparameter (vnorm (angular_momentum r v)) mu) (vnorm (eccentricity_vector r v mu))
  = semimajor_axis (vnorm r) (vnorm v) mu.
Proof.
  intros r v mu Hmu He Hh. rewrite angular_momentum_R. pose proof (vec_nonzero_l _ _ Hh).
  apply axis_of_state; auto. now apply alpha_neq.
Qed.
Print Assumptions C02_axis_of_semiparameter.

(** The semimajor axis is the one of the specific energy. *)
Theorem C02_axis_of_energy : forall (r v : vec) (mu : R),
  r <> vzero -> 0 < mu -> energy mu r v <> 0 ->
  semimajor_axis (vnorm r) (vnorm v) mu = - mu / (2 * energy mu r v).
Proof. exact axis_of_energy. Qed.
Print Assumptions C02_axis_of_energy.

(** Kind of conic: the eccentricity compares with 1 as the energy compares with 0. *)
Theorem C02_kind : forall (r v : vec) (mu : R),
  0 < mu -> cross r v <> vzero ->
  let e := vnorm (eccentricity_vector r v mu) in
  (e < 1 <-> energy mu r v < 0) /\ (e = 1 <-> energy mu r v = 0) /\ (1 < e <-> 0 < energy mu r v).
Proof. exact conic_kind. Qed.
Print Assumptions C02_kind.

Theorem C02_axis_sign : forall (r v : vec) (mu : R),
  0 < mu -> cross r v <> vzero -> energy mu r v <> 0 ->
  let e := vnorm (eccentricity_vector r v mu) in
  let a := semimajor_axis (vnorm r) (vnorm v) mu in
  (e < 1 <-> 0 < a) /\ (1 < e <-> a < 0).
Proof. exact kind_axis. Qed.
Print Assumptions C02_axis_sign.

(** The axis of the shape whenever e <> 1, rectilinear states included. *)
Theorem C02_axis_of_shape : forall (r v : vec) (mu : R),
  r <> vzero -> 0 < mu -> vnorm (eccentricity_vector r v mu) <> 1 ->
  a_from_pe (semiparameter (vnorm (angular_momentum r v)) mu) (vnorm (eccentricity_vector r v mu))
  = semimajor_axis (vnorm r) (vnorm v) mu.
Proof. exact axis_of_shape. Qed.
Print Assumptions C02_axis_of_shape.

Theorem C02_parabolic : forall (r v : vec) (mu : R), r <> vzero -> 0 < mu -> energy mu r v = 0 ->
  vnorm (eccentricity_vector r v mu) = 1.
Proof. exact zero_energy_ecc. Qed.
Print Assumptions C02_parabolic.

Theorem C02_rectilinear : forall (r v : vec) (mu : R), r <> vzero -> 0 < mu -> cross r v = vzero ->
  vnorm (eccentricity_vector r v mu) = 1.
Proof. exact rectilinear_ecc. Qed.
Print Assumptions C02_rectilinear.

Example C02_example : wr <> vzero /\ cross wr wv <> vzero /\ energy 1 wr wv <> 0 /\
  vnorm (eccentricity_vector wr wv 1) = 1 / 4 /\ semimajor_axis (vnorm wr) (vnorm wv) 1 = 4 / 3.
Proof.
  split; [exact wr_neq|]. split; [exact wh_neq|]. rewrite semimajor_axis_R, w_alpha, we_norm, w_energy.
  split; [lra|]. split; lra.
Qed.

(** ** C03 *)
Theorem C03_orthogonal : forall (r v : vec) (mu : R),
  let h := angular_momentum r v in
  dot h r = 0 /\ dot h v = 0 /\ (r <> vzero -> 0 < mu -> dot h (eccentricity_vector r v mu) = 0).
Proof. exact h_orthogonal. Qed.
Print Assumptions C03_orthogonal.

Theorem C03_ecc_dot_position : forall (r v : vec) (mu : R),
  r <> vzero -> 0 < mu ->
  dot (eccentricity_vector r v mu) r = semiparameter (vnorm (angular_momentum r v)) mu - vnorm r.
Proof. exact e_dot_r. Qed.
Print Assumptions C03_ecc_dot_position.

Theorem C03_orbit_equation : forall (r v : vec) (mu : R),
  0 < mu -> cross r v <> vzero -> eccentricity_vector r v mu <> vzero ->
  let e := eccentricity_vector r v mu in
  equ_of_orbit (semiparameter (vnorm (angular_momentum r v)) mu) (vnorm e) (true_anomaly r e) = vnorm r.
Proof. intros r v mu Hmu Hh He. apply orbit_equation; auto. exact (vec_nonzero_l _ _ Hh). Qed.
Print Assumptions C03_orbit_equation.

Example C03_example : cross wr wv <> vzero /\ eccentricity_vector wr wv 1 = mk3 (1 / 4) 0 0 /\
  eccentricity_vector wr wv 1 <> vzero.
Proof. exact (conj wh_neq (conj w_ecc we_neq)). Qed.

(** ** C04 *)
Theorem C04_periapsis_below : forall (r v : vec) (mu : R),
  r <> vzero -> 0 < mu ->
  radius_periapsis (semiparameter (vnorm (angular_momentum r v)) mu) (vnorm (eccentricity_vector r v mu))
  <= vnorm r.
Proof. exact periapsis_le. Qed.
Print Assumptions C04_periapsis_below.

Theorem C04_apoapsis_above : forall (r v : vec) (mu : R),
  r <> vzero -> 0 < mu -> vnorm (eccentricity_vector r v mu) < 1 ->
  vnorm r
  <= radius_apoapsis (semiparameter (vnorm (angular_momentum r v)) mu) (vnorm (eccentricity_vector r v mu)).
Proof. exact apoapsis_ge. Qed.
Print Assumptions C04_apoapsis_above.

Theorem C04_conic_bounds : forall p e f : R,
  0 < p -> 0 <= e -> 0 < 1 + e * cos f ->
  radius_periapsis p e <= equ_of_orbit p e f /\ (e < 1 -> equ_of_orbit p e f <= radius_apoapsis p e).
Proof. exact conic_bounds. Qed.
Print Assumptions C04_conic_bounds.

Theorem C04_attained : forall p e : R,
  equ_of_orbit p e 0 = radius_periapsis p e /\ equ_of_orbit p e PI = radius_apoapsis p e.
Proof. exact conic_attained. Qed.
Print Assumptions C04_attained.

Theorem C04_attained_only_at_periapsis : forall p e f : R,
  0 < p -> 0 < e -> 0 < 1 + e * cos f ->
  (equ_of_orbit p e f = radius_periapsis p e <-> cos f = 1).
Proof. exact conic_peri_only. Qed.
Print Assumptions C04_attained_only_at_periapsis.

Theorem C04_attained_only_at_apoapsis : forall p e f : R, 0 < p -> 0 < e < 1 ->
  (equ_of_orbit p e f = radius_apoapsis p e <-> cos f = -1).
Proof. exact conic_apo_only. Qed.
Print Assumptions C04_attained_only_at_apoapsis.

Theorem C04_every_radius_between : forall p e x : R,
  0 < p -> 0 < e < 1 -> radius_periapsis p e <= x <= radius_apoapsis p e ->
  exists f, 0 <= f <= PI /\ equ_of_orbit p e f = x.
Proof. exact conic_onto. Qed.
Print Assumptions C04_every_radius_between.

Theorem C04_apsides_sum : forall p e : R,
  0 <= e < 1 -> radius_periapsis p e + radius_apoapsis p e = 2 * a_from_pe p e.
Proof. exact apsides_sum. Qed.
Print Assumptions C04_apsides_sum.

Example C04_example : 0 < 1 + 1 / 4 * cos PI /\ radius_periapsis (5 / 4) (1 / 4) = 1 /\
  radius_apoapsis (5 / 4) (1 / 4) = 5 / 3 /\ vnorm (eccentricity_vector wr wv 1) < 1.
Proof. rewrite cos_PI, radius_periapsis_R, radius_apoapsis_R, we_norm. repeat split; lra. Qed.

(** ** C05 *)
Theorem C05_axis_roundtrip : forall a e : R,
  e ^ 2 <> 1 -> a_from_pe (semipara_from_ae a e) e = a.
Proof. exact a_of_p_of_a. Qed.
Print Assumptions C05_axis_roundtrip.

Theorem C05_semiparameter_roundtrip : forall p e : R,
  e ^ 2 <> 1 -> semipara_from_ae (a_from_pe p e) e = p.
Proof. exact p_of_a_of_p. Qed.
Print Assumptions C05_semiparameter_roundtrip.

Theorem C05_apsides : forall a e : R,
  e ^ 2 <> 1 ->
  radius_periapsis (semipara_from_ae a e) e = a * (1 - e) /\
  radius_apoapsis (semipara_from_ae a e) e = a * (1 + e).
Proof. exact apsides_from_a. Qed.
Print Assumptions C05_apsides.

(** A hyperbola: a = -2, e = 3/2, p = 5/2. *)
Example C05_example : (3 / 2) ^ 2 <> 1 /\ semipara_from_ae (- 2) (3 / 2) = 5 / 2 /\
  radius_periapsis (semipara_from_ae (- 2) (3 / 2)) (3 / 2) = 1.
Proof.
  assert (H : (3 / 2) ^ 2 <> 1) by lra. split; [exact H|].
  rewrite (proj1 (C05_apsides (- 2) (3 / 2) H)), semipara_from_ae_R. split; lra.
Qed.
