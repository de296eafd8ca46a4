(** * OrbFacts: orbital integrals (proofs for C01-C05) *)
From Coq Require Import Reals Lra Lia Psatz.
From Coquelicot Require Import Coquelicot.
From Verif Require Import Num NumR Spec RLib Atan2 OrbIntegrals KepEqu OrbElements StateTrans.
Local Open Scope R_scope.

(** ** Plain forms *)
Lemma orb_period_R a mu : orb_period a mu = 2 * PI * sqrt (a ^ 3 / mu).
Proof. unfold orb_period. unnum. repeat f_equal; ring. Qed.
Lemma a_from_period_R P mu : a_from_period P mu = cbrt (P ^ 2 * mu / 4 / PI ^ 2).
Proof. unfold a_from_period. unnum. f_equal. unfold Rdiv. simpl. rewrite !Rmult_1_r. reflexivity. Qed.
Lemma angular_momentum_R r v : angular_momentum r v = cross r v.
Proof. reflexivity. Qed.
Lemma semimajor_axis_R r v mu : semimajor_axis r v mu = / (2 / r - v ^ 2 / mu).
Proof. unfold semimajor_axis. unnum. unfold Rdiv. rewrite Rmult_1_l. simpl. now rewrite Rmult_1_r. Qed.
Lemma eccentricity_vector_R r v mu :
  eccentricity_vector r v mu = vminus (smul (/ mu) (cross v (cross r v))) (smul (/ vnorm r) r).
Proof. unfold eccentricity_vector. rewrite vsub_vminus, !vdivs_smul. reflexivity. Qed.
Lemma semiparameter_R h mu : semiparameter h mu = h ^ 2 / mu.
Proof. unfold semiparameter. unnum. simpl. now rewrite Rmult_1_r. Qed.
Lemma mean_motion_R P : mean_motion P = 2 * PI / P.
Proof. reflexivity. Qed.
Lemma equ_of_orbit_R p e f : equ_of_orbit p e f = p / (1 + e * cos f).
Proof. reflexivity. Qed.
Lemma radius_periapsis_R p e : radius_periapsis p e = p / (1 + e).
Proof. reflexivity. Qed.
Lemma radius_apoapsis_R p e : radius_apoapsis p e = p / (1 - e).
Proof. reflexivity. Qed.
Lemma equ_of_orb_uvi_R U0 U1 U2 r0 s0 : equ_of_orb_uvi U0 U1 U2 r0 s0 = r0 * U0 + s0 * U1 + U2.
Proof. reflexivity. Qed.
Lemma semipara_from_ae_R a e : semipara_from_ae a e = a * (1 - e ^ 2).
Proof. unfold semipara_from_ae. unnum. simpl. now rewrite Rmult_1_r. Qed.
Lemma a_from_pe_R p e : a_from_pe p e = p / (1 - e ^ 2).
Proof. unfold a_from_pe. unnum. simpl. now rewrite Rmult_1_r. Qed.
Lemma alpha_of_R r v mu : alpha_of r v mu = 2 / r - v ^ 2 / mu.
Proof.
  unfold alpha_of, semimajor_axis. unnum. replace (1 / 1) with 1 by field.
  rewrite Rinv_1_inv. simpl. now rewrite Rmult_1_r.
Qed.

(** ** Cube root *)
Lemma cbrt_cube x : 0 < x -> cbrt (x ^ 3) = x.
Proof.
  intros H. unfold cbrt. destruct (Rlt_dec 0 (x ^ 3)) as [_|N].
  - rewrite ln_pow by auto. replace (INR 3 * ln x / 3) with (ln x) by (simpl; field).
    now apply exp_ln.
  - exfalso. apply N. now apply pow_lt.
Qed.
Lemma cbrt_pow x : 0 < x -> cbrt x ^ 3 = x.
Proof.
  intros H. unfold cbrt. destruct (Rlt_dec 0 x); [|lra].
  simpl. rewrite Rmult_1_r, <- !exp_plus.
  replace (ln x / 3 + (ln x / 3 + ln x / 3)) with (ln x) by field. now apply exp_ln.
Qed.
Lemma cbrt_pos x : 0 < x -> 0 < cbrt x.
Proof. intros H. unfold cbrt. destruct (Rlt_dec 0 x); [|lra]. apply exp_pos. Qed.

(** ** C01 *)
Lemma PI_pos : 0 < PI.
Proof. apply PI_RGT_0. Qed.

Lemma cube_over_mu_pos a mu : 0 < a -> 0 < mu -> 0 < a ^ 3 / mu.
Proof. intros. apply Rdiv_lt_0_compat; auto. now apply pow_lt. Qed.

Lemma a_from_orb_period a mu : 0 < a -> 0 < mu -> a_from_period (orb_period a mu) mu = a.
Proof.
  intros Ha Hm. rewrite a_from_period_R, orb_period_R.
  pose proof PI_pos. pose proof (cube_over_mu_pos a mu Ha Hm) as Hq.
  replace ((2 * PI * sqrt (a ^ 3 / mu)) ^ 2 * mu / 4 / PI ^ 2)
    with (sqrt (a ^ 3 / mu) * sqrt (a ^ 3 / mu) * mu) by (field; lra).
  rewrite sqrt_sqrt by lra.
  replace (a ^ 3 / mu * mu) with (a ^ 3) by (field; lra).
  now apply cbrt_cube.
Qed.

Lemma orb_period_a_from P mu : 0 < P -> 0 < mu -> orb_period (a_from_period P mu) mu = P.
Proof.
  intros HP Hm. rewrite a_from_period_R, orb_period_R. pose proof PI_pos.
  assert (Hq : 0 < P ^ 2 * mu / 4 / PI ^ 2).
  { apply Rdiv_lt_0_compat; [|now apply pow_lt]. apply Rdiv_lt_0_compat; [|lra].
    apply Rmult_lt_0_compat; auto. now apply pow_lt. }
  rewrite cbrt_pow by auto.
  replace (P ^ 2 * mu / 4 / PI ^ 2 / mu) with ((P / (2 * PI)) * (P / (2 * PI))) by (field; lra).
  rewrite sqrt_square. field; lra.
  apply Rlt_le, Rdiv_lt_0_compat; lra.
Qed.

Lemma mean_motion_law a mu : 0 < a -> 0 < mu -> mean_motion (orb_period a mu) ^ 2 * a ^ 3 = mu.
Proof.
  intros Ha Hm. rewrite mean_motion_R, orb_period_R.
  pose proof PI_pos. pose proof (cube_over_mu_pos a mu Ha Hm) as Hq.
  pose proof (sqrt_sqrt (a ^ 3 / mu) ltac:(lra)) as Hs. pose proof (sqrt_pos_neq _ Hq).
  set (s := sqrt (a ^ 3 / mu)) in *.
  replace ((2 * PI / (2 * PI * s)) ^ 2) with (/ (s * s)) by (field; lra).
  rewrite Hs. field. split; lra.
Qed.

Lemma orb_period_pos a mu : 0 < a -> 0 < mu -> 0 < orb_period a mu.
Proof.
  intros Ha Hm. rewrite orb_period_R. pose proof PI_pos.
  apply Rmult_lt_0_compat; [lra|]. apply sqrt_lt_R0. now apply cube_over_mu_pos.
Qed.

Lemma mean_anomaly_elps_R a t mu : mean_anomaly_elps a t mu = sqrt (mu / a ^ 3) * t.
Proof. unfold mean_anomaly_elps. unnum. repeat f_equal. ring. Qed.
Lemma mean_anomaly_hypb_R a t mu : mean_anomaly_hypb a t mu = sqrt (mu / - a ^ 3) * t.
Proof. unfold mean_anomaly_hypb. unnum. repeat f_equal. ring. Qed.

Lemma mean_anomaly_period a mu : 0 < a -> 0 < mu -> mean_anomaly_elps a (orb_period a mu) mu = 2 * PI.
Proof.
  intros Ha Hm. rewrite mean_anomaly_elps_R, orb_period_R.
  pose proof (cube_over_mu_pos a mu Ha Hm) as Hq.
  replace (sqrt (mu / a ^ 3) * (2 * PI * sqrt (a ^ 3 / mu)))
    with (2 * PI * (sqrt (mu / a ^ 3) * sqrt (a ^ 3 / mu))) by ring.
  rewrite <- sqrt_mult_alt.
  - replace (mu / a ^ 3 * (a ^ 3 / mu)) with 1 by (field; lra). rewrite sqrt_1. ring.
  - apply Rlt_le, Rdiv_lt_0_compat; auto. now apply pow_lt.
Qed.

(** ** C02, C03 *)
Section State.
  Variables (r v : vec) (mu : R).
  Hypothesis Hr : r <> vzero.
  Hypothesis Hmu : 0 < mu.
  Let e := eccentricity_vector r v mu.
  Let h := cross r v.
  Let p := semiparameter (vnorm h) mu.
  Let al := 2 / vnorm r - vnorm v ^ 2 / mu.

  Lemma p_eq : p = dot h h / mu.
  Proof. unfold p. rewrite semiparameter_R, vnorm_sq2. reflexivity. Qed.

  Lemma ecc_sq : dot e e = 1 - p * al.
  Proof.
    rewrite p_eq. unfold e, al, h. rewrite eccentricity_vector_R, !vnorm_sq2.
    pose proof (vnorm_pos r Hr) as Hp. pose proof (vnorm_sq r) as Hq.
    rewrite dot_minus_l, !dot_minus_r, !dot_smul_l, !dot_smul_r.
    set (n := vnorm r) in *.
    rewrite (dot_comm r (cross v (cross r v))), dot_vh_vh, dot_vh_r, <- Hq. field. lra.
  Qed.

  Lemma ecc_norm_sq : vnorm e ^ 2 = 1 - p * al.
  Proof. rewrite vnorm_sq2. apply ecc_sq. Qed.

  Lemma ecc_dot_r : dot e r = p - vnorm r.
  Proof.
    rewrite p_eq. unfold e, h. rewrite eccentricity_vector_R.
    rewrite dot_minus_l, !dot_smul_l, <- (vnorm_sq r).
    pose proof (vnorm_pos r Hr) as Hp.
    rewrite dot_vh_r. field. lra.
  Qed.

  Lemma ecc_dot_h : dot e h = 0.
  Proof.
    unfold e, h. rewrite eccentricity_vector_R, dot_minus_l, !dot_smul_l.
    rewrite dot_vh_h, dot_cross_self_l. ring.
  Qed.

  (** [e . v = - (r.v)/|r| * ...]: component of e along v. *)
  Lemma ecc_dot_v : dot e v = - dot r v / vnorm r.
  Proof.
    unfold e. rewrite eccentricity_vector_R, dot_minus_l, !dot_smul_l.
    rewrite dot_vh_v.
    pose proof (vnorm_pos r Hr). field. lra.
  Qed.

  Lemma p_pos : h <> vzero -> 0 < p.
  Proof. intros Hh. rewrite p_eq. apply Rdiv_lt_0_compat; auto. now apply dot_pos. Qed.

  Lemma p_nonneg : 0 <= p.
  Proof. rewrite p_eq. apply Rmult_le_pos; [apply dot_nonneg|]. apply Rlt_le, Rinv_0_lt_compat, Hmu. Qed.

  Lemma p_le : p <= vnorm r * (1 + vnorm e).
  Proof.
    pose proof (cauchy_schwarz e r) as H. pose proof (Rle_abs (dot e r)) as H2.
    rewrite ecc_dot_r in *. lra.
  Qed.
  Lemma p_ge : vnorm r * (1 - vnorm e) <= p.
  Proof.
    pose proof (cauchy_schwarz e r) as H. pose proof (Rle_abs (- dot e r)) as H2.
    rewrite Rabs_Ropp in H2. rewrite ecc_dot_r in *. lra.
  Qed.
End State.

(** conversions *)
Lemma semipara_of_state r v mu : r <> vzero -> 0 < mu -> 2 / vnorm r - vnorm v ^ 2 / mu <> 0 ->
  semipara_from_ae (semimajor_axis (vnorm r) (vnorm v) mu) (vnorm (eccentricity_vector r v mu))
  = semiparameter (vnorm (cross r v)) mu.
Proof.
  intros Hr Hm Ha. rewrite semipara_from_ae_R, semimajor_axis_R, ecc_norm_sq by auto.
  set (al := 2 / vnorm r - vnorm v ^ 2 / mu) in *. field. exact Ha.
Qed.

Lemma axis_of_state r v mu : r <> vzero -> 0 < mu -> 2 / vnorm r - vnorm v ^ 2 / mu <> 0 ->
  cross r v <> vzero ->
  a_from_pe (semiparameter (vnorm (cross r v)) mu) (vnorm (eccentricity_vector r v mu))
  = semimajor_axis (vnorm r) (vnorm v) mu.
Proof.
  intros Hr Hm Ha Hh. rewrite a_from_pe_R, semimajor_axis_R, ecc_norm_sq by auto.
  pose proof (p_pos r v mu Hm Hh) as Hp. set (p := semiparameter _ _) in *. set (al := 2 / vnorm r - vnorm v ^ 2 / mu) in *.
  replace (1 - (1 - p * al)) with (p * al) by ring. field. split; [exact Ha|lra].
Qed.

Lemma axis_energy r v mu : r <> vzero -> 0 < mu ->
  2 / vnorm r - vnorm v ^ 2 / mu = - 2 * energy mu r v / mu.
Proof.
  intros Hr Hm. unfold energy. rewrite vnorm_sq2. pose proof (vnorm_pos r Hr). field. lra.
Qed.

Lemma conic_kind r v mu : 0 < mu -> cross r v <> vzero ->
  let e := vnorm (eccentricity_vector r v mu) in
  (e < 1 <-> energy mu r v < 0) /\ (e = 1 <-> energy mu r v = 0) /\ (1 < e <-> 0 < energy mu r v).
Proof.
  intros Hm Hh e. assert (Hr : r <> vzero) by (apply (vec_nonzero_l _ _ Hh)).
  pose proof (ecc_norm_sq r v mu Hr Hm) as He. fold e in He.
  pose proof (p_pos r v mu Hm Hh) as Hp. rewrite axis_energy in He by auto.
  assert (He0 : 0 <= e) by apply vnorm_nonneg.
  set (p := semiparameter _ _) in *. set (E := energy mu r v) in *.
  assert (K : e ^ 2 - 1 = (2 * p / mu) * E) by (rewrite He; field; lra).
  assert (Hk : 0 < 2 * p / mu) by (apply Rdiv_lt_0_compat; lra).
  set (k := 2 * p / mu) in *.
  repeat split; intros; nra.
Qed.

Lemma axis_sign r v mu : r <> vzero -> 0 < mu -> energy mu r v <> 0 ->
  (0 < semimajor_axis (vnorm r) (vnorm v) mu <-> energy mu r v < 0) /\
  (semimajor_axis (vnorm r) (vnorm v) mu < 0 <-> 0 < energy mu r v).
Proof.
  intros Hr Hm HE. rewrite semimajor_axis_R, axis_energy by auto.
  set (E := energy mu r v) in *.
  assert (K : / (-2 * E / mu) = - (mu / 2) * / E) by (field; lra). rewrite K.
  destruct (Rtotal_order E 0) as [L|[L|L]]; [|lra|].
  - pose proof (Rinv_lt_0_compat E L). split; split; intros; nra.
  - pose proof (Rinv_0_lt_compat E L). split; split; intros; nra.
Qed.

(** vis-viva: the semimajor axis depends on energy only *)
Lemma axis_of_energy r v mu : r <> vzero -> 0 < mu -> energy mu r v <> 0 ->
  semimajor_axis (vnorm r) (vnorm v) mu = - mu / (2 * energy mu r v).
Proof. intros Hr Hm HE. rewrite semimajor_axis_R, axis_energy by auto. field. lra. Qed.

Lemma true_anomaly_R r e : true_anomaly r e = wrap (atan2 (vnorm (cross e r)) (dot e r)).
Proof. reflexivity. Qed.

Lemma true_anomaly_cos r e : r <> vzero -> e <> vzero ->
  cos (true_anomaly r e) = dot e r / (vnorm e * vnorm r) /\
  sin (true_anomaly r e) = vnorm (cross e r) / (vnorm e * vnorm r).
Proof.
  intros Hr He. rewrite true_anomaly_R, cos_wrap, sin_wrap.
  pose proof (vnorm_pos r Hr). pose proof (vnorm_pos e He).
  assert (Hs : sqrt (dot e r ^ 2 + vnorm (cross e r) ^ 2) = vnorm e * vnorm r).
  { rewrite vnorm_sq2, lagrange_identity.
    replace (dot e r ^ 2 + (dot e e * dot r r - dot e r ^ 2)) with ((vnorm e * vnorm r) * (vnorm e * vnorm r)).
    - apply sqrt_square. nra.
    - rewrite <- !vnorm_sq. ring. }
  rewrite <- Hs. apply cos_sin_atan2.
  destruct (Req_dec (dot e r) 0) as [Z|Z]; [|now left].
  destruct (Req_dec (vnorm (cross e r)) 0) as [Z2|Z2]; [|now right].
  rewrite Z, Z2 in Hs. replace (0 ^ 2 + 0 ^ 2) with 0 in Hs by ring. rewrite sqrt_0 in Hs. nra.
Qed.

Lemma orbit_equation r v mu : r <> vzero -> 0 < mu ->
  cross r v <> vzero -> eccentricity_vector r v mu <> vzero ->
  equ_of_orbit (semiparameter (vnorm (cross r v)) mu) (vnorm (eccentricity_vector r v mu))
    (true_anomaly r (eccentricity_vector r v mu)) = vnorm r.
Proof.
  intros Hr Hm Hh He. rewrite equ_of_orbit_R.
  destruct (true_anomaly_cos r _ Hr He) as [C _]. rewrite C, ecc_dot_r by auto.
  pose proof (p_pos r v mu Hm Hh) as Hp. pose proof (vnorm_pos r Hr). pose proof (vnorm_pos _ He).
  set (p := semiparameter _ _) in *. set (e := vnorm (eccentricity_vector r v mu)) in *.
  replace (1 + e * ((p - vnorm r) / (e * vnorm r))) with (p / vnorm r) by (field; lra).
  field. lra.
Qed.

(** ** C04 *)
Lemma periapsis_le r v mu : r <> vzero -> 0 < mu ->
  radius_periapsis (semiparameter (vnorm (cross r v)) mu) (vnorm (eccentricity_vector r v mu)) <= vnorm r.
Proof.
  intros Hr Hm. rewrite !radius_periapsis_R. pose proof (p_le r v mu Hr Hm) as H.
  pose proof (vnorm_nonneg (eccentricity_vector r v mu)).
  apply Rmult_le_reg_r with (1 + vnorm (eccentricity_vector r v mu)); [lra|].
  unfold Rdiv. rewrite Rmult_assoc, Rinv_l by lra. lra.
Qed.
Lemma apoapsis_ge r v mu : r <> vzero -> 0 < mu -> vnorm (eccentricity_vector r v mu) < 1 ->
  vnorm r <= radius_apoapsis (semiparameter (vnorm (cross r v)) mu) (vnorm (eccentricity_vector r v mu)).
Proof.
  intros Hr Hm He. rewrite !radius_apoapsis_R. pose proof (p_ge r v mu Hr Hm) as H.
  apply Rmult_le_reg_r with (1 - vnorm (eccentricity_vector r v mu)); [lra|].
  unfold Rdiv. rewrite Rmult_assoc, Rinv_l by lra. lra.
Qed.
Lemma Rdiv_le_contra p a b : 0 <= p -> 0 < b -> b <= a -> p / a <= p / b.
Proof.
  intros Hp Hb Hab. apply Rmult_le_compat_l; auto. apply Rinv_le_contravar; lra.
Qed.
Lemma conic_bounds p e f : 0 < p -> 0 <= e -> 0 < 1 + e * cos f ->
  radius_periapsis p e <= equ_of_orbit p e f /\ (e < 1 -> equ_of_orbit p e f <= radius_apoapsis p e).
Proof.
  intros Hp He Hf. rewrite equ_of_orbit_R. rewrite !radius_periapsis_R, !radius_apoapsis_R.
  pose proof (COS_bound f) as B. split; [|intros H1]; apply Rdiv_le_contra; try lra.
  - rewrite <- (Rmult_1_r e) at 2. apply Rplus_le_compat_l, Rmult_le_compat_l; lra.
  - assert (e * -1 <= e * cos f) by (apply Rmult_le_compat_l; lra). lra.
Qed.
Lemma conic_attained p e : equ_of_orbit p e 0 = radius_periapsis p e /\ equ_of_orbit p e PI = radius_apoapsis p e.
Proof.
  rewrite !equ_of_orbit_R, cos_0, cos_PI. rewrite !radius_periapsis_R, !radius_apoapsis_R.
  split; f_equal; ring.
Qed.
Lemma conic_peri_only p e f : 0 < p -> 0 < e -> 0 < 1 + e * cos f ->
  (equ_of_orbit p e f = radius_periapsis p e <-> cos f = 1).
Proof.
  intros Hp He Hf. rewrite equ_of_orbit_R. rewrite !radius_periapsis_R. split.
  - intros H. assert (K : 1 + e * cos f = 1 + e).
    { apply (Rmult_eq_reg_l p); [|lra].
      apply (f_equal (fun x => x * ((1 + e) * (1 + e * cos f)))) in H.
      field_simplify in H; lra. }
    apply (Rmult_eq_reg_l e); lra.
  - intros ->. f_equal; ring.
Qed.
Lemma apsides_sum p e : 0 <= e < 1 -> radius_periapsis p e + radius_apoapsis p e = 2 * a_from_pe p e.
Proof. intros He. rewrite a_from_pe_R. rewrite !radius_periapsis_R, !radius_apoapsis_R. field. nra. Qed.

(** ** C05 *)
Lemma a_of_p_of_a a e : e ^ 2 <> 1 -> a_from_pe (semipara_from_ae a e) e = a.
Proof. intros H. rewrite a_from_pe_R, semipara_from_ae_R. field. lra. Qed.
Lemma p_of_a_of_p p e : e ^ 2 <> 1 -> semipara_from_ae (a_from_pe p e) e = p.
Proof. intros H. rewrite a_from_pe_R, semipara_from_ae_R. field. lra. Qed.
Lemma apsides_from_a a e : e ^ 2 <> 1 ->
  radius_periapsis (semipara_from_ae a e) e = a * (1 - e) /\
  radius_apoapsis (semipara_from_ae a e) e = a * (1 + e).
Proof.
  intros H. rewrite semipara_from_ae_R. rewrite !radius_periapsis_R, !radius_apoapsis_R.
  assert (1 + e <> 0) by nra. assert (1 - e <> 0) by nra. split; field; lra.
Qed.

(** ** Forms used by the property files *)
Lemma alpha_neq r v mu : r <> vzero -> 0 < mu -> energy mu r v <> 0 -> 2 / vnorm r - vnorm v ^ 2 / mu <> 0.
Proof.
  intros Hr Hmu He H. rewrite axis_energy in H by auto. apply He.
  apply (Rmult_eq_reg_l (-2 / mu)).
  - rewrite Rmult_0_r, <- H. field. lra.
  - unfold Rdiv. apply Rmult_integral_contrapositive. split; [lra|]. apply Rinv_neq_0_compat. lra.
Qed.

Lemma kind_axis r v mu :
  0 < mu -> cross r v <> vzero -> energy mu r v <> 0 ->
  let e := vnorm (eccentricity_vector r v mu) in
  let a := semimajor_axis (vnorm r) (vnorm v) mu in
  (e < 1 <-> 0 < a) /\ (1 < e <-> a < 0).
Proof.
  intros Hmu Hh He e a. pose proof (vec_nonzero_l _ _ Hh) as Hr.
  destruct (conic_kind r v mu Hmu Hh) as [A [_ B]]. destruct (axis_sign r v mu Hr Hmu He) as [C D].
  fold e in A, B. fold a in C, D. tauto.
Qed.

Lemma h_orthogonal r v mu :
  let h := angular_momentum r v in
  dot h r = 0 /\ dot h v = 0 /\ (r <> vzero -> 0 < mu -> dot h (eccentricity_vector r v mu) = 0).
Proof.
  rewrite angular_momentum_R. split; [|split].
  - rewrite dot_comm. apply dot_cross_self_l.
  - rewrite dot_comm. apply dot_cross_self_r.
  - intros Hr Hmu. rewrite dot_comm. apply ecc_dot_h; auto.
Qed.

Lemma e_dot_r r v mu : r <> vzero -> 0 < mu ->
  dot (eccentricity_vector r v mu) r = semiparameter (vnorm (angular_momentum r v)) mu - vnorm r.
Proof. intros Hr Hmu. rewrite angular_momentum_R. apply ecc_dot_r; auto. Qed.

Lemma conic_onto p e x : 0 < p -> 0 < e < 1 -> radius_periapsis p e <= x <= radius_apoapsis p e ->
  exists f, 0 <= f <= PI /\ equ_of_orbit p e f = x.
Proof.
  intros Hp He. rewrite radius_periapsis_R, radius_apoapsis_R. intros [A B].
  assert (Hx : 0 < x) by (eapply Rlt_le_trans; [|exact A]; apply Rdiv_lt_0_compat; lra).
  assert (A' : p <= x * (1 + e)).
  { apply Rmult_le_reg_r with (/ (1 + e)); [apply Rinv_0_lt_compat; lra|].
    replace (x * (1 + e) * / (1 + e)) with x by (field; lra). exact A. }
  assert (B' : x * (1 - e) <= p).
  { apply Rmult_le_reg_r with (/ (1 - e)); [apply Rinv_0_lt_compat; lra|].
    replace (x * (1 - e) * / (1 - e)) with x by (field; lra). exact B. }
  set (c := (p / x - 1) / e).
  assert (Hc : p = x * (1 + e * c)) by (unfold c; field; lra).
  assert (C : -1 <= c <= 1).
  { rewrite Hc in A', B'.
    apply Rmult_le_reg_l in A'; auto. apply Rmult_le_reg_l in B'; auto. nra. }
  exists (acos c). split; [apply acos_bound|].
  rewrite equ_of_orbit_R, cos_acos by auto. rewrite Hc at 1.
  assert (0 < 1 + e * c) by nra. field. lra.
Qed.
