(** * Mutants: wrong programs, and the properties that are false of them

    Tests of the theorems, not properties of the code (see DESIGN.md, section 5).  Each wrong function [m...] is the
    text of a model function with one realistic bug; the lemma below it is the negation of the
    statement of a property theorem of [Props*.v], with the wrong function in place of the right one (also
    inside the functions that call it).  m001, ... are the ids of seeded/LOG.jsonl. *)
From Coq Require Import Reals Lra Lia Psatz ZArith.
From Verif Require Import Num NumR Spec RLib OrbIntegrals OrbElements Uniformulas Lagrange KepEqu OrbFacts KepState UFacts Witness.

Section Wrong.
  Context {T : Type} {N : Num T}.
  Local Open Scope num_scope.
  Definition m001_orb_period (a mu : T) : T := #2 * n_pi * n_sqrt (a ** 3 * mu).
  Definition m002_a_from_period (orbperiod mu : T) : T := n_cbrt (orbperiod ** 2 * mu / #2 / n_pi ** 2).
  Definition m003_angular_momentum (pos_vec vel_vec : V3 T) : V3 T := vcross vel_vec pos_vec.
  Definition m003_eccentricity_vector (pos_vec vel_vec : V3 T) (mu : T) : V3 T :=
    let h := m003_angular_momentum pos_vec vel_vec in
    vsub (vdivs (vcross vel_vec h) mu) (vdivs pos_vec (vector_norm pos_vec)).
  Definition m004_semimajor_axis (r_mag v_mag mu : T) : T := #1 / (#1 / r_mag - v_mag ** 2 / mu).
  Definition m005_eccentricity_vector (pos_vec vel_vec : V3 T) (mu : T) : V3 T :=
    let h := angular_momentum pos_vec vel_vec in
    vsub (vdivs (vcross h vel_vec) mu) (vdivs pos_vec (vector_norm pos_vec)).
  Definition m006_semiparameter (h_mag mu : T) : T := h_mag / mu.
  Definition m007_mean_motion (P : T) : T := n_pi / P.
  Definition m008_equ_of_orbit (p e f : T) : T := p / (#1 - e * n_cos f).
  Definition m010_radius_apoapsis (p e : T) : T := p / (e - #1).
  Definition m011_a_from_pe (p e : T) : T := p / (#1 + e ** 2).
  Definition m013_ufunc0 (chi alpha : T) : T :=
    where_ (n_gt alpha #0)
      (n_cos (n_sqrt alpha * chi))
      (where_ (n_lt alpha #0)
        (n_cosh (n_sqrt (- alpha) * chi))
        #0).
  Definition m014_ufunc2 (chi alpha : T) : T :=
    where_ (n_gt alpha #0)
      ((#1 - n_cos (n_sqrt alpha * chi)) / alpha)
      (where_ (n_lt alpha #0)
        ((n_cosh (n_sqrt (- alpha) * chi) - #1) / alpha)
        (chi ** 2 / #2)).
  Definition m015_ufunc3 (chi alpha : T) : T :=
    where_ (n_gt alpha #0)
      ((n_sqrt alpha * chi - n_sin (n_sqrt alpha * chi)) / alpha / n_sqrt alpha)
      (where_ (n_lt alpha #0)
        ((n_sqrt (- alpha) * chi - n_sinh (n_sqrt (- alpha) * chi))
           / alpha / n_sqrt (- alpha))
        (chi ** 3 / #3)).
  Definition m016_ufunc4 (chi alpha : T) : T :=
    where_ (n_gt alpha #0)
      ((alpha * chi ** 2 - #2 + #2 * n_cos (n_sqrt alpha * chi)) / (#2 * alpha ** 2))
      (where_ (n_lt alpha #0)
        ((alpha * chi ** 2 - #2 + #2 * n_cosh (n_sqrt (- alpha) * chi))
           / (#2 * alpha ** 2))
        (chi ** 4 / #12)).
  Definition m017_ufunc5 (chi alpha : T) : T :=
    where_ (n_gt alpha #0)
      ((alpha ** 2 * chi ** 3 - #6 * alpha * chi
          + #6 * n_sqrt alpha * n_sin (n_sqrt alpha * chi)) / (#6 * alpha ** 3))
      (where_ (n_lt alpha #0)
        ((alpha ** 2 * chi ** 3 - #6 * alpha * chi
            + #6 * n_sqrt (- alpha) * n_sinh (n_sqrt (- alpha) * chi))
           / (#6 * alpha ** 3))
        (chi ** 5 / #120)).
  Definition m018_ufunc1 (chi alpha : T) : T :=
    where_ (n_gt #0 alpha)
      (n_sin (n_sqrt alpha * chi) / n_sqrt alpha)
      (where_ (n_lt alpha #0)
        (n_sinh (n_sqrt (- alpha) * chi) / n_sqrt (- alpha))
        chi).
End Wrong.

Local Open Scope R_scope.

Lemma sqrt_is x y : 0 <= y -> y * y = x -> sqrt x = y.
Proof. intros H <-. now apply sqrt_square. Qed.
Ltac off := unfold ltb; repeat match goal with |- context [Rlt_dec ?a ?b] => destruct (Rlt_dec a b); try (exfalso; lra) end.

Definition ex_ : vec := mk3 1 0 0.
Definition ey_ : vec := mk3 0 1 0.
Lemma ex_n : vnorm ex_ = 1. Proof. unfold vnorm. apply sqrt_is; unfold dot, ex_; simpl; lra. Qed.
Lemma ey_n : vnorm ey_ = 1. Proof. unfold vnorm. apply sqrt_is; unfold dot, ey_; simpl; lra. Qed.
Lemma ex_z : ex_ <> vzero. Proof. unfold ex_, vzero. intro K. injection K. lra. Qed.
Lemma exy : cross ex_ ey_ = mk3 0 0 1. Proof. unfold cross, ex_, ey_. simpl. f_equal; lra. Qed.
Lemma ez_n : vnorm (mk3 0 0 1) = 1. Proof. unfold vnorm. apply sqrt_is; unfold dot; simpl; lra. Qed.

Lemma m001_C01_third_law : ~ (forall a mu : R, 0 < a -> 0 < mu -> mean_motion (m001_orb_period a mu) ^ 2 * a ^ 3 = mu).
Proof.
  intro H. specialize (H 1 4 ltac:(lra) ltac:(lra)). rewrite mean_motion_R in H. pose proof PI_RGT_0.
  assert (E : m001_orb_period 1 4 = 2 * PI * 2).
  { unfold m001_orb_period. unnum. f_equal. apply sqrt_is; lra. }
  rewrite E in H. replace ((2 * PI / (2 * PI * 2)) ^ 2 * 1 ^ 3) with (1 / 4) in H by (field; lra). lra.
Qed.

Lemma m002_C01_axis_of_period : ~ (forall a mu : R, 0 < a -> 0 < mu -> m002_a_from_period (orb_period a mu) mu = a).
Proof.
  intro H. specialize (H 1 1 ltac:(lra) ltac:(lra)). pose proof PI_RGT_0.
  assert (E : m002_a_from_period (orb_period 1 1) 1 = cbrt 2).
  { rewrite orb_period_R, (sqrt_is (1 ^ 3 / 1) 1) by lra. unfold m002_a_from_period. unnum. f_equal. field. lra. }
  rewrite E in H. pose proof (cbrt_pow 2 ltac:(lra)) as K. rewrite H in K. lra.
Qed.

Lemma m003_C03_ecc_dot_position : ~ (forall (r v : vec) (mu : R), r <> vzero -> 0 < mu ->
  dot (m003_eccentricity_vector r v mu) r = semiparameter (vnorm (m003_angular_momentum r v)) mu - vnorm r).
Proof.
  intro H. specialize (H ex_ ey_ 1 ex_z ltac:(lra)). rewrite semiparameter_R, ex_n in H.
  assert (A : vnorm (m003_angular_momentum ex_ ey_) = 1).
  { unfold vnorm. apply sqrt_is; unfold dot, m003_angular_momentum, vcross, ex_, ey_; unnum; simpl; lra. }
  rewrite A in H. unfold m003_eccentricity_vector in H. rewrite vector_norm_vnorm, ex_n in H.
  unfold dot, m003_angular_momentum, ex_, ey_ in H. cbn in H. lra.
Qed.

Lemma m004_C02_axis_of_energy : ~ (forall (r v : vec) (mu : R), r <> vzero -> 0 < mu -> energy mu r v <> 0 ->
  m004_semimajor_axis (vnorm r) (vnorm v) mu = - mu / (2 * energy mu r v)).
Proof.
  intro H. specialize (H ex_ (mk3 0 2 0) 1 ex_z ltac:(lra)).
  assert (B : vnorm (mk3 0 2 0) = 2) by (unfold vnorm; apply sqrt_is; unfold dot; simpl; lra).
  assert (E : energy 1 ex_ (mk3 0 2 0) = 1) by (unfold energy; rewrite ex_n; unfold dot; simpl; lra).
  rewrite ex_n, B, E in H. specialize (H ltac:(lra)). unfold m004_semimajor_axis in H. cbn in H. lra.
Qed.

Lemma m005_C03_ecc_dot_position : ~ (forall (r v : vec) (mu : R), r <> vzero -> 0 < mu ->
  dot (m005_eccentricity_vector r v mu) r = semiparameter (vnorm (angular_momentum r v)) mu - vnorm r).
Proof.
  intro H. specialize (H ex_ ey_ 1 ex_z ltac:(lra)).
  rewrite semiparameter_R, angular_momentum_R, exy, ez_n, ex_n in H.
  unfold m005_eccentricity_vector in H. rewrite vector_norm_vnorm, ex_n in H.
  unfold dot, angular_momentum, ex_, ey_ in H. cbn in H. lra.
Qed.

Lemma m006_C03_ecc_dot_position : ~ (forall (r v : vec) (mu : R), r <> vzero -> 0 < mu ->
  dot (eccentricity_vector r v mu) r = m006_semiparameter (vnorm (angular_momentum r v)) mu - vnorm r).
Proof.
  intro H. specialize (H ex_ (mk3 0 2 0) 1 ex_z ltac:(lra)).
  assert (A : vnorm (angular_momentum ex_ (mk3 0 2 0)) = 2).
  { unfold vnorm. apply sqrt_is; unfold dot, angular_momentum, vcross, ex_; unnum; simpl; lra. }
  rewrite A, ex_n, eccentricity_vector_R, ex_n in H. unfold m006_semiparameter, vminus, smul, cross, dot, ex_ in H.
  cbn in H. lra.
Qed.

Lemma m007_C01_third_law : ~ (forall a mu : R, 0 < a -> 0 < mu -> m007_mean_motion (orb_period a mu) ^ 2 * a ^ 3 = mu).
Proof.
  intro H. specialize (H 1 1 ltac:(lra) ltac:(lra)). pose proof PI_RGT_0.
  rewrite orb_period_R, (sqrt_is (1 ^ 3 / 1) 1) in H by lra. unfold m007_mean_motion in H. revert H. unnum. intro H.
  replace ((PI / (2 * PI * 1)) ^ 2 * 1 ^ 3) with (1 / 4) in H by (field; lra). lra.
Qed.

Lemma m008_C04_attained : ~ (forall p e : R,
  m008_equ_of_orbit p e 0 = radius_periapsis p e /\ m008_equ_of_orbit p e PI = radius_apoapsis p e).
Proof.
  intro H. destruct (H 3 (1 / 2)) as [A _]. rewrite radius_periapsis_R in A. unfold m008_equ_of_orbit in A.
  revert A. unnum. rewrite cos_0. lra.
Qed.

Lemma m010_C04_apsides_sum : ~ (forall p e : R, 0 <= e < 1 -> radius_periapsis p e + m010_radius_apoapsis p e = 2 * a_from_pe p e).
Proof.
  intro H. specialize (H 3 (1 / 2) ltac:(lra)). rewrite radius_periapsis_R, a_from_pe_R in H.
  revert H. unfold m010_radius_apoapsis. unnum. lra.
Qed.

Lemma m011_C05_axis_roundtrip : ~ (forall a e : R, e ^ 2 <> 1 -> m011_a_from_pe (semipara_from_ae a e) e = a).
Proof.
  intro H. specialize (H 1 2 ltac:(lra)). rewrite semipara_from_ae_R in H. revert H. unfold m011_a_from_pe. unnum. lra.
Qed.

Lemma m013_C09_at_zero : ~ (forall alpha : R,
  m013_ufunc0 0 alpha = 1 /\ ufunc1 0 alpha = 0 /\ ufunc2 0 alpha = 0 /\ ufunc3 0 alpha = 0 /\ ufunc4 0 alpha = 0 /\ ufunc5 0 alpha = 0).
Proof.
  intro H. destruct (H 0) as [A _]. revert A. unfold m013_ufunc0. unnum. off. lra.
Qed.

Lemma m014_C08_recurrence : ~ (forall chi alpha : R,
  ufunc0 chi alpha + alpha * m014_ufunc2 chi alpha = 1 /\
  ufunc1 chi alpha + alpha * ufunc3 chi alpha = chi /\
  m014_ufunc2 chi alpha + alpha * ufunc4 chi alpha = chi ^ 2 / 2 /\
  ufunc3 chi alpha + alpha * ufunc5 chi alpha = chi ^ 3 / 6).
Proof.
  intro H. destruct (H 1 (-1)) as [A _]. revert A. unfold m014_ufunc2, ufunc0. unnum. off.
  rewrite (sqrt_is (- -1) 1) by lra. rewrite Rmult_1_l. pose proof (exp_ineq1 1 ltac:(lra)).
  unfold cosh. match goal with |- context [exp ?x] => match x with 1 => fail 1 | _ => pose proof (exp_pos x) end end.
  intro A. lra.
Qed.

Lemma m015_C08_recurrence : ~ (forall chi alpha : R,
  ufunc0 chi alpha + alpha * ufunc2 chi alpha = 1 /\
  ufunc1 chi alpha + alpha * m015_ufunc3 chi alpha = chi /\
  ufunc2 chi alpha + alpha * ufunc4 chi alpha = chi ^ 2 / 2 /\
  m015_ufunc3 chi alpha + alpha * ufunc5 chi alpha = chi ^ 3 / 6).
Proof.
  intro H. destruct (H 1 0) as (_ & _ & _ & A). revert A. unfold m015_ufunc3, ufunc5. unnum. off. lra.
Qed.

Lemma m016_C06_one_family : ~ (forall chi alpha : R,
  ufunc0 chi alpha = universal 0 chi alpha /\
  ufunc1 chi alpha = universal 1 chi alpha /\
  ufunc2 chi alpha = universal 2 chi alpha /\
  ufunc3 chi alpha = universal 3 chi alpha /\
  m016_ufunc4 chi alpha = universal 4 chi alpha /\
  ufunc5 chi alpha = universal 5 chi alpha).
Proof.
  intro H. destruct (H 1 0) as (_ & _ & _ & _ & A & _). destruct (ufunc_universal 1 0) as (_ & _ & _ & _ & B & _).
  rewrite <- B in A. revert A. unfold m016_ufunc4, ufunc4. unnum. off. lra.
Qed.

Lemma m017_C08_recurrence : ~ (forall chi alpha : R,
  ufunc0 chi alpha + alpha * ufunc2 chi alpha = 1 /\
  ufunc1 chi alpha + alpha * ufunc3 chi alpha = chi /\
  ufunc2 chi alpha + alpha * ufunc4 chi alpha = chi ^ 2 / 2 /\
  ufunc3 chi alpha + alpha * m017_ufunc5 chi alpha = chi ^ 3 / 6).
Proof.
  intro H. destruct (H 1 (-1)) as (_ & _ & _ & A). revert A. unfold m017_ufunc5, ufunc3. unnum. off.
  rewrite (sqrt_is (- -1) 1) by lra. rewrite Rmult_1_l. pose proof (exp_ineq1 1 ltac:(lra)).
  unfold sinh. match goal with |- context [exp ?x] => match x with 1 => fail 1 | _ =>
    assert (exp x < exp 0) by (apply exp_increasing; lra) end end.
  rewrite exp_0 in *. intro A. lra.
Qed.

Lemma m018_C08_recurrence : ~ (forall chi alpha : R,
  ufunc0 chi alpha + alpha * ufunc2 chi alpha = 1 /\
  m018_ufunc1 chi alpha + alpha * ufunc3 chi alpha = chi /\
  ufunc2 chi alpha + alpha * ufunc4 chi alpha = chi ^ 2 / 2 /\
  ufunc3 chi alpha + alpha * ufunc5 chi alpha = chi ^ 3 / 6).
Proof.
  intro H. destruct (H PI 1) as (_ & A & _ & _). revert A. unfold m018_ufunc1, ufunc3. unnum. off.
  rewrite sqrt_1, !Rmult_1_l, sin_PI. pose proof PI_RGT_0. lra.
Qed.
