(** * PathExamples: concrete instances and witnesses for C35-C38 *)
From Coq Require Import Reals Lra Lia Psatz ZArith Bool.
From Verif Require Import Num NumR Spec SpecPath RLib RotFacts OrbIntegrals OrbFacts PathCheck PathFacts.
Local Open Scope R_scope.

Ltac vcomp := unfold dot, cross, vplus, vminus, smul; cbn [c0 c1 c2].
Lemma not_vz x y z : x <> 0 \/ y <> 0 \/ z <> 0 -> mk3 x y z <> vzero.
Proof. intros H E. unfold vzero in E. injection E. intros. lra. Qed.

Lemma short_examples :
  is_short_way (mk3 1 0 0) (mk3 0 1 0) (mk3 (-1) 1 0) = true /\
  is_short_way (mk3 1 0 0) (mk3 0 1 0) (mk3 (-1) (-1) 0) = false /\
  is_short_way (mk3 1 0 0) (mk3 0 1 0) (mk3 (-1) 0 0) = false.
Proof.
  rewrite !is_short_way_R, ltb_true, !ltb_false. vcomp. lra.
Qed.

(** Orbit with p = 1, e = 1/2, periapsis along x, departing a quarter turn after periapsis. *)
Definition qr := mk3 0 1 0.
Definition qv := mk3 (-1) (1 / 2) 0.
Lemma qr_norm : vnorm qr = 1.
Proof. apply vnorm_unique; [lra|]. unfold qr. vcomp. ring. Qed.
Lemma qh : cross qr qv = mk3 0 0 1.
Proof. unfold qr, qv. vcomp. apply mk3_eq; ring. Qed.
Lemma qh_norm : vnorm (mk3 0 0 1) = 1.
Proof. apply vnorm_unique; [lra|]. vcomp. ring. Qed.
Lemma qe : eccentricity_vector qr qv 1 = mk3 (1 / 2) 0 0.
Proof.
  rewrite eccentricity_vector_R, qr_norm, qh. unfold qr, qv. vcomp. apply mk3_eq; field.
Qed.
Lemma pass_examples :
  pass_perigee qr qv (mk3 1 (-1) 0) 1 = false /\
  pass_perigee qr qv (mk3 1 1 0) 1 = true /\
  pass_perigee qr qv (mk3 (-1) 0 0) 1 = false.
Proof.
  rewrite !pass_perigee_R, !is_short_way_R, !qe, !qh.
  assert (T : forall x, 0 < x -> ltb 0 x = true) by (intros; now apply ltb_true).
  assert (F : forall x, x <= 0 -> ltb 0 x = false) by (intros; now apply ltb_false).
  unfold qr. vcomp.
  repeat match goal with |- context [ltb 0 ?x] => first [rewrite (T x) by lra | rewrite (F x) by lra] end.
  auto.
Qed.
Lemma q_turn rho t : turn (mk3 0 0 1) (mk3 (1 / 2) 0 0) rho t = mk3 (rho * cos t / 2) (rho * sin t / 2) 0.
Proof. unfold turn. rewrite qh_norm. vcomp. apply mk3_eq; field. Qed.
Lemma cos_3h : cos (PI / 2 + PI) = 0.
Proof. rewrite neg_cos, cos_PI2. ring. Qed.
Lemma sin_3h : sin (PI / 2 + PI) = -1.
Proof. rewrite neg_sin, sin_PI2. ring. Qed.
(** The half revolution through apoapsis is reported as passing perigee. *)
Lemma pass_refuted :
  let h := cross qr qv in let e := eccentricity_vector qr qv 1 in
  h <> vzero /\ e <> vzero /\
  qr = turn h e 2 (PI / 2) /\ mk3 0 (-1) 0 = turn h e 2 (PI / 2 + PI) /\
  pass_perigee qr qv (mk3 0 (-1) 0) 1 = true /\
  ~ (exists phi, PI / 2 <= phi <= PI / 2 + PI /\ cos phi = 1).
Proof.
  cbv zeta. rewrite qh, qe, !q_turn, cos_PI2, sin_PI2, cos_3h, sin_3h.
  split; [apply not_vz; lra|]. split; [apply not_vz; lra|].
  split; [unfold qr; apply mk3_eq; field|]. split; [apply mk3_eq; field|]. split.
  - rewrite pass_perigee_R, is_short_way_R, qe, qh.
    assert (F : forall x, x <= 0 -> ltb 0 x = false) by (intros; now apply ltb_false).
    unfold qr. vcomp.
    repeat match goal with |- context [ltb 0 ?x] => rewrite (F x) by lra end. reflexivity.
  - intros [phi [A B]]. pose proof (cos_le_0 phi). lra.
Qed.
(** Departing exactly at periapsis counts as passing it for long arcs only. *)
Lemma pass_from_periapsis :
  let r := mk3 (2 / 3) 0 0 in let v := mk3 0 (3 / 2) 0 in
  eccentricity_vector r v 1 = mk3 (1 / 2) 0 0 /\
  pass_perigee r v (mk3 0 1 0) 1 = false /\ pass_perigee r v (mk3 0 (-1) 0) 1 = true.
Proof.
  cbv zeta.
  assert (E : eccentricity_vector (mk3 (2 / 3) 0 0) (mk3 0 (3 / 2) 0) 1 = mk3 (1 / 2) 0 0).
  { rewrite eccentricity_vector_R. replace (vnorm (mk3 (2 / 3) 0 0)) with (2 / 3).
    - vcomp. apply mk3_eq; field.
    - symmetry. apply vnorm_unique; [lra|]. vcomp. ring. }
  rewrite !pass_perigee_R, !is_short_way_R, !E. vcomp.
  assert (T : forall x, 0 < x -> ltb 0 x = true) by (intros; now apply ltb_true).
  assert (F : forall x, x <= 0 -> ltb 0 x = false) by (intros; now apply ltb_false).
  repeat match goal with |- context [ltb 0 ?x] => first [rewrite (T x) by lra | rewrite (F x) by lra] end.
  auto.
Qed.
(** Periapsis radius of the orbit through [qr], [qv] is 2/3. *)
Lemma low_examples : rp_islower_rmin (7 / 10) qr qv 1 = true /\ rp_islower_rmin (6 / 10) qr qv 1 = false.
Proof.
  rewrite !rp_islower_rmin_R, ltb_true, ltb_false, qe, qh, qh_norm, radius_periapsis_R, semiparameter_R.
  replace (vnorm (mk3 (1 / 2) 0 0)) with (1 / 2) by (symmetry; apply vnorm_unique; [lra|]; vcomp; ring).
  split; lra.
Qed.
Lemma nmax_example : nmax_by_periapsis (1 / 2) (1 / 2) (7 / 2) (41 * PI) 1 = 7.
Proof.
  rewrite nmax_by_periapsis_R. rewrite Rmax_right by lra.
  pose proof PI_pos.
  replace (41 * PI / (2 * PI)) with (41 / 2) by (field; lra).
  assert (S : sqrt (1 / (1 / 2 * (7 / 2 + 1 / 2)) ^ 3) * sqrt (1 / (1 / 2 * (7 / 2 + 1 / 2)) ^ 3) = 1 / 8).
  { rewrite sqrt_sqrt; lra. }
  set (s := sqrt _) in *. assert (0 <= s) by apply sqrt_pos. clearbody s.
  assert (B : 7 <= 41 / 2 * s < 8) by (split; nra).
  unfold floorR. destruct (base_Int_part (41 / 2 * s)) as [A C].
  assert (I : Int_part (41 / 2 * s) = 7%Z); [|now rewrite I].
  assert (7 < Int_part (41 / 2 * s) + 1)%Z by (apply lt_IZR; rewrite plus_IZR; lra).
  assert (Int_part (41 / 2 * s) < 8)%Z by (apply lt_IZR; lra). lia.
Qed.
