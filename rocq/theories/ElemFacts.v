(** * ElemFacts: classical elements (proofs for C31-C34) *)
From Coq Require Import Reals Lra Lia Psatz.
From Verif Require Import Num NumR Spec RLib Atan2 RotMat RotFacts OrbIntegrals OrbFacts OrbElements UFacts.
Local Open Scope R_scope.

(** ** Plain forms *)
Lemma inclination_R h : inclination h = acos (c2 h / vnorm h).
Proof. reflexivity. Qed.
Lemma node_vec_R h : node_vec h = cross ez h.
Proof. reflexivity. Qed.
Lemma right_ascension_R n : right_ascension n = wrap (atan2 (c1 n) (c0 n)).
Proof. reflexivity. Qed.
Lemma argument_of_periapsis_R n e :
  argument_of_periapsis n e = wrap (atan2 (vnorm (cross n e)) (dot n e)).
Proof. reflexivity. Qed.
Lemma rv2coe_R r v mu : rv2coe r v mu =
  mkcoe (semiparameter (vnorm (cross r v)) mu) (vnorm (eccentricity_vector r v mu))
        (inclination (cross r v)) (right_ascension (node_vec (cross r v)))
        (argument_of_periapsis (node_vec (cross r v)) (eccentricity_vector r v mu))
        (true_anomaly r (eccentricity_vector r v mu)).
Proof. reflexivity. Qed.

Definition Q (raan incl argp : R) : mat :=
  mprod (mprod (rotmat3dz raan) (rotmat3dx incl)) (rotmat3dz argp).
Definition rpf (p e f : R) : vec := smul (p / (1 + e * cos f)) (mk3 (cos f) (sin f) 0).
Definition vpf (p e f mu : R) : vec := smul (sqrt (mu / p)) (mk3 (- sin f) (e + cos f) 0).
Lemma coe2rv_R p e i O w f mu :
  coe2rv p e i O w f mu = (row_col (Q O i w) (rpf p e f), row_col (Q O i w) (vpf p e f mu)).
Proof. unfold coe2rv, Q. rewrite !mmul_mprod, !mvec_row_col, !vscale_smul. reflexivity. Qed.

Lemma rot_Q O i w : rotation (Q O i w).
Proof. unfold Q. apply rot_prod; [apply rot_prod|]; [apply rot_z|apply rot_x|apply rot_z]. Qed.

(** ** Angles *)
Lemma acos_cos_range t : 0 <= acos (cos t) <= PI.
Proof. apply acos_bound. Qed.
Lemma sin_acos_cos t : sin (acos (cos t)) = Rabs (sin t).
Proof.
  rewrite sin_acos by apply COS_bound.
  rewrite <- sqrt_Rsqr_abs. f_equal. pose proof (sin2_cos2 t). unfold Rsqr in *. lra.
Qed.
Lemma cos_acos_cos t : cos (acos (cos t)) = cos t.
Proof. apply cos_acos, COS_bound. Qed.
Lemma fold_angle t : 0 <= t < 2 * PI -> acos (cos t) = Rmin t (2 * PI - t).
Proof.
  intros H. pose proof PI_pos. unfold Rmin. destruct (Rle_dec t (2 * PI - t)) as [L|L].
  - apply acos_cos. lra.
  - replace (cos t) with (cos (2 * PI - t)). apply acos_cos; lra.
    replace (2 * PI - t) with (- t + 2 * INR 1 * PI) by (simpl; ring).
    rewrite cos_period. apply cos_neg.
Qed.
Lemma wrap_atan2_abs k t : 0 < k -> wrap (atan2 (k * Rabs (sin t)) (k * cos t)) = acos (cos t).
Proof.
  intros K. pose proof (acos_cos_range t). pose proof PI_pos.
  pose proof (sin_acos_cos t) as S. pose proof (cos_acos_cos t) as C.
  set (u := acos (cos t)) in *. clearbody u. rewrite <- S, <- C.
  rewrite atan2_polar; [|auto|lra]. apply wrap_nonneg. lra.
Qed.
Lemma wrap_angle a t : - PI < a <= PI -> 0 <= t < 2 * PI -> cos a = cos t -> sin a = sin t -> wrap a = t.
Proof.
  intros Ha Ht Hc Hs. pose proof (wrap_range a Ha).
  apply angle_unique; [lra|now rewrite cos_wrap|now rewrite sin_wrap].
Qed.
Lemma wrap_atan2 k t : 0 < k -> 0 <= t < 2 * PI -> wrap (atan2 (k * sin t) (k * cos t)) = t.
Proof.
  intros K Ht. pose proof PI_pos.
  destruct (Rle_dec t PI) as [L|L].
  - rewrite atan2_polar; [apply wrap_nonneg|auto|]; lra.
  - replace (sin t) with (sin (t - 2 * PI)). replace (cos t) with (cos (t - 2 * PI)).
    + rewrite atan2_polar; [|auto|lra]. apply wrap_angle; [lra|auto| |].
      * rewrite <- (cos_period (t - 2 * PI) 1). f_equal. simpl. ring.
      * rewrite <- (sin_period (t - 2 * PI) 1). f_equal. simpl. ring.
    + rewrite <- (cos_period (t - 2 * PI) 1). f_equal. simpl. ring.
    + rewrite <- (sin_period (t - 2 * PI) 1). f_equal. simpl. ring.
Qed.
Lemma sin_nonneg_iff t : 0 <= t < 2 * PI -> (0 <= sin t <-> t <= PI).
Proof.
  intros H. split; intros S.
  - destruct (Rle_dec t PI); auto. pose proof (sin_lt_0 t). lra.
  - apply sin_ge_0; lra.
Qed.

(** ** Perifocal state *)
Section Perifocal.
  Variables (p e f mu : R).
  Hypothesis Hp : 0 < p.
  Hypothesis He : 0 <= e.
  Hypothesis Hmu : 0 < mu.
  Hypothesis Hf : 0 < 1 + e * cos f.
  Let rad := p / (1 + e * cos f).
  Lemma rad_pos : 0 < rad.
  Proof. apply Rdiv_lt_0_compat; auto. Qed.
  Lemma rpf_norm : vnorm (rpf p e f) = rad.
  Proof.
    pose proof rad_pos. pose proof (sin2_cos2 f) as H1. unfold Rsqr in H1.
    apply vnorm_unique; [lra|]. unfold rpf, dot, smul; cbn [c0 c1 c2]. fold rad.
    replace (rad * cos f * (rad * cos f) + rad * sin f * (rad * sin f) + rad * 0 * (rad * 0))
      with (rad * rad * (sin f * sin f + cos f * cos f)) by ring. rewrite H1. ring.
  Qed.
  Lemma sq_ratio : sqrt (mu / p) * sqrt (mu / p) = mu / p.
  Proof. apply sqrt_sqrt. apply Rlt_le, Rdiv_lt_0_compat; auto. Qed.
  Lemma sq_mup : p * sqrt (mu / p) = sqrt (mu * p).
  Proof.
    symmetry. apply sqrt_lem_1.
    - apply Rmult_le_pos; lra.
    - apply Rmult_le_pos; [lra|apply sqrt_pos].
    - replace (p * sqrt (mu / p) * (p * sqrt (mu / p))) with (p * p * (sqrt (mu / p) * sqrt (mu / p))) by ring.
      rewrite sq_ratio. field. lra.
  Qed.
  Lemma h_pf : cross (rpf p e f) (vpf p e f mu) = smul (sqrt (mu * p)) ez.
  Proof.
    rewrite <- sq_mup. pose proof (sin2_cos2 f) as H1. unfold Rsqr in H1.
    unfold rpf, vpf, cross, smul, ez; cbn [c0 c1 c2]. apply mk3_eq; [ring|ring|].
    assert (D : p / (1 + e * cos f) * (1 + e * cos f) = p) by (field; lra).
    replace (p / (1 + e * cos f) * cos f * (sqrt (mu / p) * (e + cos f)) -
      p / (1 + e * cos f) * sin f * (sqrt (mu / p) * - sin f)) with
      (p / (1 + e * cos f) * sqrt (mu / p) * (e * cos f + (sin f * sin f + cos f * cos f))) by ring.
    rewrite H1. replace (e * cos f + 1) with (1 + e * cos f) by ring.
    replace (p / (1 + e * cos f) * sqrt (mu / p) * (1 + e * cos f))
      with (p / (1 + e * cos f) * (1 + e * cos f) * sqrt (mu / p)) by ring. rewrite D. ring.
  Qed.
  Lemma e_pf : eccentricity_vector (rpf p e f) (vpf p e f mu) mu = smul e ex.
  Proof.
    rewrite eccentricity_vector_R, h_pf, rpf_norm. pose proof rad_pos as Hr.
    unfold rpf, vpf, cross, smul, vminus, ez, ex; cbn [c0 c1 c2]. fold rad.
    rewrite <- sq_mup.
    assert (E : / mu * (sqrt (mu / p) * (p * sqrt (mu / p))) = 1).
    { replace (sqrt (mu / p) * (p * sqrt (mu / p))) with (p * (sqrt (mu / p) * sqrt (mu / p))) by ring.
      rewrite sq_ratio. field. lra. }
    set (s := sqrt (mu / p)) in *.
    assert (E2 : / rad * rad = 1) by (field; lra).
    set (ir := / rad) in *. clearbody ir. set (im := / mu) in *. clearbody im s. clearbody rad.
    apply mk3_eq.
    - replace (im * (s * (e + cos f) * (p * s * 1) - s * 0 * (p * s * 0)) - ir * (rad * cos f))
        with ((im * (s * (p * s))) * (e + cos f) - (ir * rad) * cos f) by ring. rewrite E, E2. ring.
    - replace (im * (s * 0 * (p * s * 0) - s * - sin f * (p * s * 1)) - ir * (rad * sin f))
        with ((im * (s * (p * s))) * sin f - (ir * rad) * sin f) by ring. rewrite E, E2. ring.
    - ring.
  Qed.
  Lemma rv_pf : dot (rpf p e f) (vpf p e f mu) = rad * (sqrt (mu / p) * e * sin f).
  Proof. unfold rpf, vpf, dot, smul; cbn [c0 c1 c2]. fold rad. ring. Qed.
End Perifocal.

(** ** The frame *)
Ltac qgen := rewrite rotmat3dx_R, !rotmat3dz_R; munfold;
  repeat match goal with |- context [cos ?x] => let c := fresh "c" in set (c := cos x); clearbody c end;
  repeat match goal with |- context [sin ?x] => let c := fresh "c" in set (c := sin x); clearbody c end.
Lemma Q_vec O i w a b : row_col (Q O i w) (mk3 a b 0) =
  mk3 (cos O * (cos w * a - sin w * b) - sin O * (sin w * a + cos w * b) * cos i)
      (sin O * (cos w * a - sin w * b) + cos O * (sin w * a + cos w * b) * cos i)
      ((sin w * a + cos w * b) * sin i).
Proof. unfold Q. rewrite !mprod_vec. qgen. apply mk3_eq; ring. Qed.
Lemma Q_ez O i w : row_col (Q O i w) ez = mk3 (sin O * sin i) (- (cos O * sin i)) (cos i).
Proof. unfold Q, ez. rewrite !mprod_vec. qgen. apply mk3_eq; ring. Qed.
Lemma Q_node O i w : row_col (Q O i w) (mk3 (cos w) (- sin w) 0) = mk3 (cos O) (sin O) 0.
Proof.
  unfold Q. rewrite mprod_vec.
  replace (row_col (rotmat3dz w) (mk3 (cos w) (- sin w) 0)) with ex.
  - rewrite mprod_vec. unfold ex. qgen. apply mk3_eq; ring.
  - pose proof (sin2_cos2 w) as H1. unfold Rsqr in H1. rewrite rotmat3dz_R. unfold ex. munfold.
    apply mk3_eq; lra.
Qed.
Lemma Q_ex O i w : row_col (Q O i w) ex =
  mk3 (cos O * cos w - sin O * sin w * cos i) (sin O * cos w + cos O * sin w * cos i) (sin w * sin i).
Proof. unfold Q, ex. rewrite !mprod_vec. qgen. apply mk3_eq; ring. Qed.

(** ** C31 *)
Section Coe.
  Variables (p e i O w f mu : R).
  Hypothesis Hp : 0 < p.
  Hypothesis He : 0 <= e.
  Hypothesis Hmu : 0 < mu.
  Hypothesis Hf : 0 < 1 + e * cos f.
  Variables (r v : vec).
  Hypothesis Hrv : coe2rv p e i O w f mu = (r, v).
  Lemma coe_rv : r = row_col (Q O i w) (rpf p e f) /\ v = row_col (Q O i w) (vpf p e f mu).
  Proof using All. rewrite coe2rv_R in Hrv. apply pair_equal_spec in Hrv. intuition congruence. Qed.
  Lemma coe_h : cross r v =
    smul (sqrt (mu * p)) (mk3 (sin O * sin i) (- (cos O * sin i)) (cos i)).
  Proof using All.
    destruct coe_rv as [-> ->]. rewrite rot_cross by apply rot_Q.
    rewrite h_pf by auto. now rewrite row_col_smul, Q_ez.
  Qed.
  Lemma sqrt_mup_pos : 0 < sqrt (mu * p).
  Proof. apply sqrt_lt_R0. now apply Rmult_lt_0_compat. Qed.
  Lemma coe_h_norm : vnorm (cross r v) = sqrt (mu * p).
  Proof using All.
    destruct coe_rv as [-> ->]. rewrite rot_cross, rot_norm by apply rot_Q.
    rewrite h_pf, vnorm_smul by auto.
    replace (vnorm ez) with 1. rewrite Rabs_pos_eq; [ring|apply Rlt_le, sqrt_mup_pos].
    symmetry. apply vnorm_unique; [lra|]. unfold ez, dot; cbn [c0 c1 c2]. ring.
  Qed.
  Lemma coe_e_vec : eccentricity_vector r v mu = smul e (row_col (Q O i w) ex).
  Proof using All.
    destruct coe_rv as [-> ->]. rewrite rot_eccentricity_vector by apply rot_Q.
    rewrite e_pf by auto. now rewrite row_col_smul.
  Qed.
  Lemma coe_ecc : vnorm (eccentricity_vector r v mu) = e.
  Proof using All.
    rewrite coe_e_vec, vnorm_smul, rot_norm by apply rot_Q.
    replace (vnorm ex) with 1. rewrite Rabs_pos_eq; lra.
    symmetry. apply vnorm_unique; [lra|]. unfold ex, dot; cbn [c0 c1 c2]. ring.
  Qed.
  Lemma coe_p_ok : semiparameter (vnorm (cross r v)) mu = p.
  Proof using All.
    rewrite semiparameter_R, coe_h_norm. replace (sqrt (mu * p) ^ 2) with (sqrt (mu * p) * sqrt (mu * p)) by ring.
    rewrite sqrt_sqrt. field; lra. apply Rmult_le_pos; lra.
  Qed.
  Lemma coe_r : vnorm r = equ_of_orbit p e f.
  Proof using All. destruct coe_rv as [-> _]. rewrite rot_norm, rpf_norm; auto. apply rot_Q. Qed.
  Lemma coe_vr : dot r v / vnorm r = sqrt (mu / p) * e * sin f.
  Proof using All.
    rewrite coe_r, equ_of_orbit_R. destruct coe_rv as [-> ->]. rewrite rot_dot by apply rot_Q.
    rewrite rv_pf by auto. field. lra.
  Qed.
  Lemma coe_pos : r = smul (equ_of_orbit p e f)
    (mk3 (cos O * cos (w + f) - sin O * sin (w + f) * cos i)
         (sin O * cos (w + f) + cos O * sin (w + f) * cos i)
         (sin (w + f) * sin i)).
  Proof using All.
    rewrite equ_of_orbit_R. destruct coe_rv as [-> _]. unfold rpf. rewrite row_col_smul. f_equal.
    rewrite cos_plus, sin_plus. apply Q_vec.
  Qed.
  Lemma coe_h_nz : cross r v <> vzero.
  Proof using All. apply vnorm_neq. rewrite coe_h_norm. pose proof sqrt_mup_pos. lra. Qed.
  Lemma coe_nz : r <> vzero.
  Proof using All. apply vec_nonzero_l with v. apply coe_h_nz. Qed.

  (** ** C32: what rv2coe reads back *)
  Lemma coe_incl_ok : inclination (cross r v) = acos (cos i).
  Proof using All.
    rewrite inclination_R, coe_h_norm, coe_h. unfold smul; cbn [c0 c1 c2].
    pose proof sqrt_mup_pos. f_equal. field. lra.
  Qed.
  Lemma coe_node : node_vec (cross r v) = smul (sqrt (mu * p) * sin i) (mk3 (cos O) (sin O) 0).
  Proof using All. rewrite node_vec_R, coe_h. unfold ez. munfold. apply mk3_eq; ring. Qed.
  Lemma coe_raan_ok : 0 < sin i -> 0 <= O < 2 * PI -> right_ascension (node_vec (cross r v)) = O.
  Proof using All.
    intros Hi HO. rewrite right_ascension_R, coe_node. unfold smul; cbn [c0 c1 c2].
    apply wrap_atan2; auto. apply Rmult_lt_0_compat; auto. apply sqrt_mup_pos.
  Qed.
  Lemma coe_raan_retro : sin i = 0 -> right_ascension (node_vec (cross r v)) = 0.
  Proof using All.
    intros Hi. rewrite right_ascension_R, coe_node, Hi. unfold smul; cbn [c0 c1 c2].
    rewrite Rmult_0_r, !Rmult_0_l.
    replace (atan2 0 0) with 0. apply wrap_nonneg; lra.
    unfold atan2. destruct (Rlt_dec 0 0); [lra|reflexivity].
  Qed.
  Lemma coe_argp_ok : 0 < sin i -> 0 < e ->
    argument_of_periapsis (node_vec (cross r v)) (eccentricity_vector r v mu) = acos (cos w).
  Proof using All.
    intros Hi He'. rewrite argument_of_periapsis_R, coe_node, coe_e_vec.
    rewrite <- (Q_node O i w). set (k := sqrt (mu * p) * sin i).
    assert (K : 0 < k) by (apply Rmult_lt_0_compat; auto; apply sqrt_mup_pos).
    rewrite <- !row_col_smul, rot_cross, rot_norm, rot_dot by apply rot_Q.
    replace (vnorm _) with (k * e * Rabs (sin w)).
    - replace (dot _ _) with (k * e * cos w).
      + apply wrap_atan2_abs. now apply Rmult_lt_0_compat.
      + unfold dot, smul, ex; cbn [c0 c1 c2]. ring.
    - symmetry. apply vnorm_unique.
      + apply Rmult_le_pos; [|apply Rabs_pos]. apply Rmult_le_pos; lra.
      + replace (k * e * Rabs (sin w) * (k * e * Rabs (sin w)))
          with (k * e * (k * e) * (Rabs (sin w) * Rabs (sin w))) by ring.
        replace (Rabs (sin w) * Rabs (sin w)) with (sin w * sin w)
          by (rewrite <- Rabs_mult; symmetry; apply Rabs_pos_eq, Rle_0_sqr).
        unfold dot, cross, smul, ex; cbn [c0 c1 c2]. ring.
  Qed.
  Lemma coe_f_ok : 0 < e -> true_anomaly r (eccentricity_vector r v mu) = acos (cos f).
  Proof using All.
    intros He'. rewrite true_anomaly_R, coe_e_vec. destruct coe_rv as [-> _].
    rewrite <- row_col_smul, rot_cross, rot_norm, rot_dot by apply rot_Q. unfold rpf.
    set (k := p / (1 + e * cos f)). assert (K : 0 < k) by (apply Rdiv_lt_0_compat; auto). clearbody k.
    replace (vnorm _) with (k * e * Rabs (sin f)).
    - replace (dot _ _) with (k * e * cos f).
      + apply wrap_atan2_abs. now apply Rmult_lt_0_compat.
      + unfold dot, smul, ex; cbn [c0 c1 c2]. ring.
    - symmetry. apply vnorm_unique.
      + apply Rmult_le_pos; [|apply Rabs_pos]. apply Rmult_le_pos; lra.
      + replace (k * e * Rabs (sin f) * (k * e * Rabs (sin f)))
          with (k * e * (k * e) * (Rabs (sin f) * Rabs (sin f))) by ring.
        replace (Rabs (sin f) * Rabs (sin f)) with (sin f * sin f)
          by (rewrite <- Rabs_mult; symmetry; apply Rabs_pos_eq, Rle_0_sqr).
        unfold dot, cross, smul, ex; cbn [c0 c1 c2]. ring.
  Qed.
  Lemma atan2_00 : atan2 0 0 = 0.
  Proof. unfold atan2. destruct (Rlt_dec 0 0); [lra|reflexivity]. Qed.
  Lemma coe_argp_degenerate : sin i = 0 \/ e = 0 ->
    argument_of_periapsis (node_vec (cross r v)) (eccentricity_vector r v mu) = 0.
  Proof using All.
    intros H. rewrite argument_of_periapsis_R, coe_node, coe_e_vec.
    set (k := sqrt (mu * p) * sin i). set (q := row_col (Q O i w) ex).
    assert (K : k * e = 0) by (unfold k; destruct H as [-> | ->]; ring).
    replace (cross (smul k (mk3 (cos O) (sin O) 0)) (smul e q))
      with (smul (k * e) (cross (mk3 (cos O) (sin O) 0) q)) by (clearbody q; destruct q; munfold; apply mk3_eq; ring).
    rewrite vnorm_smul, dot_smul_l, dot_smul_r, <- Rmult_assoc, K, Rabs_R0, !Rmult_0_l, atan2_00.
    apply wrap_nonneg; lra.
  Qed.
  Lemma coe_f_degenerate : e = 0 -> true_anomaly r (eccentricity_vector r v mu) = 0.
  Proof using All.
    intros H. rewrite true_anomaly_R, coe_e_vec, H. set (q := row_col (Q O i w) ex).
    replace (cross (smul 0 q) r) with (smul 0 (cross q r)) by (clear; clearbody q; destruct q, r; munfold; apply mk3_eq; ring).
    rewrite vnorm_smul, dot_smul_l, Rabs_R0, !Rmult_0_l, atan2_00.
    apply wrap_nonneg; lra.
  Qed.
End Coe.

Definition elements_of (x : vec * vec) (mu : R) := rv2coe (fst x) (snd x) mu.

Lemma read_back p e i O w f mu :
  0 < p -> 0 < e -> 0 < i < PI -> 0 <= O < 2 * PI -> 0 < mu -> 0 < 1 + e * cos f ->
  elements_of (coe2rv p e i O w f mu) mu = mkcoe p e i O (acos (cos w)) (acos (cos f)).
Proof.
  intros Hp He Hi HO Hmu Hf. destruct (coe2rv p e i O w f mu) as [r v] eqn:E.
  assert (Si : 0 < sin i) by (apply sin_gt_0; lra).
  unfold elements_of; cbn [fst snd]. rewrite rv2coe_R.
  rewrite (coe_p_ok p e i O w f mu), (coe_ecc p e i O w f mu), (coe_incl_ok p e i O w f mu),
    (coe_raan_ok p e i O w f mu), (coe_argp_ok p e i O w f mu), (coe_f_ok p e i O w f mu);
    auto; try lra.
  rewrite acos_cos by lra. reflexivity.
Qed.
Lemma read_back_fold p e i O w f mu :
  0 < p -> 0 < e -> 0 < i < PI -> 0 <= O < 2 * PI -> 0 <= w < 2 * PI -> 0 <= f < 2 * PI ->
  0 < mu -> 0 < 1 + e * cos f ->
  elements_of (coe2rv p e i O w f mu) mu
  = mkcoe p e i O (Rmin w (2 * PI - w)) (Rmin f (2 * PI - f)).
Proof.
  intros Hp He Hi HO Hw Hff Hmu Hf. rewrite read_back, !fold_angle; auto.
Qed.
Lemma round_trip_iff p e i O w f mu :
  0 < p -> 0 < e -> 0 < i < PI -> 0 <= O < 2 * PI -> 0 <= w < 2 * PI -> 0 <= f < 2 * PI ->
  0 < mu -> 0 < 1 + e * cos f ->
  (elements_of (coe2rv p e i O w f mu) mu = mkcoe p e i O w f <-> w <= PI /\ f <= PI).
Proof.
  intros Hp He Hi HO Hw Hff Hmu Hf. rewrite read_back_fold by auto. split.
  - intros H. injection H as H1 H2. split; [rewrite <- H1|rewrite <- H2];
      unfold Rmin; destruct (Rle_dec _ _); lra.
  - intros [H1 H2]. rewrite !Rmin_left by lra. reflexivity.
Qed.

(** ** C33 *)
Lemma planar_polar (u : vec) : c2 u = 0 -> u <> vzero ->
  exists t, 0 <= t < 2 * PI /\ u = smul (vnorm u) (mk3 (cos t) (sin t) 0).
Proof.
  intros Hz Hn. exists (wrap (atan2 (c1 u) (c0 u))).
  split; [apply wrap_range, atan2_range|].
  assert (N : vnorm u = sqrt (c0 u ^ 2 + c1 u ^ 2)).
  { unfold vnorm, dot. rewrite Hz. f_equal. ring. }
  assert (NZ : c0 u <> 0 \/ c1 u <> 0).
  { destruct (Req_dec (c0 u) 0); [|auto]. destruct (Req_dec (c1 u) 0); [|auto].
    exfalso. apply Hn. apply V3_eq; auto. }
  destruct (cos_sin_atan2 _ _ NZ) as [C S]. rewrite cos_wrap, sin_wrap, C, S, N.
  pose proof (sqrt_sum_pos _ _ NZ). apply V3_eq; unfold smul; cbn [c0 c1 c2]; try (field; lra).
  rewrite Hz. ring.
Qed.

Lemma surjective r v mu :
  0 < mu -> cross r v <> vzero -> eccentricity_vector r v mu <> vzero ->
  cross ez (cross r v) <> vzero ->
  exists i O w f, 0 < i < PI /\ 0 <= O < 2 * PI /\ 0 <= w < 2 * PI /\ 0 <= f < 2 * PI /\
    0 < 1 + vnorm (eccentricity_vector r v mu) * cos f /\
    coe2rv (semiparameter (vnorm (cross r v)) mu) (vnorm (eccentricity_vector r v mu)) i O w f mu = (r, v).
Proof.
  intros Hmu Hh He HN.
  set (h := cross r v) in *. pose proof (vnorm_pos h Hh) as HH.
  set (ev := eccentricity_vector r v mu) in *.
  assert (Hr : r <> vzero) by (apply vec_nonzero_l with v; auto).
  (* node *)
  destruct (planar_polar (cross ez h)) as [O [HO EO]]; auto.
  { unfold ez, cross; cbn [c0 c1 c2]. ring. }
  pose proof (vnorm_pos _ HN) as HNp. set (n := vnorm (cross ez h)) in *.
  assert (N2 : n * n = vnorm h * vnorm h - c2 h * c2 h).
  { unfold n. rewrite !vnorm_sq. unfold ez, cross, dot; cbn [c0 c1 c2]. ring. }
  assert (HX : c1 h = - (n * cos O)).
  { apply (f_equal c0) in EO. unfold ez, cross, smul in EO; cbn [c0 c1 c2] in EO. lra. }
  assert (HY : c0 h = n * sin O).
  { apply (f_equal c1) in EO. unfold ez, cross, smul in EO; cbn [c0 c1 c2] in EO. lra. }
  set (i := acos (c2 h / vnorm h)).
  assert (B : -1 <= c2 h / vnorm h <= 1).
  { split; [apply Rmult_le_reg_r with (vnorm h)|apply Rmult_le_reg_r with (vnorm h)];
      try lra; unfold Rdiv; rewrite Rmult_assoc, Rinv_l by lra; nra. }
  assert (Ci : cos i = c2 h / vnorm h) by (apply cos_acos; lra).
  assert (Si : sin i = n / vnorm h).
  { unfold i. rewrite sin_acos by lra. apply sqrt_lem_1.
    - unfold Rsqr. nra.
    - apply Rlt_le, Rdiv_lt_0_compat; auto.
    - unfold Rsqr. replace (n / vnorm h * (n / vnorm h)) with (n * n / (vnorm h * vnorm h)) by (field; lra).
      rewrite N2. field. lra. }
  assert (Si0 : 0 < sin i) by (rewrite Si; apply Rdiv_lt_0_compat; auto).
  assert (Hi : 0 < i < PI).
  { pose proof (acos_bound (c2 h / vnorm h)) as [A1 A2]. fold i in A1, A2.
    split; [destruct A1 as [|A1]|destruct A2 as [|A2]]; auto.
    - rewrite <- A1, sin_0 in Si0. lra.
    - rewrite A2, sin_PI in Si0. lra. }
  assert (Hez : forall w, row_col (Q O i w) (smul (vnorm h) ez) = h).
  { intros w. rewrite row_col_smul, Q_ez, Ci, Si.
    apply V3_eq; unfold smul; cbn [c0 c1 c2]; [rewrite HY|rewrite HX|]; field; lra. }
  assert (Hz : forall w u, dot u h = 0 -> c2 (row_col (trans (Q O i w)) u) = 0).
  { intros w u Hu. rewrite <- (Hez w), dot_comm, dot_trans, dot_smul_l in Hu.
    apply Rmult_integral in Hu. destruct Hu as [Hu|Hu]; [lra|]. rewrite <- Hu.
    unfold ez, dot; cbn [c0 c1 c2]. ring. }
  (* periapsis *)
  assert (Eh : dot ev h = 0) by (apply ecc_dot_h; auto).
  destruct (planar_polar (row_col (trans (Q O i 0)) ev)) as [w [Hw Ew]].
  { apply Hz; auto. }
  { apply rot_nonzero; auto. apply rot_trans, rot_Q. }
  rewrite (rot_norm _ (rot_trans _ (rot_Q O i 0))) in Ew. set (e := vnorm ev) in *.
  assert (Ee : ev = row_col (Q O i w) (smul e ex)).
  { assert (S : Q O i w = mprod (Q O i 0) (rotmat3dz w)).
    { unfold Q. rewrite (mprod_assoc _ (rotmat3dz 0)), add_z. now rewrite Rplus_0_l. }
    rewrite S, mprod_vec. rewrite <- (rot_back _ (rot_trans _ (rot_Q O i 0)) ev), trans_trans at 1.
    f_equal. rewrite Ew, row_col_smul. f_equal. rewrite rotmat3dz_R. unfold ex. munfold. apply mk3_eq; ring. }
  assert (Hep : 0 < e) by (apply vnorm_pos; auto).
  (* position and velocity in the perifocal frame *)
  pose proof (rot_Q O i w) as RQ. pose proof (rot_trans _ RQ) as RQt.
  set (A := Q O i w) in *.
  set (r' := row_col (trans A) r). set (v' := row_col (trans A) v).
  assert (Er : r = row_col A r').
  { unfold r'. rewrite <- (rot_back _ RQt r) at 1. now rewrite trans_trans. }
  assert (Ev : v = row_col A v').
  { unfold v'. rewrite <- (rot_back _ RQt v) at 1. now rewrite trans_trans. }
  assert (Zr : c2 r' = 0) by (apply Hz; unfold h; apply dot_cross_self_l).
  assert (Zv : c2 v' = 0) by (apply Hz; unfold h; apply dot_cross_self_r).
  assert (Nr : vnorm r' = vnorm r) by (apply rot_norm; auto).
  destruct (planar_polar r') as [f [Hf Ef]]; auto.
  { apply rot_nonzero; auto. }
  rewrite Nr in Ef. pose proof (vnorm_pos r Hr) as Hrp. set (rn := vnorm r) in *.
  assert (H' : cross r' v' = smul (vnorm h) ez).
  { apply (rot_inj _ RQ). rewrite <- rot_cross by auto. rewrite <- Er, <- Ev. fold h. symmetry. apply Hez. }
  assert (E' : eccentricity_vector r' v' mu = smul e ex).
  { apply (rot_inj _ RQ). rewrite <- rot_eccentricity_vector by auto. rewrite <- Er, <- Ev. exact Ee. }
  rewrite eccentricity_vector_R, H', Nr in E'.
  pose proof (sin2_cos2 f) as SC. unfold Rsqr in SC.
  set (hn := vnorm h) in *.
  assert (Vx : c0 v' = - (mu / hn * sin f)).
  { apply (f_equal c1) in E'. rewrite Ef in E'. unfold vminus, cross, smul, ez, ex in E'; cbn [c0 c1 c2] in E'.
    assert (X : - (/ mu * (c0 v' * hn)) - sin f = 0).
    { rewrite <- (Rmult_0_r e), <- E'. field. lra. }
    apply Rmult_eq_reg_r with (/ mu * hn).
    - replace (- (mu / hn * sin f) * (/ mu * hn)) with (- sin f) by (field; lra). lra.
    - apply Rgt_not_eq. apply Rmult_lt_0_compat; auto. now apply Rinv_0_lt_compat. }
  assert (Vy : c1 v' = mu / hn * (e + cos f)).
  { apply (f_equal c0) in E'. rewrite Ef in E'. unfold vminus, cross, smul, ez, ex in E'; cbn [c0 c1 c2] in E'.
    assert (X : / mu * (c1 v' * hn) - cos f = e).
    { rewrite <- (Rmult_1_r e), <- E'. field. lra. }
    apply Rmult_eq_reg_r with (/ mu * hn).
    - replace (mu / hn * (e + cos f) * (/ mu * hn)) with (e + cos f) by (field; lra). lra.
    - apply Rgt_not_eq. apply Rmult_lt_0_compat; auto. now apply Rinv_0_lt_compat. }
  assert (Rr : rn * (mu / hn) * (1 + e * cos f) = hn).
  { apply (f_equal c2) in H'. rewrite Ef in H'. unfold cross, smul, ez in H'; cbn [c0 c1 c2] in H'.
    rewrite Vx, Vy in H'. rewrite Rmult_1_r in H'. rewrite <- H' at 2.
    replace (rn * (mu / hn) * (1 + e * cos f)) with
      (rn * (mu / hn) * ((sin f * sin f + cos f * cos f) + e * cos f)) by (rewrite SC; ring).
    ring. }
  assert (K : 0 < rn * (mu / hn)) by (apply Rmult_lt_0_compat; auto; apply Rdiv_lt_0_compat; auto).
  assert (P1 : 0 < 1 + e * cos f) by (apply Rmult_lt_reg_l with (rn * (mu / hn)); auto; lra).
  exists i, O, w, f. split; [exact Hi|]. split; [exact HO|]. split; [exact Hw|].
  split; [exact Hf|]. split; [exact P1|].
  rewrite coe2rv_R. fold A. rewrite Er, Ev, semiparameter_R. f_equal; f_equal.
  - rewrite Ef. unfold rpf. f_equal. apply Rmult_eq_reg_r with (mu / hn * (1 + e * cos f)).
    + rewrite <- (Rmult_assoc rn), Rr. field. lra.
    + apply Rgt_not_eq. apply Rmult_lt_0_compat; auto. apply Rdiv_lt_0_compat; auto.
  - unfold vpf. replace (sqrt (mu / (hn ^ 2 / mu))) with (mu / hn).
    + apply V3_eq; unfold smul; cbn [c0 c1 c2]; [rewrite Vx|rewrite Vy|rewrite Zv]; ring.
    + symmetry. apply sqrt_lem_1.
      * replace (mu / (hn ^ 2 / mu)) with (mu / hn * (mu / hn)) by (field; split; lra). apply Rle_0_sqr.
      * apply Rlt_le, Rdiv_lt_0_compat; auto.
      * field. split; lra.
Qed.

Definition state_of (c : coe) (mu : R) :=
  coe2rv (coe_p c) (coe_e c) (coe_incl c) (coe_raan c) (coe_argp c) (coe_f c) mu.

Lemma state_round_trip r v mu :
  0 < mu -> cross r v <> vzero -> eccentricity_vector r v mu <> vzero ->
  cross ez (cross r v) <> vzero ->
  (state_of (rv2coe r v mu) mu = (r, v) <-> 0 <= c2 (eccentricity_vector r v mu) /\ 0 <= dot r v).
Proof.
  intros Hmu Hh He HN.
  destruct (surjective r v mu Hmu Hh He HN) as [i [O [w [f (Hi & HO & Hw & Hf & P1 & E)]]]].
  set (p := semiparameter (vnorm (cross r v)) mu) in *.
  assert (Hr : r <> vzero) by (apply vec_nonzero_l with v; auto).
  assert (Pp : 0 < p) by (apply p_pos; auto).
  pose proof (vnorm_pos _ He) as Ep. set (e := vnorm (eccentricity_vector r v mu)) in *.
  pose proof (read_back p e i O w f mu Pp Ep Hi HO Hmu P1) as RB. rewrite E in RB.
  unfold elements_of in RB; cbn [fst snd] in RB. rewrite RB. unfold state_of; cbn [coe_p coe_e coe_incl coe_raan coe_argp coe_f].
  assert (Si : 0 < sin i) by (apply sin_gt_0; lra).
  assert (EZ : c2 (eccentricity_vector r v mu) = e * (sin w * sin i)).
  { rewrite (coe_e_vec p e i O w f mu) with (r := r) (v := v); auto; try lra. now rewrite Q_ex. }
  assert (RV : dot r v = vnorm r * (sqrt (mu / p) * e * sin f)).
  { rewrite <- (coe_vr p e i O w f mu) with (r := r) (v := v); auto; try lra.
    pose proof (vnorm_pos r Hr). field. lra. }
  pose proof (vnorm_pos r Hr) as Rp.
  assert (Sq : 0 < sqrt (mu / p)) by (apply sqrt_lt_R0, Rdiv_lt_0_compat; auto).
  assert (K1 : 0 <= c2 (eccentricity_vector r v mu) <-> 0 <= sin w).
  { rewrite EZ. replace (e * (sin w * sin i)) with (e * sin i * sin w) by ring.
    assert (0 < e * sin i) by now apply Rmult_lt_0_compat. split; intros; [nra|]. apply Rmult_le_pos; lra. }
  assert (K2 : 0 <= dot r v <-> 0 <= sin f).
  { rewrite RV. replace (vnorm r * (sqrt (mu / p) * e * sin f)) with (vnorm r * (sqrt (mu / p) * e) * sin f) by ring.
    assert (0 < vnorm r * (sqrt (mu / p) * e)) by (repeat apply Rmult_lt_0_compat; auto).
    split; intros; [nra|]. apply Rmult_le_pos; lra. }
  rewrite K1, K2. split.
  - intros H.
    assert (P2 : 0 < 1 + e * cos (acos (cos f))) by now rewrite cos_acos_cos.
    assert (EZ' : c2 (eccentricity_vector r v mu) = e * (Rabs (sin w) * sin i)).
    { rewrite (coe_e_vec p e i O (acos (cos w)) (acos (cos f)) mu) with (r := r) (v := v); auto; try lra.
      rewrite Q_ex, sin_acos_cos. reflexivity. }
    assert (RV' : dot r v = vnorm r * (sqrt (mu / p) * e * Rabs (sin f))).
    { rewrite <- sin_acos_cos. rewrite <- (coe_vr p e i O (acos (cos w)) (acos (cos f)) mu) with (r := r) (v := v); auto; try lra.
      field. lra. }
    rewrite <- K1, <- K2, EZ', RV'. pose proof (Rabs_pos (sin w)). pose proof (Rabs_pos (sin f)).
    split; repeat (apply Rmult_le_pos; try lra).
  - intros [S1 S2]. rewrite sin_nonneg_iff in S1, S2 by auto.
    rewrite !acos_cos by lra. exact E.
Qed.

(** Reading the elements twice gives the same elements. *)
Lemma elements_idempotent r v mu :
  0 < mu -> cross r v <> vzero -> eccentricity_vector r v mu <> vzero ->
  cross ez (cross r v) <> vzero ->
  elements_of (state_of (rv2coe r v mu) mu) mu = rv2coe r v mu.
Proof.
  intros Hmu Hh He HN.
  destruct (surjective r v mu Hmu Hh He HN) as [i [O [w [f (Hi & HO & Hw & Hf & P1 & E)]]]].
  set (p := semiparameter (vnorm (cross r v)) mu) in *.
  assert (Hr : r <> vzero) by (apply vec_nonzero_l with v; auto).
  assert (Pp : 0 < p) by (apply p_pos; auto).
  pose proof (vnorm_pos _ He) as Ep. set (e := vnorm (eccentricity_vector r v mu)) in *.
  pose proof (read_back p e i O w f mu Pp Ep Hi HO Hmu P1) as RB. rewrite E in RB.
  unfold elements_of in RB at 1; cbn [fst snd] in RB. rewrite RB. unfold state_of; cbn [coe_p coe_e coe_incl coe_raan coe_argp coe_f].
  rewrite read_back; auto; rewrite !cos_acos_cos; auto.
Qed.

(** ** C34 *)
Lemma incl_range h : 0 <= inclination h <= PI.
Proof. rewrite inclination_R. apply acos_bound. Qed.
Lemma raan_range n : 0 <= right_ascension n < 2 * PI.
Proof. rewrite right_ascension_R. apply wrap_range, atan2_range. Qed.
Lemma argp_range n e : 0 <= argument_of_periapsis n e <= PI.
Proof.
  rewrite argument_of_periapsis_R. pose proof (atan2_nonneg (vnorm (cross n e)) (dot n e) (vnorm_nonneg _)).
  rewrite wrap_nonneg; lra.
Qed.
Lemma f_range r e : 0 <= true_anomaly r e <= PI.
Proof.
  rewrite true_anomaly_R. pose proof (atan2_nonneg (vnorm (cross e r)) (dot e r) (vnorm_nonneg _)).
  rewrite wrap_nonneg; lra.
Qed.
Lemma incl_arg h : h <> vzero -> -1 <= c2 h / vnorm h <= 1.
Proof.
  intros H. pose proof (vnorm_pos h H) as P. pose proof (vnorm_sq h) as S. unfold dot in S.
  split; [apply Rmult_le_reg_r with (vnorm h)|apply Rmult_le_reg_r with (vnorm h)];
      try lra; unfold Rdiv; rewrite Rmult_assoc, Rinv_l by lra; nra.
Qed.
(** The inclination is the angle between the angular momentum and the z axis, and the
    right ascension, argument of periapsis and anomaly have the cosines they should. *)
Lemma incl_cos h : h <> vzero -> cos (inclination h) * vnorm h = c2 h.
Proof.
  intros H. rewrite inclination_R, cos_acos by now apply incl_arg. pose proof (vnorm_pos h H). field. lra.
Qed.
Lemma raan_dir n : c2 n = 0 -> n <> vzero ->
  n = smul (vnorm n) (mk3 (cos (right_ascension n)) (sin (right_ascension n)) 0).
Proof.
  intros Hz Hn. rewrite right_ascension_R.
  assert (N : vnorm n = sqrt (c0 n ^ 2 + c1 n ^ 2)).
  { unfold vnorm, dot. rewrite Hz. f_equal. ring. }
  assert (NZ : c0 n <> 0 \/ c1 n <> 0).
  { destruct (Req_dec (c0 n) 0); [|auto]. destruct (Req_dec (c1 n) 0); [|auto].
    exfalso. apply Hn. apply V3_eq; auto. }
  destruct (cos_sin_atan2 _ _ NZ) as [C S]. rewrite cos_wrap, sin_wrap, C, S, N.
  pose proof (sqrt_sum_pos _ _ NZ). apply V3_eq; unfold smul; cbn [c0 c1 c2]; try (field; lra).
  rewrite Hz. ring.
Qed.
