(** * PathFacts: geometry of transfer arcs (proofs for C35-C38) *)
From Coq Require Import Reals Lra Lia Psatz ZArith Bool.
From Coquelicot Require Import Coquelicot.
From Verif Require Import Num NumR Spec SpecAnom SpecPath RLib Atan2 RotFacts OrbIntegrals OrbFacts ElemFacts PathCheck
  SeriesU UFacts KepState KepMotion TwoBody KepRows Classical.
Local Open Scope R_scope.

Lemma is_short_way_R r1 v1 r2 : is_short_way r1 v1 r2 = ltb 0 (dot (cross r1 v1) (cross r1 r2)).
Proof. reflexivity. Qed.
Lemma pass_perigee_R r1 v1 r2 mu : pass_perigee r1 v1 r2 mu =
  Bool.eqb (ltb 0 (dot (cross r1 r2) (cross r1 (eccentricity_vector r1 v1 mu))) &&
            ltb 0 (dot (cross r1 r2) (cross (eccentricity_vector r1 v1 mu) r2)))
           (is_short_way r1 v1 r2).
Proof. reflexivity. Qed.
Lemma rp_islower_rmin_R rmin r v mu : rp_islower_rmin rmin r v mu =
  ltb (radius_periapsis (semiparameter (vnorm (cross r v)) mu) (vnorm (eccentricity_vector r v mu))) rmin.
Proof. reflexivity. Qed.
Lemma nmax_by_periapsis_R rp r1 r2 tof mu : nmax_by_periapsis rp r1 r2 tof mu =
  floorR (tof / (2 * PI) * sqrt (mu / (1 / 2 * (Rmax r1 r2 + rp)) ^ 3)).
Proof. unfold nmax_by_periapsis. unnum. repeat f_equal. ring. Qed.

(** ** Orthonormal frames in a plane *)
Section Frame.
  Variables (h P : vec).
  Hypothesis Hh : h <> vzero.
  Hypothesis HP : P <> vzero.
  Hypothesis HPh : dot P h = 0.
  Local Notation turn := (turn h P).
  Lemma hP_sq : dot (cross h P) (cross h P) = dot h h * dot P P.
  Proof using Hh HPh. rewrite lagrange_identity, (dot_comm h P), HPh. ring. Qed.
  Lemma P_hP : dot P (cross h P) = 0.
  Proof using Hh HPh. apply dot_cross_self_r. Qed.
  Lemma hP_P : dot (cross h P) P = 0.
  Proof using Hh HPh. rewrite dot_comm. apply P_hP. Qed.
  Lemma turn_dot a s b t : dot (turn a s) (turn b t) = a * b * dot P P * cos (t - s).
  Proof using Hh HPh.
    pose proof (vnorm_pos h Hh) as N. pose proof (vnorm_sq h) as S.
    unfold turn. rewrite !dot_plus_l, !dot_plus_r, !dot_smul_l, !dot_smul_r, P_hP, hP_P, hP_sq, <- S.
    rewrite cos_minus. field. lra.
  Qed.
  Lemma turn_h a t : dot (turn a t) h = 0.
  Proof using Hh HPh.
    unfold turn. rewrite dot_plus_l, !dot_smul_l, HPh, (dot_comm (cross h P)), dot_cross_self_l. ring.
  Qed.
  (** h . (x cross y) for turned vectors *)
  Lemma turn_area a s b t : dot h (cross (turn a s) (turn b t)) = a * b * vnorm h * dot P P * sin (t - s).
  Proof using Hh HPh.
    pose proof (vnorm_pos h Hh) as N. pose proof (vnorm_sq h) as S.
    assert (X : dot h (cross P (cross h P)) = dot h h * dot P P).
    { rewrite cross_cross, dot_minus_r, !dot_smul_r, HPh. ring. }
    transitivity ((a * cos s * (b * sin t / vnorm h) - a * sin s / vnorm h * (b * cos t)) * dot h (cross P (cross h P))).
    - unfold turn. set (w := cross h P). clearbody w. clear. destruct h as [h0 h1 h2], P as [p0 p1 p2], w as [w0 w1 w2].
      unfold dot, cross, vplus, smul; cbn [c0 c1 c2]. ring.
    - rewrite X, <- S, sin_minus. field. lra.
  Qed.
  Lemma turn_norm a t : 0 <= a -> vnorm (turn a t) = a * vnorm P.
  Proof using Hh HPh.
    intros Ha. apply vnorm_unique.
    - apply Rmult_le_pos; auto. apply vnorm_nonneg.
    - rewrite turn_dot. replace (t - t) with 0 by ring. rewrite cos_0, <- vnorm_sq. ring.
  Qed.
  Lemma turn_0 : turn 1 0 = P.
  Proof using Hh HPh.
    clear HP. unfold turn. rewrite cos_0, sin_0. pose proof (vnorm_pos h Hh).
    replace (1 * 0 / vnorm h) with 0 by (field; lra).
    destruct P as [x y z]. unfold vplus, smul; cbn [c0 c1 c2]. apply mk3_eq; ring.
  Qed.
  (** Every non-zero vector of the plane is a turned [P]. *)
  Lemma turn_onto u : u <> vzero -> dot u h = 0 -> exists rho t, 0 < rho /\ 0 <= t < 2 * PI /\ u = turn rho t.
  Proof using All.
    intros Hu Huh.
    pose proof (vnorm_pos h Hh) as N. pose proof (vnorm_pos P HP) as NP. pose proof (vnorm_pos u Hu) as NU.
    set (x := dot u P / (vnorm u * vnorm P)). set (y := dot u (cross h P) / (vnorm u * vnorm P * vnorm h)).
    assert (D : smul (dot P P * dot h h) u = vplus (smul (dot h h * dot u P) P) (smul (dot u (cross h P)) (cross h P))).
    { (* u expanded in the frame P, h x P, h *)
      assert (F : forall a b c : vec, dot a b = 0 -> dot c b = 0 ->
        smul (dot a a * dot b b) c = vplus (smul (dot b b * dot c a) a) (smul (dot c (cross b a)) (cross b a))).
      { clear. intros a b c Hab Hcb.
        (* a (bb)(ca) + (b x a)(c.(b x a)) : subtract multiples of a.b and c.b *)
        assert (G : forall a b c : vec,
          vminus (smul (dot a a * dot b b) c)
                 (vplus (smul (dot b b * dot c a) a) (smul (dot c (cross b a)) (cross b a)))
          = vplus (smul (dot a b) (vminus (smul (dot a b) c) (vplus (smul (dot c a) b) (smul (dot c b) a))))
                  (smul (dot c b) (smul (dot a a) b))).
        { clear. intros [a0 a1 a2] [b0 b1 b2] [x0 x1 x2]. unfold vminus, vplus, smul, dot, cross; cbn [c0 c1 c2].
          apply mk3_eq; ring. }
        specialize (G a b c). rewrite Hab, Hcb in G.
        apply V3_eq; [apply (f_equal c0) in G|apply (f_equal c1) in G|apply (f_equal c2) in G];
          unfold vminus, vplus, smul in G |- *; cbn [c0 c1 c2] in G |- *; lra. }
      apply F; [exact HPh|exact Huh]. }
    assert (XY : x ^ 2 + y ^ 2 = 1).
    { apply (f_equal (dot u)) in D. rewrite dot_plus_r, !dot_smul_r in D.
      rewrite <- !vnorm_sq in D. unfold x, y.
      apply Rmult_eq_reg_r with (vnorm P * vnorm P * (vnorm h * vnorm h) * (vnorm u * vnorm u)).
      - rewrite Rmult_1_l.
        transitivity (vnorm h * vnorm h * dot u P * dot u P + dot u (cross h P) * dot u (cross h P)); [field; lra|].
        symmetry. exact D.
      - apply Rgt_not_eq. repeat apply Rmult_lt_0_compat; auto. }
    assert (NZ : x <> 0 \/ y <> 0).
    { destruct (Req_dec x 0) as [Hx|Hx]; auto. destruct (Req_dec y 0) as [Hy|Hy]; auto.
      rewrite Hx, Hy in XY. lra. }
    destruct (cos_sin_atan2 y x NZ) as [C S]. rewrite XY, sqrt_1 in C, S.
    exists (vnorm u / vnorm P), (wrap (atan2 y x)).
    split; [apply Rdiv_lt_0_compat; auto|]. split; [apply wrap_range, atan2_range|].
    unfold turn. rewrite cos_wrap, sin_wrap, C, S.
    rewrite <- !vnorm_sq in D.
    apply V3_eq; [apply (f_equal c0) in D|apply (f_equal c1) in D|apply (f_equal c2) in D];
      unfold vplus, smul in D |- *; cbn [c0 c1 c2] in D |- *;
      (apply Rmult_eq_reg_l with (vnorm P * vnorm P * (vnorm h * vnorm h));
       [rewrite D; unfold x, y; field; lra|apply Rgt_not_eq; repeat apply Rmult_lt_0_compat; auto]).
  Qed.
End Frame.

Lemma sin_pos_iff t : 0 <= t < 2 * PI -> (0 < sin t <-> 0 < t < PI).
Proof.
  intros H. split; intros S.
  - split.
    + destruct (Req_dec t 0) as [->|]; [rewrite sin_0 in S; lra|lra].
    + destruct (Rlt_dec t PI); auto. assert (PI <= t) by lra.
      pose proof (sin_le_0 t). lra.
  - apply sin_gt_0; lra.
Qed.

(** ** C35 *)
Lemma short_way_angle r1 v1 rho t : cross r1 v1 <> vzero -> 0 < rho -> 0 <= t < 2 * PI ->
  (is_short_way r1 v1 (turn (cross r1 v1) r1 rho t) = true <-> 0 < t < PI).
Proof.
  intros Hh Hrho Ht. rewrite is_short_way_R, ltb_true.
  assert (Hr : r1 <> vzero) by (apply vec_nonzero_l with v1; auto).
  assert (E : dot (cross r1 v1) (cross r1 (turn (cross r1 v1) r1 rho t))
    = rho * vnorm (cross r1 v1) * dot r1 r1 * sin t).
  { pose proof (turn_area (cross r1 v1) r1 Hh (dot_cross_self_l r1 v1) 1 0 rho t) as X.
    rewrite (turn_0 (cross r1 v1) r1 Hh (dot_cross_self_l r1 v1)), Rminus_0_r in X. rewrite X. ring. }
  rewrite E, <- sin_pos_iff by auto.
  pose proof (vnorm_pos _ Hh). pose proof (dot_pos _ Hr).
  assert (K : 0 < rho * vnorm (cross r1 v1) * dot r1 r1) by (repeat apply Rmult_lt_0_compat; auto).
  split; intros; [nra|]. now apply Rmult_lt_0_compat.
Qed.
Lemma plane_angles r1 v1 r2 : cross r1 v1 <> vzero -> r2 <> vzero -> dot r2 (cross r1 v1) = 0 ->
  exists rho t, 0 < rho /\ 0 <= t < 2 * PI /\ r2 = turn (cross r1 v1) r1 rho t.
Proof.
  intros Hh H2 H2h. apply turn_onto; auto.
  - apply vec_nonzero_l with v1; auto.
  - apply dot_cross_self_l.
Qed.

(** ** C36 *)
Lemma binet a b c d : dot (cross a b) (cross c d) = dot a c * dot b d - dot a d * dot b c.
Proof.
  destruct a as [a0 a1 a2], b as [b0 b1 b2], c as [x0 x1 x2], d as [d0 d1 d2].
  unfold dot, cross; cbn [c0 c1 c2]. ring.
Qed.
Section Perigee.
  Variables (r1 v1 r2 : vec) (mu f d rho1 rho2 : R).
  Let h := cross r1 v1.
  Let e := eccentricity_vector r1 v1 mu.
  Hypothesis Hmu : 0 < mu.
  Hypothesis Hh : h <> vzero.
  Hypothesis He : e <> vzero.
  Hypothesis Hf : 0 <= f < 2 * PI.
  Hypothesis Hd : 0 < d < 2 * PI.
  Hypothesis H1 : 0 < rho1.
  Hypothesis H2 : 0 < rho2.
  Hypothesis E1 : r1 = turn h e rho1 f.
  Hypothesis E2 : r2 = turn h e rho2 (f + d).
  Lemma eh : dot e h = 0.
  Proof using Hmu Hh. apply ecc_dot_h; auto. Qed.
  Let ee := dot e e.
  Lemma ee_pos : 0 < ee. Proof. now apply dot_pos. Qed.
  Lemma pr1e : dot r1 e = rho1 * ee * cos f.
  Proof.
    rewrite E1. rewrite <- (turn_0 h e Hh eh) at 2. rewrite turn_dot; auto using eh.
    replace (0 - f) with (- f) by ring. rewrite cos_neg. fold ee. ring.
  Qed.
  Lemma pr2e : dot r2 e = rho2 * ee * cos (f + d).
  Proof.
    rewrite E2. rewrite <- (turn_0 h e Hh eh) at 2. rewrite turn_dot; auto using eh.
    replace (0 - (f + d)) with (- (f + d)) by ring. rewrite cos_neg. fold ee. ring.
  Qed.
  Lemma pr12 : dot r1 r2 = rho1 * rho2 * ee * cos d.
  Proof. rewrite E1, E2, turn_dot; auto using eh. fold ee. f_equal. f_equal. ring. Qed.
  Lemma pr11 : dot r1 r1 = rho1 * rho1 * ee.
  Proof. rewrite E1, turn_dot; auto using eh. fold ee. replace (f - f) with 0 by ring. rewrite cos_0. ring. Qed.
  Lemma pr22 : dot r2 r2 = rho2 * rho2 * ee.
  Proof. rewrite E2, turn_dot; auto using eh. fold ee. replace (f + d - (f + d)) with 0 by ring. rewrite cos_0. ring. Qed.
  Lemma b1_val : dot (cross r1 r2) (cross r1 e) = rho1 * rho1 * rho2 * ee * ee * (sin d * - sin f).
  Proof.
    rewrite binet, pr11, pr2e, pr1e, (dot_comm r2 r1), pr12, cos_plus.
    pose proof (sin2_cos2 f) as S. unfold Rsqr in S.
    transitivity (rho1 * rho1 * rho2 * ee * ee * (cos d * cos f - sin d * sin f - cos f * cos d)); ring.
  Qed.
  Lemma b2_val : dot (cross r1 r2) (cross e r2) = rho1 * rho2 * rho2 * ee * ee * (sin d * sin (f + d)).
  Proof.
    rewrite binet, pr1e, pr22, pr12, pr2e.
    replace (cos f) with (cos ((f + d) - d)) by (f_equal; ring). rewrite cos_minus.
    transitivity (rho1 * rho2 * rho2 * ee * ee * (cos (f + d) * cos d + sin (f + d) * sin d - cos d * cos (f + d))); ring.
  Qed.
  Lemma short_val : dot h (cross r1 r2) = rho1 * rho2 * vnorm h * ee * sin d.
  Proof.
    rewrite E1, E2, turn_area; auto using eh. fold ee. f_equal. f_equal. ring.
  Qed.
  Lemma scaled k x : 0 < k -> ltb 0 (k * x) = ltb 0 x.
  Proof.
    intros K. destruct (ltb 0 x) eqn:E.
    - rewrite ltb_true in E |- *. now apply Rmult_lt_0_compat.
    - rewrite ltb_false in E |- *. nra.
  Qed.
  Lemma pass_val : pass_perigee r1 v1 r2 mu =
    Bool.eqb (ltb 0 (sin d * - sin f) && ltb 0 (sin d * sin (f + d))) (ltb 0 (sin d)).
  Proof.
    rewrite pass_perigee_R, is_short_way_R. fold e. fold h.
    rewrite b1_val, b2_val, short_val. pose proof ee_pos. pose proof (vnorm_pos h Hh).
    rewrite (scaled (rho1 * rho1 * rho2 * ee * ee)) by (repeat apply Rmult_lt_0_compat; auto).
    rewrite (scaled (rho1 * rho2 * rho2 * ee * ee)) by (repeat apply Rmult_lt_0_compat; auto).
    rewrite (scaled (rho1 * rho2 * vnorm h * ee)) by (repeat apply Rmult_lt_0_compat; auto). reflexivity.
  Qed.
  (** The open arc contains periapsis exactly when it runs past a full turn. *)
  Lemma arc_open : (exists phi, f < phi < f + d /\ cos phi = 1) <-> 2 * PI < f + d.
  Proof.
    pose proof PI_pos. split.
    - intros [phi [A B]].
      assert (E : phi - 2 * PI = 0).
      { apply cos_eq_1; [lra|]. rewrite <- B.
        rewrite <- (cos_period (phi - 2 * PI) 1). f_equal. simpl. ring. }
      lra.
    - intros G. exists (2 * PI). split; [lra|apply cos_2PI].
  Qed.
  Lemma arc_closed : (exists phi, f <= phi <= f + d /\ cos phi = 1) <-> (f = 0 \/ 2 * PI <= f + d).
  Proof.
    pose proof PI_pos. split.
    - intros [phi [A B]]. destruct (Req_dec f 0) as [->|Nf]; auto. right.
      assert (E : phi - 2 * PI = 0).
      { apply cos_eq_1; [lra|]. rewrite <- B.
        rewrite <- (cos_period (phi - 2 * PI) 1). f_equal. simpl. ring. }
      lra.
    - intros [->|G].
      + exists 0. split; [lra|apply cos_0].
      + exists (2 * PI). split; [lra|apply cos_2PI].
  Qed.
  Lemma sin_shift x : sin (x - 2 * PI) = sin x.
  Proof. rewrite <- (sin_period (x - 2 * PI) 1). f_equal. simpl. ring. Qed.
  Lemma ltb_dec x y : (x < y /\ ltb x y = true) \/ (y <= x /\ ltb x y = false).
  Proof. destruct (ltb x y) eqn:E; [left|right]; split; auto; [now apply ltb_true|now apply ltb_false]. Qed.

  Lemma pass_short : d < PI ->
    (pass_perigee r1 v1 r2 mu = true <-> exists phi, f < phi < f + d /\ cos phi = 1).
  Proof.
    intros D. rewrite arc_open, pass_val. pose proof PI_pos.
    assert (S : 0 < sin d) by (apply sin_gt_0; lra).
    assert (S' : ltb 0 (sin d) = true) by now apply ltb_true. rewrite S', !scaled by auto.
    rewrite eqb_true_iff, andb_true_iff, !ltb_true. split.
    - intros [A B].
      assert (F : PI < f). { destruct (Rlt_dec PI f); auto. pose proof (sin_ge_0 f). lra. }
      destruct (Rlt_dec (2 * PI) (f + d)); auto.
      pose proof (sin_le_0 (f + d)). lra.
    - intros G. split.
      + pose proof (sin_lt_0 f). lra.
      + rewrite <- sin_shift. apply sin_gt_0; lra.
  Qed.
  Lemma pass_long : PI < d ->
    (pass_perigee r1 v1 r2 mu = true <-> exists phi, f <= phi <= f + d /\ cos phi = 1).
  Proof.
    intros D. rewrite arc_closed, pass_val. pose proof PI_pos.
    assert (S : sin d < 0) by (apply sin_lt_0; lra).
    assert (S' : ltb 0 (sin d) = false) by (apply ltb_false; lra). rewrite S'.
    rewrite eqb_true_iff, andb_false_iff, !ltb_false. split.
    - intros A. destruct (Req_dec f 0) as [->|Nf]; auto. right.
      destruct (Rle_dec (2 * PI) (f + d)); auto. exfalso.
      assert (0 < sin f) by (apply sin_gt_0; lra).
      assert (sin (f + d) < 0) by (apply sin_lt_0; lra).
      destruct A as [A|A]; nra.
    - intros [->|G].
      + left. rewrite sin_0. lra.
      + destruct (Rle_dec PI f) as [F|F].
        * left. pose proof (sin_le_0 f). assert (sin f <= 0) by lra. nra.
        * right. rewrite <- (sin_shift (f + d)). assert (0 <= sin (f + d - 2 * PI)) by (apply sin_ge_0; lra). nra.
  Qed.
  Lemma pass_half : d = PI -> pass_perigee r1 v1 r2 mu = true.
  Proof.
    intros D. rewrite pass_val, D, sin_PI, !Rmult_0_l.
    replace (ltb 0 0) with false. reflexivity. symmetry. apply ltb_false. lra.
  Qed.
  (** Away from the boundary cases the two readings agree. *)
  Lemma pass_generic : d <> PI -> f <> 0 -> f + d <> 2 * PI ->
    (pass_perigee r1 v1 r2 mu = true <-> exists phi, f < phi < f + d /\ cos phi = 1).
  Proof.
    intros D F G. destruct (Rlt_dec d PI) as [L|L]; [now apply pass_short|].
    rewrite pass_long by lra. rewrite arc_open, arc_closed. lra.
  Qed.
End Perigee.

(** Every departure and arrival position has such angles. *)
Lemma perigee_angles r1 v1 r2 mu : 0 < mu ->
  let h := cross r1 v1 in let e := eccentricity_vector r1 v1 mu in
  h <> vzero -> e <> vzero -> r2 <> vzero -> dot r2 h = 0 ->
  exists rho1 f rho2 g, 0 < rho1 /\ 0 <= f < 2 * PI /\ 0 < rho2 /\ 0 <= g < 2 * PI /\
    r1 = turn h e rho1 f /\ r2 = turn h e rho2 g.
Proof.
  intros Hmu h e Hh He H2 H2h.
  assert (Hr : r1 <> vzero) by (apply vec_nonzero_l with v1; auto).
  assert (eh : dot e h = 0) by (apply ecc_dot_h; auto).
  destruct (turn_onto h e Hh He eh r1 Hr) as [rho1 [f (A & B & C)]].
  { apply dot_cross_self_l. }
  destruct (turn_onto h e Hh He eh r2 H2 H2h) as [rho2 [g (D & E & F)]].
  exists rho1, f, rho2, g. auto 10.
Qed.

(** ** C37 *)
Section Low.
  Variables (r v : vec) (mu rmin : R).
  Hypothesis Hmu : 0 < mu.
  Hypothesis Hh : cross r v <> vzero.
  Let h := cross r v.
  Let e := eccentricity_vector r v mu.
  Let p := semiparameter (vnorm h) mu.
  Let Hr : r <> vzero. Proof. apply vec_nonzero_l with v. exact Hh. Qed.
  Lemma low_conic : rp_islower_rmin rmin r v mu = true <->
    exists q, dot q h = 0 /\ vnorm q = p - dot e q /\ vnorm q < rmin.
  Proof.
    rewrite rp_islower_rmin_R, ltb_true. fold h e p. rewrite radius_periapsis_R.
    assert (Pp : 0 < p) by (apply p_pos; auto).
    pose proof (vnorm_nonneg e) as En. split.
    - intros L. destruct (Req_dec (vnorm e) 0) as [Z|Z].
      + exists r. split; [apply dot_cross_self_l|].
        assert (E : dot e r = p - vnorm r) by (apply ecc_dot_r; auto).
        split; [lra|]. assert (E0 : e = vzero) by now apply vnorm_zero.
        rewrite Z in L. rewrite E0 in E. unfold dot, vzero in E; cbn [c0 c1 c2] in E.
        replace (p / (1 + 0)) with p in L by field. lra.
      + assert (Ep : 0 < vnorm e) by lra.
        exists (smul (p / (1 + vnorm e) / vnorm e) e).
        assert (K : 0 < p / (1 + vnorm e) / vnorm e)
          by (apply Rdiv_lt_0_compat; [apply Rdiv_lt_0_compat|]; lra).
        assert (N : vnorm (smul (p / (1 + vnorm e) / vnorm e) e) = p / (1 + vnorm e)).
        { rewrite vnorm_smul, Rabs_pos_eq by lra. field. lra. }
        split; [|split].
        * rewrite dot_smul_l. replace (dot e h) with 0 by (symmetry; apply ecc_dot_h; auto). ring.
        * rewrite N, dot_smul_r, <- vnorm_sq. field. lra.
        * rewrite N. exact L.
    - intros [q (A & B & C)].
      apply Rle_lt_trans with (vnorm q); auto.
      pose proof (cauchy_schwarz e q) as CS. pose proof (Rle_abs (- dot e q)) as CA. rewrite Rabs_Ropp in CA.
      apply Rmult_le_reg_r with (1 + vnorm e); [lra|].
      replace (p / (1 + vnorm e) * (1 + vnorm e)) with p by (field; lra). 
      pose proof (Rle_abs (dot e q)). nra.
  Qed.
  (** Periapsis is reached by the motion. *)
  Lemma periapsis_reached : exists chi, radS r v mu chi = radius_periapsis p (vnorm e).
  Proof.
    rewrite radius_periapsis_R. set (al := alphaS r v mu).
    assert (Al : al = - 2 * energy mu r v / mu) by (apply al_energy; auto).
    assert (PE : vnorm e ^ 2 = 1 - p * al).
    { unfold e, p, al, alphaS. apply ecc_norm_sq; auto. }
    pose proof (vnorm_nonneg e) as En.
    assert (Pp : 0 < p) by (apply p_pos; auto).
    destruct (Rtotal_order (energy mu r v) 0) as [N|[Z|P]].
    - destruct (ea_exists r v mu Hmu Hh N) as [E0 [_ HE]].
      set (a := semimajor_axis (vnorm r) (vnorm v) mu) in *. set (s := sqrt a).
      assert (Sp : 0 < s) by (apply (s_pos r v mu Hmu Hh N)).
      exists (- (E0 * s)). rewrite (rad_E r v mu Hmu Hh N E0 HE). fold a s e.
      replace (E0 + - (E0 * s) / s) with 0 by (field; lra). rewrite cos_0.
      assert (As : al = / (s * s)) by (apply (al_s r v mu Hmu Hh N)).
      assert (PE' : p = s * s * (1 - vnorm e ^ 2)) by (rewrite PE, As; field; lra).
      rewrite PE'. field. lra.
    - exists (- sigmaS r v mu).
      assert (A0 : al = 0) by (rewrite Al, Z; field; lra).
      assert (E1 : vnorm e = 1) by (rewrite A0 in PE; nra).
      unfold radS. fold al. rewrite A0, !U_alpha0. simpl fact.
      pose proof (pS_eq r v mu Hmu Hr) as Q. fold al in Q. rewrite A0 in Q.
      rewrite (pS_semiparameter r v mu) in Q. fold h p in Q. rewrite E1.
      simpl INR. simpl pow. lra.
    - destruct (ha_exists r v mu Hmu Hh P) as [H0 [HH _]].
      set (a := semimajor_axis (vnorm r) (vnorm v) mu) in *. set (s := sqrt (- a)).
      assert (Sp : 0 < s) by (apply (hs_pos r v mu Hmu Hh P)).
      exists (- (H0 * s)). 
      pose proof (ha_at r v mu Hmu Hh P H0 HH (- (H0 * s))) as [X _]. fold a s in X.
      rewrite pos_norm in X by auto. rewrite X. fold e.
      replace (H0 + - (H0 * s) / s) with 0 by (field; lra). rewrite cosh_0.
      assert (As : al = - / (s * s)) by (apply (al_hs r v mu Hmu Hh P)).
      assert (Sq : s * s = - a) by (apply (hs_sq r v mu Hmu Hh P)).
      assert (PE' : p = s * s * (vnorm e ^ 2 - 1)) by (rewrite PE, As; field; lra).
      rewrite PE'. replace a with (- (s * s)) by lra. field. lra.
  Qed.
  Lemma low_motion : rp_islower_rmin rmin r v mu = true <->
    exists t r' v', flows_to mu t (r, v) (r', v') /\ vnorm r' < rmin.
  Proof.
    rewrite rp_islower_rmin_R, ltb_true. fold h e p. split.
    - intros L. destruct periapsis_reached as [chi E].
      exists (timeS r v mu chi / sqrt mu), (posS r v mu chi), (velS r v mu chi). split.
      + exists (rM r v mu Hmu Hh), (vM r v mu Hmu Hh). split; [apply motion|].
        destruct (motion_start r v mu Hmu Hh) as [-> ->].
        destruct (state_on_motion r v mu Hmu Hh chi) as [<- <-]. auto.
      + rewrite pos_norm by auto. now rewrite E.
    - intros [t [r' [v' [Hf L]]]].
      apply Rle_lt_trans with (vnorm r'); auto.
      assert (F2 : flows_to mu t (r, v) (rM r v mu Hmu Hh t, vM r v mu Hmu Hh t)).
      { exists (rM r v mu Hmu Hh), (vM r v mu Hmu Hh). split; [apply motion|].
        destruct (motion_start r v mu Hmu Hh) as [-> ->]. auto. }
      pose proof (flow_det mu t (r, v) (r', v') _ Hmu Hh Hf F2) as D. apply pair_equal_spec in D.
      destruct D as [-> _]. unfold rM. rewrite pos_norm by auto. apply radS_lower; auto.
  Qed.
End Low.

(** ** C38 *)
Lemma floorR_bounds x : floorR x <= x < floorR x + 1.
Proof. unfold floorR. destruct (base_Int_part x). lra. Qed.
Lemma floorR_int x : exists k : Z, floorR x = IZR k.
Proof. unfold floorR. eauto. Qed.
Lemma floorR_max x (n : Z) : IZR n <= x -> IZR n <= floorR x.
Proof.
  intros H. unfold floorR. apply IZR_le. pose proof (base_Int_part x) as [_ B].
  apply Z.lt_succ_r. unfold Z.succ. apply lt_IZR. rewrite plus_IZR. lra.
Qed.
Section Nmax.
  Variables (rp r1 r2 tof mu : R).
  Hypothesis Hrp : 0 < rp.
  Hypothesis H1 : 0 < r1.
  Hypothesis H2 : 0 < r2.
  Hypothesis Hmu : 0 < mu.
  Let amin := 1 / 2 * (Rmax r1 r2 + rp).
  Lemma amin_pos : 0 < amin.
  Proof. unfold amin. pose proof (Rmax_l r1 r2). lra. Qed.
  Lemma nmax_arg : tof / (2 * PI) * sqrt (mu / amin ^ 3) = tof / orb_period amin mu.
  Proof.
    rewrite orb_period_R. pose proof amin_pos. pose proof PI_pos.
    assert (A : 0 < amin ^ 3) by now apply pow_lt.
    assert (S : sqrt (mu / amin ^ 3) * sqrt (amin ^ 3 / mu) = 1).
    { rewrite <- sqrt_mult_alt by (apply Rlt_le, Rdiv_lt_0_compat; auto).
      replace (mu / amin ^ 3 * (amin ^ 3 / mu)) with 1 by (field; lra). apply sqrt_1. }
    assert (P : 0 < sqrt (amin ^ 3 / mu)) by (apply sqrt_lt_R0, Rdiv_lt_0_compat; auto).
    apply Rmult_eq_reg_r with (sqrt (amin ^ 3 / mu)); [|lra].
    rewrite Rmult_assoc, S. field. lra.
  Qed.
  Lemma nmax_largest (n : Z) : IZR n * orb_period amin mu <= tof <-> IZR n <= nmax_by_periapsis rp r1 r2 tof mu.
  Proof.
    rewrite nmax_by_periapsis_R. fold amin. rewrite nmax_arg.
    pose proof (orb_period_pos amin mu amin_pos Hmu) as T. split; intros L.
    - apply floorR_max. apply Rmult_le_reg_r with (orb_period amin mu); auto.
      replace (tof / orb_period amin mu * orb_period amin mu) with tof by (field; lra). exact L.
    - pose proof (floorR_bounds (tof / orb_period amin mu)) as [B _].
      apply Rle_trans with (tof / orb_period amin mu * orb_period amin mu).
      + apply Rmult_le_compat_r; lra.
      + right. field. lra.
  Qed.
  Lemma period_incr a b : 0 < a -> a <= b -> orb_period a mu <= orb_period b mu.
  Proof.
    intros Ha Hab. rewrite !orb_period_R. pose proof PI_pos. apply Rmult_le_compat_l; [lra|].
    apply sqrt_le_1_alt. unfold Rdiv. apply Rmult_le_compat_r; [apply Rlt_le, Rinv_0_lt_compat; auto|].
    apply pow_incr. lra.
  Qed.
  (** Any ellipse reaching the larger radius and not dipping below [rp]. *)
  Lemma nmax_bound a e f1 f2 (n : Z) : 0 < a -> 0 <= e < 1 -> (0 <= n)%Z ->
    a * (1 - e ^ 2) / (1 + e * cos f1) = r1 -> a * (1 - e ^ 2) / (1 + e * cos f2) = r2 ->
    rp <= a * (1 - e) -> IZR n * (2 * PI * sqrt (a ^ 3 / mu)) <= tof ->
    IZR n <= nmax_by_periapsis rp r1 r2 tof mu.
  Proof using All.
    rewrite <- !equ_of_orbit_R.
    rewrite <- orb_period_R. intros Ha He Hn O1 O2 Hp Ht. apply nmax_largest.
    apply Rle_trans with (IZR n * orb_period a mu); auto.
    apply Rmult_le_compat_l; [now apply IZR_le|].
    apply period_incr; [apply amin_pos|].
    assert (X : forall f, equ_of_orbit (a * (1 - e ^ 2)) e f <= a * (1 + e)).
    { intros f. rewrite equ_of_orbit_R. pose proof (COS_bound f) as [C1 C2].
      assert (0 < 1 + e * cos f) by nra.
      apply Rmult_le_reg_r with (1 + e * cos f); auto. unfold Rdiv. rewrite Rmult_assoc, Rinv_l by lra.
      assert (0 <= a * (1 + e) * e * (1 + cos f)) by (repeat apply Rmult_le_pos; lra). nra. }
    pose proof (X f1) as X1. pose proof (X f2) as X2. rewrite O1 in X1. rewrite O2 in X2.
    assert (Rmax r1 r2 <= a * (1 + e)) by now apply Rmax_lub. unfold amin. lra.
  Qed.
  (** The bound is attained by the ellipse with periapsis [rp] and apoapsis max(r1, r2). *)
  Lemma nmax_sharp_lt (n : Z) : rp <= Rmin r1 r2 -> rp < Rmax r1 r2 -> (0 <= n)%Z -> IZR n <= nmax_by_periapsis rp r1 r2 tof mu ->
    exists a e f1 f2, 0 < a /\ 0 <= e < 1 /\
      equ_of_orbit (a * (1 - e ^ 2)) e f1 = r1 /\ equ_of_orbit (a * (1 - e ^ 2)) e f2 = r2 /\
      rp <= a * (1 - e) /\ IZR n * orb_period a mu <= tof.
  Proof.
    intros Hlt Hx Hn L. pose proof amin_pos as Ap.
    set (e := (Rmax r1 r2 - rp) / (Rmax r1 r2 + rp)).
    assert (D : 0 < Rmax r1 r2 + rp) by (unfold amin in Ap; lra).
    assert (He : 0 < e < 1).
    { split; [apply Rdiv_lt_0_compat; lra|]. apply Rmult_lt_reg_r with (Rmax r1 r2 + rp); auto.
      unfold e, Rdiv. rewrite Rmult_assoc, Rinv_l by lra. lra. }
    assert (Ep : amin * (1 - e) = rp) by (unfold amin, e; field; lra).
    assert (Ea : amin * (1 + e) = Rmax r1 r2) by (unfold amin, e; field; lra).
    assert (P : 0 < amin * (1 - e ^ 2)).
    { replace (amin * (1 - e ^ 2)) with (amin * (1 - e) * (1 + e)) by ring. rewrite Ep. apply Rmult_lt_0_compat; lra. }
    assert (Rp : radius_periapsis (amin * (1 - e ^ 2)) e = rp).
    { rewrite radius_periapsis_R, <- Ep. field. lra. }
    assert (Ra : radius_apoapsis (amin * (1 - e ^ 2)) e = Rmax r1 r2).
    { rewrite radius_apoapsis_R, <- Ea. field. lra. }
    destruct (conic_onto (amin * (1 - e ^ 2)) e r1 P He) as [f1 F1].
    { rewrite Rp, Ra. pose proof (Rmin_l r1 r2). pose proof (Rmax_l r1 r2). lra. }
    destruct (conic_onto (amin * (1 - e ^ 2)) e r2 P He) as [f2 F2].
    { rewrite Rp, Ra. pose proof (Rmin_r r1 r2). pose proof (Rmax_r r1 r2). lra. }
    exists amin, e, f1, f2. split; [exact Ap|]. split; [lra|]. split; [tauto|]. split; [tauto|].
    split; [lra|]. now apply nmax_largest.
  Qed.
  Lemma nmax_sharp (n : Z) : rp <= Rmin r1 r2 -> (0 <= n)%Z -> IZR n <= nmax_by_periapsis rp r1 r2 tof mu ->
    exists a e f1 f2, 0 < a /\ 0 <= e < 1 /\
      a * (1 - e ^ 2) / (1 + e * cos f1) = r1 /\ a * (1 - e ^ 2) / (1 + e * cos f2) = r2 /\
      rp <= a * (1 - e) /\ IZR n * (2 * PI * sqrt (a ^ 3 / mu)) <= tof.
  Proof using All.
    intros Hle Hn L. destruct (Rlt_dec rp (Rmax r1 r2)) as [Hx|Hx].
    { setoid_rewrite <- orb_period_R. setoid_rewrite <- equ_of_orbit_R. now apply nmax_sharp_lt. }
    pose proof (Rmin_l r1 r2). pose proof (Rmin_r r1 r2). pose proof (Rmax_l r1 r2). pose proof (Rmax_r r1 r2).
    assert (E1 : r1 = rp) by lra. assert (E2 : r2 = rp) by lra.
    exists rp, 0, 0, 0.
    replace (rp * (1 - 0 ^ 2) / (1 + 0 * cos 0)) with rp by (field; lra).
    split; [lra|]. split; [lra|]. split; [auto|]. split; [auto|]. split; [lra|].
    apply nmax_largest in L. unfold amin in L. rewrite E1, E2, Rmax_left in L by lra.
    replace (1 / 2 * (rp + rp)) with rp in L by field. now rewrite orb_period_R in L.
  Qed.
  Lemma nmax_is_largest : (exists k : Z, nmax_by_periapsis rp r1 r2 tof mu = IZR k) /\
    forall n : Z, IZR n * (2 * PI * sqrt (((Rmax r1 r2 + rp) / 2) ^ 3 / mu)) <= tof <->
      IZR n <= nmax_by_periapsis rp r1 r2 tof mu.
  Proof using All.
    split; [rewrite nmax_by_periapsis_R; apply floorR_int|]. intros n. rewrite <- nmax_largest, orb_period_R.
    unfold amin. replace (1 / 2 * (Rmax r1 r2 + rp)) with ((Rmax r1 r2 + rp) / 2) by field. tauto.
  Qed.
End Nmax.
