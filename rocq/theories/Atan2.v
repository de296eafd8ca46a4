(** * Atan2: facts about the two-argument arctangent of [NumR] *)
From Coq Require Import Reals Lra Lia Psatz.
From Verif Require Import Num NumR RLib.
Local Open Scope R_scope.

Lemma cos_eq_1 x : -(2 * PI) < x < 2 * PI -> cos x = 1 -> x = 0.
Proof.
  intros Hx H. assert (Hs : sin (x / 2) = 0).
  { pose proof (cos_2a_sin (x / 2)) as E. replace (2 * (x / 2)) with x in E by field.
    assert (sin (x / 2) * sin (x / 2) = 0) by lra. nra. }
  destruct (Rtotal_order x 0) as [L|[L|L]]; auto.
  - pose proof (sin_gt_0 (- (x / 2)) ltac:(lra) ltac:(lra)) as P. rewrite sin_neg in P. lra.
  - pose proof (sin_gt_0 (x / 2) ltac:(lra) ltac:(lra)). lra.
Qed.

Lemma angle_unique a b : -(2 * PI) < a - b < 2 * PI -> cos a = cos b -> sin a = sin b -> a = b.
Proof.
  intros H Hc Hs. assert (a - b = 0); [|lra].
  apply cos_eq_1; auto. rewrite cos_minus, Hc, Hs. pose proof (sin2_cos2 b). unfold Rsqr in *. lra.
Qed.

Lemma sqrt_sum_pos x y : x <> 0 \/ y <> 0 -> 0 < sqrt (x ^ 2 + y ^ 2).
Proof. intros H. apply sqrt_lt_R0. destruct H; nra. Qed.

Lemma sqrt_scale x y : x <> 0 -> sqrt (x ^ 2 + y ^ 2) = Rabs x * sqrt (1 + (y / x)²).
Proof.
  intros H. rewrite <- (sqrt_Rsqr_abs x), <- sqrt_mult.
  - f_equal. unfold Rsqr. field. exact H.
  - apply Rle_0_sqr.
  - pose proof (Rle_0_sqr (y / x)). lra.
Qed.

Lemma cos_sin_atan2 y x : x <> 0 \/ y <> 0 ->
  cos (atan2 y x) = x / sqrt (x ^ 2 + y ^ 2) /\ sin (atan2 y x) = y / sqrt (x ^ 2 + y ^ 2).
Proof.
  intros H. unfold atan2.
  assert (Hq : forall t, 0 < sqrt (1 + t²)).
  { intros t. apply sqrt_lt_R0. pose proof (Rle_0_sqr t). lra. }
  destruct (Rlt_dec 0 x) as [Hx|Hx].
  - rewrite cos_atan, sin_atan, sqrt_scale, Rabs_pos_eq by lra.
    specialize (Hq (y / x)). split; field; lra.
  - destruct (Rlt_dec x 0) as [Hx'|Hx'].
    + assert (E : forall s, (s = 1 \/ s = -1) -> cos (atan (y / x) + s * PI) = x / sqrt (x ^ 2 + y ^ 2) /\ sin (atan (y / x) + s * PI) = y / sqrt (x ^ 2 + y ^ 2)).
      { intros s Hs. rewrite cos_plus, sin_plus.
        assert (C : cos (s * PI) = -1).
        { destruct Hs; subst; rewrite ?Rmult_1_l. apply cos_PI.
          replace (-1 * PI) with (- PI) by ring. rewrite cos_neg. apply cos_PI. }
        assert (S : sin (s * PI) = 0).
        { destruct Hs; subst; rewrite ?Rmult_1_l. apply sin_PI.
          replace (-1 * PI) with (- PI) by ring. rewrite sin_neg, sin_PI. ring. }
        rewrite C, S, cos_atan, sin_atan, sqrt_scale, Rabs_left by lra.
        specialize (Hq (y / x)). split; field; lra. }
      destruct (Rle_dec 0 y).
      * pose proof (E 1 (or_introl eq_refl)) as E1. rewrite Rmult_1_l in E1. exact E1.
      * pose proof (E (-1) (or_intror eq_refl)) as E1.
        replace (atan (y / x) - PI) with (atan (y / x) + -1 * PI) by ring. exact E1.
    + assert (x = 0) by lra. subst x. clear Hq.
      destruct H as [H|H]; [lra|].
      replace (0 ^ 2 + y ^ 2) with (y²) by (unfold Rsqr; ring). rewrite sqrt_Rsqr_abs.
      destruct (Rlt_dec 0 y); [|destruct (Rlt_dec y 0); [|lra]].
      * rewrite cos_PI2, sin_PI2, Rabs_pos_eq by lra. split; field; lra.
      * rewrite cos_neg, sin_neg, cos_PI2, sin_PI2, Rabs_left by lra. split; field; lra.
Qed.

Lemma atan_bounds x : - (PI / 2) < atan x < PI / 2.
Proof. pose proof (atan_bound x). lra. Qed.

Lemma atan_pos_sign x : 0 <= x -> 0 <= atan x.
Proof.
  intros H. destruct H as [H| <-]; [|rewrite atan_0; lra].
  rewrite <- atan_0. apply Rlt_le, atan_increasing, H.
Qed.
Lemma atan_neg_sign x : x < 0 -> atan x < 0.
Proof. intros H. rewrite <- atan_0. apply atan_increasing, H. Qed.

Lemma atan2_range y x : - PI < atan2 y x <= PI.
Proof.
  pose proof PI_RGT_0. unfold atan2. pose proof (atan_bounds (y / x)).
  destruct (Rlt_dec 0 x); [lra|]. destruct (Rlt_dec x 0).
  - destruct (Rle_dec 0 y) as [Hy|Hy].
    + assert (atan (y / x) <= 0); [|lra].
      replace (y / x) with (- (y / - x)) by (field; lra). rewrite atan_opp.
      assert (0 <= atan (y / - x)); [|lra]. apply atan_pos_sign.
      apply Rmult_le_pos; [lra|]. apply Rlt_le, Rinv_0_lt_compat; lra.
    + assert (0 < atan (y / x)); [|lra].
      rewrite <- atan_0. apply atan_increasing.
      replace (y / x) with ((- y) / (- x)) by (field; lra).
      apply Rmult_lt_0_compat; [lra|]. apply Rinv_0_lt_compat; lra.
  - destruct (Rlt_dec 0 y); [lra|]. destruct (Rlt_dec y 0); lra.
Qed.

Lemma atan2_nonneg y x : 0 <= y -> 0 <= atan2 y x <= PI.
Proof.
  intros Hy. pose proof (atan2_range y x) as Hr. split; [|lra].
  pose proof PI_RGT_0. unfold atan2. pose proof (atan_bounds (y / x)).
  destruct (Rlt_dec 0 x) as [Hx|Hx].
  - apply atan_pos_sign. apply Rmult_le_pos; [lra|]. apply Rlt_le, Rinv_0_lt_compat; lra.
  - destruct (Rlt_dec x 0); [destruct (Rle_dec 0 y); lra|].
    destruct (Rlt_dec 0 y); [lra|]. destruct (Rlt_dec y 0); lra.
Qed.

Lemma atan2_neg y x : y < 0 -> - PI < atan2 y x < 0.
Proof.
  intros Hy. pose proof (atan2_range y x) as Hr. split; [lra|].
  pose proof PI_RGT_0. unfold atan2. pose proof (atan_bounds (y / x)).
  destruct (Rlt_dec 0 x) as [Hx|Hx].
  - apply atan_neg_sign. replace (y / x) with (- ((- y) / x)) by (field; lra).
    assert (0 < (- y) / x); [|lra]. apply Rmult_lt_0_compat; [lra|]. apply Rinv_0_lt_compat; lra.
  - destruct (Rlt_dec x 0); [destruct (Rle_dec 0 y); lra|].
    destruct (Rlt_dec 0 y); [lra|]. destruct (Rlt_dec y 0); lra.
Qed.

Lemma atan2_polar rho t : 0 < rho -> - PI < t <= PI -> atan2 (rho * sin t) (rho * cos t) = t.
Proof.
  intros Hr Ht. pose proof PI_RGT_0.
  assert (Hn : rho * cos t <> 0 \/ rho * sin t <> 0).
  { destruct (Req_dec (cos t) 0) as [E|E].
    - right. intros F. apply Rmult_integral in F. destruct F as [F|F]; [lra|].
      pose proof (sin2_cos2 t) as S. rewrite E, F in S. unfold Rsqr in S. lra.
    - left. intros F. apply Rmult_integral in F. lra. }
  assert (Hs : sqrt ((rho * cos t) ^ 2 + (rho * sin t) ^ 2) = rho).
  { replace ((rho * cos t) ^ 2 + (rho * sin t) ^ 2) with (rho * rho * ((sin t)² + (cos t)²)) by (unfold Rsqr; ring).
    rewrite sin2_cos2, Rmult_1_r. apply sqrt_square. lra. }
  destruct (cos_sin_atan2 (rho * sin t) (rho * cos t) Hn) as [C S].
  rewrite Hs in C, S. pose proof (atan2_range (rho * sin t) (rho * cos t)).
  apply angle_unique; [lra| |].
  - rewrite C. field. lra.
  - rewrite S. field. lra.
Qed.

(** [where(x < 0, 2*pi + x, x)] *)
Definition wrap (x : R) : R := if ltb x 0 then 2 * PI + x else x.

Lemma cos_wrap x : cos (wrap x) = cos x.
Proof.
  unfold wrap. destruct (ltb x 0); auto.
  rewrite Rplus_comm. apply (cos_period x 1) || (replace (x + 2 * PI) with (x + 2 * INR 1 * PI) by (simpl; ring); apply cos_period).
Qed.
Lemma sin_wrap x : sin (wrap x) = sin x.
Proof.
  unfold wrap. destruct (ltb x 0); auto.
  rewrite Rplus_comm. replace (x + 2 * PI) with (x + 2 * INR 1 * PI) by (simpl; ring). apply sin_period.
Qed.
Lemma wrap_nonneg x : 0 <= x -> wrap x = x.
Proof. intros H. unfold wrap. apply ltb_false in H. now rewrite H. Qed.
Lemma wrap_range x : - PI < x <= PI -> 0 <= wrap x < 2 * PI.
Proof.
  intros H. pose proof PI_RGT_0. unfold wrap, ltb. destruct (Rlt_dec x 0); lra.
Qed.
