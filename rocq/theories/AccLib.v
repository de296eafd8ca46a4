(** * AccLib: what relative errors of the single operations do to U2 and U3 (real arithmetic only).

    [a] is the energy parameter, [x] the universal anomaly, [z = sqrt a * x]; [t1 ... t5] are the relative
    errors of the rounded operations, all at most [eps]. *)
From Coq Require Import Reals Lra Lia Psatz.
From Flocq Require Import Core.
From Coquelicot Require Import Coquelicot.
From Verif Require Import RLib Ana SolveFacts SolveElps SolveHypb B32Kep B32Uni.
Local Open Scope R_scope.

Lemma abs_sin_le (x : R) : Rabs (sin x) <= Rabs x.
Proof.
  destruct (Rle_dec 0 x) as [H | H].
  - rewrite (Rabs_pos_eq x) by lra. apply Rabs_le. split.
    + pose proof (sin_ge_cube x H). destruct (Rle_dec x 1); [nra |].
      pose proof (SIN_bound x). lra.
    + destruct H as [H | H]; [pose proof (sin_lt_x x H); lra | subst; rewrite sin_0; lra].
  - rewrite <- (Rabs_Ropp (sin x)), <- sin_neg, (Rabs_left x) by lra. apply Rabs_le. split.
    + pose proof (sin_ge_cube (- x) ltac:(lra)). destruct (Rle_dec (- x) 1); [nra |].
      pose proof (SIN_bound (- x)). lra.
    + pose proof (sin_lt_x (- x) ltac:(lra)). lra.
Qed.

Lemma cos_close (p z : R) : Rabs (cos p - cos z) <= Rabs (p - z) * Rabs (p + z) / 2.
Proof.
  rewrite form2, !Rabs_mult, (Rabs_left (-2)) by lra.
  pose proof (abs_sin_le ((p - z) / 2)) as A. pose proof (abs_sin_le ((p + z) / 2)) as B.
  unfold Rdiv in A, B. rewrite Rabs_mult, (Rabs_pos_eq (/ 2)) in A, B by lra.
  unfold Rdiv.
  pose proof (Rabs_pos (sin ((p - z) * / 2))). pose proof (Rabs_pos (sin ((p + z) * / 2))).
  pose proof (Rabs_pos (p - z)). pose proof (Rabs_pos (p + z)). nra.
Qed.

Lemma two_errors (t1 t2 eps : R) : 0 <= eps <= / 1000 -> Rabs t1 <= eps -> Rabs t2 <= eps ->
  Rabs (t1 + t2 + t1 * t2) <= 2.001 * eps.
Proof.
  intros He H1 H2. apply Rabs_le_inv in H1. apply Rabs_le_inv in H2. apply Rabs_le. nra.
Qed.

Lemma abs_over (X Y a : R) : 0 < a -> Rabs X <= Y -> Rabs (X / a) <= Y / a.
Proof.
  intros Ha H. unfold Rdiv. assert (0 < / a) by (apply Rinv_0_lt_compat; lra).
  rewrite Rabs_mult, (Rabs_pos_eq (/ a)) by lra. apply Rmult_le_compat_r; lra.
Qed.

Section U2.
  Variables eps delta z c p th ph : R.
  Hypothesis He : 0 <= eps <= / 1000.
  Hypothesis Hd : 0 <= delta.
  Hypothesis Hth : Rabs th <= 2.001 * eps.
  Hypothesis Hph : Rabs ph <= 2.001 * eps.
  Hypothesis Hp : p = z * (1 + th).

  Lemma near_p : Rabs (p - z) * Rabs (p + z) / 2 <= 2.01 * eps * z ^ 2.
  Proof using He Hth Hp.
    rewrite Hp. replace (z * (1 + th) - z) with (z * th) by ring.
    replace (z * (1 + th) + z) with (z * (2 + th)) by ring.
    rewrite !Rabs_mult.
    assert (A : Rabs (2 + th) <= 2.003).
    { apply Rabs_le_inv in Hth. apply Rabs_le. lra. }
    assert (Z : Rabs z * Rabs z = z ^ 2) by (rewrite <- Rabs_mult, Rabs_pos_eq; nra).
    replace (Rabs z * Rabs th * (Rabs z * Rabs (2 + th)) / 2)
      with ((Rabs z * Rabs z) * (Rabs th * Rabs (2 + th) / 2)) by field.
    rewrite Z. pose proof (Rabs_pos th). pose proof (Rabs_pos (2 + th)).
    assert (Rabs th * Rabs (2 + th) / 2 <= 2.01 * eps) by nra.
    assert (0 <= z ^ 2) by nra. nra.
  Qed.

  (** [W] is the exact [1 - cos z] or [cosh z - 1], [w] the one computed from [c]. *)
  Lemma combine (W w k : R) :
    0 <= W <= k * z ^ 2 -> 0 <= k <= 2 -> Rabs (w - W) <= delta + 4.1 * eps * z ^ 2 ->
    Rabs (w * (1 + ph) - W) <= 1.01 * delta + (4.2 + 2.001 * k) * eps * z ^ 2.
  Proof using He Hd Hph.
    intros HW Hk Hw. apply Rabs_le_inv in Hw. apply Rabs_le_inv in Hph.
    assert (Z : 0 <= eps * z ^ 2) by (apply Rmult_le_pos; nra).
    assert (B : Rabs (ph * w) <= 2.001 * eps * (k * z ^ 2 + delta + 4.1 * eps * z ^ 2)).
    { rewrite Rabs_mult. apply Rmult_le_compat; try apply Rabs_pos; apply Rabs_le; lra. }
    assert (C : 2.001 * eps * (k * z ^ 2 + delta + 4.1 * eps * z ^ 2)
                <= 2.001 * k * (eps * z ^ 2) + 0.01 * delta + 0.05 * (eps * z ^ 2)) by nra.
    apply Rabs_le_inv in B. apply Rabs_le. nra.
  Qed.
End U2.

Lemma u2_error (a x eps delta c t1 t2 t3 t4 : R) :
  0 <= eps <= / 1000 -> 0 <= delta -> 0 < a -> 0 < a * x ^ 2 <= 9 ->
  Rabs t1 <= eps -> Rabs t2 <= eps -> Rabs t3 <= eps -> Rabs t4 <= eps ->
  Rabs (c - cos (sqrt a * (1 + t1) * x * (1 + t2))) <= delta ->
  let U2 := (1 - cos (sqrt a * x)) / a in
  Rabs ((1 - c) * (1 + t3) / a * (1 + t4) - U2) <= (9 * delta / (a * x ^ 2) + 42 * eps) * U2.
Proof.
  intros He Hd Ha Hz H1 H2 H3 H4 Hc U2.
  set (z := sqrt a * x) in *.
  assert (Z2 : z ^ 2 = a * x ^ 2) by (unfold z; rewrite Rpow_mult_distr, pow2_sqrt by lra; ring).
  pose proof (two_errors t1 t2 eps He H1 H2) as Hth. pose proof (two_errors t3 t4 eps He H3 H4) as Hph.
  set (th := t1 + t2 + t1 * t2) in *. set (ph := t3 + t4 + t3 * t4) in *.
  assert (Hp : sqrt a * (1 + t1) * x * (1 + t2) = z * (1 + th)) by (unfold z, th; ring).
  rewrite Hp in Hc.
  pose proof (near_p eps z (z * (1 + th)) th He Hth eq_refl) as N.
  pose proof (cos_close (z * (1 + th)) z) as K.
  set (W := 1 - cos z). 
  assert (EP : 0 <= eps * z ^ 2) by (apply Rmult_le_pos; nra).
  assert (Hw : Rabs ((1 - c) - W) <= delta + 4.1 * eps * z ^ 2).
  { unfold W. apply Rabs_le_inv in Hc. assert (K' : Rabs (cos (z * (1 + th)) - cos z) <= 2.01 * eps * z ^ 2) by lra.
    apply Rabs_le_inv in K'. apply Rabs_le. lra. }
  assert (HW : z ^ 2 / 8 <= W <= 1 / 2 * z ^ 2).
  { assert (Q : forall y, 0 <= y -> y ^ 2 <= 9 -> y ^ 2 / 8 <= 1 - cos y <= 1 / 2 * y ^ 2).
    { intros y Y0 Y9. pose proof (cos_le_quart y Y0). pose proof (cos_ge_quad y Y0).
      assert (y ^ 4 <= 9 * y ^ 2) by nra. lra. }
    unfold W. destruct (Rle_dec 0 z) as [P | P]; [apply Q; lra |].
    pose proof (Q (- z) ltac:(lra) ltac:(nra)) as R. rewrite cos_neg in R.
    replace ((- z) ^ 2) with (z ^ 2) in R by ring. exact R. }
  pose proof (combine eps delta z ph He Hd Hph W (1 - c) (1 / 2) ltac:(lra) ltac:(lra) Hw) as C.
  replace ((1 - c) * (1 + t3) / a * (1 + t4) - U2) with (((1 - c) * (1 + ph) - W) / a)
    by (unfold U2, W, ph; field; lra).
  replace ((9 * delta / (a * x ^ 2) + 42 * eps) * U2) with ((9 * delta / z ^ 2 + 42 * eps) * W / a)
    by (unfold U2, W; rewrite Z2; field; split; [lra | intro Q; rewrite Q in Hz; lra]).
  apply abs_over; [exact Ha |].
  apply Rle_trans with (1 := C).
  assert (D : delta <= 8 * delta / z ^ 2 * W).
  { replace (8 * delta / z ^ 2 * W) with (delta * (8 * W / z ^ 2)) by (field; nra).
    assert (1 <= 8 * W / z ^ 2) by (apply Rle_div_r; nra). nra. }
  assert (D' : 9 * delta / z ^ 2 * W = 9 / 8 * (8 * delta / z ^ 2 * W)) by (field; nra).
  nra.
Qed.

Lemma cosh_close (p z : R) : 0 <= z -> z ^ 2 <= / 2 -> 0 <= p <= 1.003 * z ->
  Rabs (cosh p - cosh z) <= 2.02 * z * Rabs (p - z).
Proof.
  intros Z0 Z1 Hp.
  assert (Zs : z <= 0.7072) by nra.
  destruct (mvt cosh sinh z p der_cosh) as [c [Hc E]]. rewrite E, Rabs_mult.
  apply Rmult_le_compat_r; [apply Rabs_pos |].
  assert (B : 0 <= c <= 1.003 * z).
  { unfold Rmin, Rmax in Hc. destruct (Rle_dec z p); lra. }
  pose proof (sinh_nonneg c ltac:(lra)). rewrite Rabs_pos_eq by lra.
  pose proof (sinh_le_cosh c ltac:(lra)). pose proof (cosh_le_small c ltac:(lra)). nra.
Qed.

Lemma u2_error_hyperbolic (b x eps delta c t1 t2 t3 t4 : R) :
  0 <= eps <= / 1000 -> 0 <= delta -> 0 < b -> 0 < b * x ^ 2 <= / 2 ->
  Rabs t1 <= eps -> Rabs t2 <= eps -> Rabs t3 <= eps -> Rabs t4 <= eps ->
  Rabs (c - cosh (sqrt b * (1 + t1) * x * (1 + t2))) <= delta ->
  let U2 := (cosh (sqrt b * x) - 1) / b in
  Rabs ((c - 1) * (1 + t3) / b * (1 + t4) - U2) <= (9 * delta / (b * x ^ 2) + 42 * eps) * U2.
Proof.
  intros He Hd Ha Hz H1 H2 H3 H4 Hc U2.
  set (z := sqrt b * x) in *.
  assert (Z2 : z ^ 2 = b * x ^ 2) by (unfold z; rewrite Rpow_mult_distr, pow2_sqrt by lra; ring).
  pose proof (two_errors t1 t2 eps He H1 H2) as Hth. pose proof (two_errors t3 t4 eps He H3 H4) as Hph.
  set (th := t1 + t2 + t1 * t2) in *. set (ph := t3 + t4 + t3 * t4) in *.
  assert (Hp : sqrt b * (1 + t1) * x * (1 + t2) = z * (1 + th)) by (unfold z, th; ring).
  rewrite Hp in Hc.
  set (W := cosh z - 1).
  assert (EP : 0 <= eps * z ^ 2) by (apply Rmult_le_pos; nra).
  assert (K' : Rabs (cosh (z * (1 + th)) - cosh z) <= 4.1 * eps * z ^ 2).
  { assert (Q : forall y, 0 <= y -> y ^ 2 <= / 2 -> Rabs (cosh (y * (1 + th)) - cosh y) <= 4.1 * eps * y ^ 2).
    { intros y Y0 Y9. apply Rabs_le_inv in Hth.
      pose proof (cosh_close (y * (1 + th)) y Y0 Y9 ltac:(split; nra)) as K.
      replace (y * (1 + th) - y) with (y * th) in K by ring.
      rewrite Rabs_mult, (Rabs_pos_eq y) in K by lra.
      assert (Rabs th <= 2.001 * eps) by (apply Rabs_le; lra).
      assert (0 <= y * y) by nra. pose proof (Rabs_pos th). nra. }
    destruct (Rle_dec 0 z) as [P | P]; [apply Q; lra |].
    pose proof (Q (- z) ltac:(lra) ltac:(nra)) as R.
    replace (- z * (1 + th)) with (- (z * (1 + th))) in R by ring. rewrite !cosh_neg in R.
    replace ((- z) ^ 2) with (z ^ 2) in R by ring. exact R. }
  assert (Hw : Rabs ((c - 1) - W) <= delta + 4.1 * eps * z ^ 2).
  { unfold W. apply Rabs_le_inv in Hc. apply Rabs_le_inv in K'. apply Rabs_le. lra. }
  assert (HW : z ^ 2 / 2 <= W <= 2 * z ^ 2).
  { assert (Q : forall y, 0 <= y -> y ^ 2 <= / 2 -> y ^ 2 / 2 <= cosh y - 1 <= 2 * y ^ 2).
    { intros y Y0 Y9. pose proof (cosh_ge_quad y Y0). pose proof (cosh_le_small y ltac:(nra)). lra. }
    unfold W. destruct (Rle_dec 0 z) as [P | P]; [apply Q; lra |].
    pose proof (Q (- z) ltac:(lra) ltac:(nra)) as R. rewrite cosh_neg in R.
    replace ((- z) ^ 2) with (z ^ 2) in R by ring. exact R. }
  pose proof (combine eps delta z ph He Hd Hph W (c - 1) 2 ltac:(lra) ltac:(lra) Hw) as C.
  replace ((c - 1) * (1 + t3) / b * (1 + t4) - U2) with (((c - 1) * (1 + ph) - W) / b)
    by (unfold U2, W, ph; field; lra).
  replace ((9 * delta / (b * x ^ 2) + 42 * eps) * U2) with ((9 * delta / z ^ 2 + 42 * eps) * W / b)
    by (unfold U2, W; rewrite Z2; field; split; [lra | intro Q; rewrite Q in Hz; lra]).
  apply abs_over; [exact Ha |].
  apply Rle_trans with (1 := C).
  assert (D : delta <= 2 * delta / z ^ 2 * W).
  { replace (2 * delta / z ^ 2 * W) with (delta * (2 * W / z ^ 2)) by (field; nra).
    assert (1 <= 2 * W / z ^ 2) by (apply Rle_div_r; nra). nra. }
  assert (D' : 9 * delta / z ^ 2 * W = 9 / 2 * (2 * delta / z ^ 2 * W)) by (field; nra).
  nra.
Qed.

(** ** U3: a difference of two floats is zero or at least [eps] times either of them *)
Lemma u3_gone (b q eps d z Ue t1 t2 t3 t4 t5 : R) :
  0 < eps <= / 1000 -> 0 < b -> 0 < q ->
  Rabs t1 <= eps -> Rabs t2 <= eps -> Rabs t3 <= eps -> Rabs t4 <= eps -> Rabs t5 <= eps ->
  eps * Rabs (z * (1 + t1) * (1 + t2)) <= Rabs d -> Rabs Ue <= 0.49 * eps * Rabs z ->
  Rabs (Ue / b / q) <= Rabs (d * (1 + t3) / b * (1 + t4) / (q * (1 + t1)) * (1 + t5) - Ue / b / q).
Proof.
  intros He Hb Hq H1 H2 H3 H4 H5 Hd HU.
  apply Rabs_le_inv in H1. apply Rabs_le_inv in H2. apply Rabs_le_inv in H3.
  apply Rabs_le_inv in H4. apply Rabs_le_inv in H5.
  set (D := d * (1 + t3) * (1 + t4) * (1 + t5) / (1 + t1)).
  replace (d * (1 + t3) / b * (1 + t4) / (q * (1 + t1)) * (1 + t5) - Ue / b / q) with ((D - Ue) / b / q)
    by (unfold D; field; lra).
  assert (IB : 0 < / b) by (apply Rinv_0_lt_compat; lra).
  assert (IQ : 0 < / q) by (apply Rinv_0_lt_compat; lra).
  unfold Rdiv. rewrite !Rabs_mult, (Rabs_pos_eq (/ b)), (Rabs_pos_eq (/ q)) by lra.
  apply Rmult_le_compat_r; [lra |]. apply Rmult_le_compat_r; [lra |].
  assert (L : 0.98 * eps * Rabs z <= Rabs D).
  { unfold D, Rdiv. rewrite !Rabs_mult.
    rewrite (Rabs_pos_eq (1 + t3)), (Rabs_pos_eq (1 + t4)), (Rabs_pos_eq (1 + t5)) by lra.
    rewrite (Rabs_pos_eq (/ (1 + t1))) by (left; apply Rinv_0_lt_compat; lra).
    rewrite !Rabs_mult, (Rabs_pos_eq (1 + t1)), (Rabs_pos_eq (1 + t2)) in Hd by lra.
    pose proof (Rabs_pos z) as Pz.
    apply Rle_trans with (eps * (Rabs z * (1 + t1) * (1 + t2)) * (1 + t3) * (1 + t4) * (1 + t5) * / (1 + t1)).
    - replace (eps * (Rabs z * (1 + t1) * (1 + t2)) * (1 + t3) * (1 + t4) * (1 + t5) * / (1 + t1))
        with (eps * Rabs z * ((1 + t2) * (1 + t3) * (1 + t4) * (1 + t5))) by (field; lra).
      assert (0.998 <= (1 + t2) * (1 + t3)) by nra.
      assert (0.998 <= (1 + t4) * (1 + t5)) by nra.
      assert (0.98 <= (1 + t2) * (1 + t3) * (1 + t4) * (1 + t5)).
      { replace ((1 + t2) * (1 + t3) * (1 + t4) * (1 + t5)) with (((1 + t2) * (1 + t3)) * ((1 + t4) * (1 + t5))) by ring.
        nra. }
      assert (0 <= eps * Rabs z) by nra. nra.
    - apply Rmult_le_compat_r; [left; apply Rinv_0_lt_compat; lra |].
      repeat (apply Rmult_le_compat_r; [lra |]). exact Hd. }
  pose proof (Rabs_triang_inv D Ue) as T. lra.
Qed.

Lemma sin_excess (z : R) : Rabs (z - sin z) <= Rabs z ^ 3 / 6.
Proof.
  assert (Q : forall y, 0 <= y -> 0 <= y - sin y <= y ^ 3 / 6).
  { intros y Y. pose proof (sin_ge_cube y Y). pose proof (abs_sin_le y) as A.
    rewrite (Rabs_pos_eq y) in A by lra. apply Rabs_le_inv in A. lra. }
  destruct (Rle_dec 0 z) as [P | P].
  - pose proof (Q z P). rewrite !Rabs_pos_eq; lra.
  - pose proof (Q (- z) ltac:(lra)) as R. rewrite sin_neg in R.
    rewrite (Rabs_left z), (Rabs_left1 (z - sin z)) by lra. lra.
Qed.

Lemma sinh_excess (z : R) : z ^ 2 <= 1 -> Rabs (z - sinh z) <= 2 * Rabs z ^ 3.
Proof.
  intro Hz.
  assert (Q : forall y, 0 <= y <= 1 -> 0 <= sinh y - y <= 2 * y ^ 3).
  { intros y Y. pose proof (sinh_ge_id y ltac:(lra)). pose proof (sinh_le_cosh y ltac:(lra)).
    pose proof (cosh_le_small y Y). nra. }
  destruct (Rle_dec 0 z) as [P | P].
  - pose proof (Q z ltac:(split; nra)). rewrite Rabs_minus_sym, !Rabs_pos_eq; lra.
  - pose proof (Q (- z) ltac:(split; nra)) as R. rewrite sinh_neg in R.
    rewrite (Rabs_left z), (Rabs_pos_eq (z - sinh z)) by lra. lra.
Qed.

(** ** U3 away from zero energy *)
Lemma four_errors (t1 t3 t4 t5 eps : R) : 0 <= eps <= / 1000 ->
  Rabs t1 <= eps -> Rabs t3 <= eps -> Rabs t4 <= eps -> Rabs t5 <= eps ->
  Rabs ((1 + t3) * (1 + t4) * (1 + t5) / (1 + t1) - 1) <= 4.02 * eps.
Proof.
  intros He H1 H3 H4 H5. pose proof (two_errors t3 t4 eps He H3 H4) as H6.
  apply Rabs_le_inv in H1. apply Rabs_le_inv in H5. apply Rabs_le_inv in H6.
  set (a := t3 + t4 + t3 * t4) in *.
  replace ((1 + t3) * (1 + t4) * (1 + t5) / (1 + t1) - 1) with ((a + t5 + a * t5 - t1) / (1 + t1))
    by (unfold a; field; lra).
  assert (B : Rabs (a + t5 + a * t5 - t1) <= 4.01 * eps) by (apply Rabs_le; nra).
  unfold Rdiv. rewrite Rabs_mult, (Rabs_pos_eq (/ (1 + t1))) by (left; apply Rinv_0_lt_compat; lra).
  apply Rmult_le_reg_r with (1 + t1); [lra |].
  rewrite Rmult_assoc, Rinv_l, Rmult_1_r by lra. nra.
Qed.

Section U3.
  Variables eps delta b q z w N lo hi kw K t1 t3 t4 t5 : R.
  Hypothesis He : 0 <= eps <= / 1000.
  Hypothesis Hd : 0 <= delta.
  Hypothesis Hb : 0 < b.
  Hypothesis Hq : 0 < q.
  Hypothesis Hz : z <> 0.
  Hypothesis H1 : Rabs t1 <= eps.
  Hypothesis H3 : Rabs t3 <= eps.
  Hypothesis H4 : Rabs t4 <= eps.
  Hypothesis H5 : Rabs t5 <= eps.
  Hypothesis HN : lo * Rabs z ^ 3 <= Rabs N <= hi * Rabs z ^ 3.
  Hypothesis Hhi : 0 <= hi <= 2.
  Hypothesis Hkw : 0 <= kw <= 4.1.
  Hypothesis Hlo : / 11 <= lo.
  Hypothesis HK : 1.02 * kw + 4.05 * hi <= K * lo.
  Hypothesis Hw : Rabs (w - N) <= delta + kw * eps * Rabs z ^ 3.

  Lemma u3_near :
    Rabs (w * (1 + t3) / b * (1 + t4) / (q * (1 + t1)) * (1 + t5) - N / b / q)
    <= (12 * delta / Rabs z ^ 3 + K * eps) * Rabs (N / b / q).
  Proof using He Hd Hb Hq Hz H1 H3 H4 H5 HN Hhi Hkw Hlo HK Hw.
    pose proof (four_errors t1 t3 t4 t5 eps He H1 H3 H4 H5) as Hph.
    set (ph := (1 + t3) * (1 + t4) * (1 + t5) / (1 + t1) - 1) in *.
    apply Rabs_le_inv in H1.
    replace (w * (1 + t3) / b * (1 + t4) / (q * (1 + t1)) * (1 + t5) - N / b / q)
      with ((w * (1 + ph) - N) / b / q) by (unfold ph; field; lra).
    assert (IB : 0 < / b) by (apply Rinv_0_lt_compat; lra).
    assert (IQ : 0 < / q) by (apply Rinv_0_lt_compat; lra).
    unfold Rdiv at 1 2 4 5. rewrite !Rabs_mult, (Rabs_pos_eq (/ b)), (Rabs_pos_eq (/ q)) by lra.
    rewrite <- !Rmult_assoc.
    apply Rmult_le_compat_r; [lra |]. apply Rmult_le_compat_r; [lra |].
    assert (ZP : 0 < Rabs z) by (apply Rabs_pos_lt; exact Hz).
    assert (Z3 : 0 < Rabs z ^ 3) by (apply pow_lt; exact ZP).
    set (c := Rabs z ^ 3) in *.
    assert (C : Rabs (w * (1 + ph) - N) <= 1.02 * delta + (1.02 * kw + 4.05 * hi) * (eps * c)).
    { replace (w * (1 + ph) - N) with ((w - N) + ph * w) by ring.
      apply Rle_trans with (1 := Rabs_triang _ _). rewrite Rabs_mult.
      assert (W : Rabs w <= hi * c + delta + kw * eps * c).
      { replace w with ((w - N) + N) by ring. apply Rle_trans with (1 := Rabs_triang _ _). lra. }
      pose proof (Rabs_pos ph). pose proof (Rabs_pos w).
      assert (Rabs ph * Rabs w <= 4.02 * eps * (hi * c + delta + kw * eps * c))
        by (apply Rmult_le_compat; lra).
      assert (0 <= eps * c) by nra.
      assert (I1 : eps * delta <= / 1000 * delta) by (apply Rmult_le_compat_r; lra).
      assert (I2 : kw * eps * (eps * c) <= kw * / 1000 * (eps * c)).
      { apply Rmult_le_compat_r; [assumption |]. apply Rmult_le_compat_l; lra. }
      assert (0 <= hi * (eps * c)) by (apply Rmult_le_pos; lra).
      assert (0 <= kw * (eps * c)) by (apply Rmult_le_pos; lra).
      assert (4.02 * eps * (hi * c + delta + kw * eps * c)
        = 4.02 * (hi * (eps * c)) + 4.02 * (eps * delta) + 4.02 * (kw * eps * (eps * c))) by ring.
      lra. }
    apply Rle_trans with (1 := C).
    assert (D : delta <= 11 * delta / c * Rabs N).
    { replace (11 * delta / c * Rabs N) with (delta * (11 * Rabs N / c)) by (field; lra).
      assert (1 <= 11 * Rabs N / c) by (apply Rle_div_r; nra). nra. }
    assert (D' : 12 * delta / c * Rabs N = 12 / 11 * (11 * delta / c * Rabs N)) by (field; lra).
    apply Rle_trans with (12 * delta / c * Rabs N + K * eps * Rabs N); [rewrite D' | right; unfold Rdiv; ring].
    assert (EC : 0 <= eps * c) by nra.
    assert (G : (1.02 * kw + 4.05 * hi) * (eps * c) <= K * eps * Rabs N).
    { apply Rle_trans with (K * lo * (eps * c)); [apply Rmult_le_compat_r; lra |].
      replace (K * lo * (eps * c)) with (K * eps * (lo * c)) by ring.
      assert (0 <= K) by nra. apply Rmult_le_compat_l; [apply Rmult_le_pos; lra | lra]. }
    lra.
  Qed.
End U3.

Lemma sin_excess_near (z th eps : R) : 0 <= eps <= / 1000 -> Rabs th <= 2.001 * eps ->
  Rabs ((z * (1 + th) - sin (z * (1 + th))) - (z - sin z)) <= 1.1 * eps * Rabs z ^ 3.
Proof.
  intros He Hth.
  destruct (mvt (fun t => t - sin t) (fun t => 1 - cos t) z (z * (1 + th))) as [c [Hc E]].
  { intro t. apply der_minus; [apply der_id | apply der_sin]. }
  rewrite E, Rabs_mult. replace (z * (1 + th) - z) with (z * th) by ring. rewrite Rabs_mult.
  assert (A : Rabs c <= 1.003 * Rabs z).
  { apply Rabs_le_inv in Hth. unfold Rmin, Rmax in Hc. destruct (Rle_dec 0 z) as [P | P].
    - rewrite (Rabs_pos_eq z) by lra. apply Rabs_le. destruct (Rle_dec z (z * (1 + th))); split; nra.
    - rewrite (Rabs_left z) by lra. apply Rabs_le. destruct (Rle_dec z (z * (1 + th))); split; nra. }
  assert (B : Rabs (1 - cos c) <= Rabs c ^ 2 / 2).
  { pose proof (COS_bound c). rewrite Rabs_pos_eq by lra.
    destruct (Rle_dec 0 c) as [P | P].
    - pose proof (cos_ge_quad c P). rewrite Rabs_pos_eq by lra. lra.
    - pose proof (cos_ge_quad (- c) ltac:(lra)) as Q. rewrite cos_neg in Q. rewrite Rabs_left by lra. lra. }
  pose proof (Rabs_pos z) as Pz. pose proof (Rabs_pos c) as Pc. pose proof (Rabs_pos th) as Pt.
  assert (C : Rabs (1 - cos c) <= 0.504 * Rabs z ^ 2) by nra.
  replace (1.1 * eps * Rabs z ^ 3) with ((1.1 * Rabs z ^ 2) * (Rabs z * eps)) by ring.
  apply Rle_trans with ((0.504 * Rabs z ^ 2) * (Rabs z * (2.001 * eps))).
  - apply Rmult_le_compat; [apply Rabs_pos | apply Rmult_le_pos; lra | exact C |].
    apply Rmult_le_compat_l; lra.
  - assert (0 <= Rabs z ^ 2 * (Rabs z * eps)) by (apply Rmult_le_pos; [apply pow2_ge_0 | nra]). nra.
Qed.

Lemma sinh_excess_near (z th eps : R) : 0 <= eps <= / 1000 -> Rabs th <= 2.001 * eps -> z ^ 2 <= / 2 ->
  Rabs ((z * (1 + th) - sinh (z * (1 + th))) - (z - sinh z)) <= 4.1 * eps * Rabs z ^ 3.
Proof.
  intros He Hth Hz.
  destruct (mvt (fun t => t - sinh t) (fun t => 1 - cosh t) z (z * (1 + th))) as [c [Hc E]].
  { intro t. apply der_minus; [apply der_id | apply der_sinh]. }
  rewrite E, Rabs_mult. replace (z * (1 + th) - z) with (z * th) by ring. rewrite Rabs_mult.
  assert (A : Rabs c <= 1.003 * Rabs z).
  { apply Rabs_le_inv in Hth. unfold Rmin, Rmax in Hc. destruct (Rle_dec 0 z) as [P | P].
    - rewrite (Rabs_pos_eq z) by lra. apply Rabs_le. destruct (Rle_dec z (z * (1 + th))); split; nra.
    - rewrite (Rabs_left z) by lra. apply Rabs_le. destruct (Rle_dec z (z * (1 + th))); split; nra. }
  assert (Zs : Rabs z <= 0.7072).
  { pose proof (Rabs_pos z). assert (Rabs z * Rabs z = z ^ 2) by (rewrite <- Rabs_mult, Rabs_pos_eq; nra). nra. }
  assert (B : Rabs (1 - cosh c) <= 2 * Rabs c ^ 2).
  { pose proof (cosh_ge_1 c). rewrite Rabs_left1 by lra.
    destruct (Rle_dec 0 c) as [P | P].
    - rewrite Rabs_pos_eq in * by lra. pose proof (cosh_le_small c ltac:(lra)). lra.
    - rewrite Rabs_left in * by lra. pose proof (cosh_le_small (- c) ltac:(lra)) as Q.
      rewrite cosh_neg in Q. lra. }
  pose proof (Rabs_pos z) as Pz. pose proof (Rabs_pos c) as Pc. pose proof (Rabs_pos th) as Pt.
  assert (C : Rabs (1 - cosh c) <= 2.0121 * Rabs z ^ 2) by nra.
  replace (4.1 * eps * Rabs z ^ 3) with ((4.1 * Rabs z ^ 2) * (Rabs z * eps)) by ring.
  apply Rle_trans with ((2.0121 * Rabs z ^ 2) * (Rabs z * (2.001 * eps))).
  - apply Rmult_le_compat; [apply Rabs_pos | apply Rmult_le_pos; lra | exact C |].
    apply Rmult_le_compat_l; lra.
  - assert (0 <= Rabs z ^ 2 * (Rabs z * eps)) by (apply Rmult_le_pos; [apply pow2_ge_0 | nra]). nra.
Qed.

Lemma sin_excess_low (z : R) : z ^ 2 <= 9 -> / 11 * Rabs z ^ 3 <= Rabs (z - sin z) <= / 6 * Rabs z ^ 3.
Proof.
  intro Hz. split; [| pose proof (sin_excess z); lra].
  assert (Q : forall y, 0 <= y -> y ^ 2 <= 9 -> / 11 * y ^ 3 <= y - sin y).
  { intros y Y Y9. pose proof (sin_le_quint y Y).
    replace (y ^ 5) with (y ^ 3 * y ^ 2) in H by ring. assert (0 <= y ^ 3) by (apply pow_le; exact Y). nra. }
  assert (P3 : 0 <= Rabs z ^ 3) by (apply pow_le, Rabs_pos).
  destruct (Rle_dec 0 z) as [P | P].
  - rewrite (Rabs_pos_eq z) in * by exact P. pose proof (Q z P Hz). rewrite Rabs_pos_eq; lra.
  - rewrite (Rabs_left z) in * by lra. pose proof (Q (- z) ltac:(lra) ltac:(nra)) as R.
    rewrite sin_neg in R. rewrite Rabs_left1; lra.
Qed.

Lemma sinh_excess_low (z : R) : z ^ 2 <= 1 -> / 6 * Rabs z ^ 3 <= Rabs (z - sinh z) <= 2 * Rabs z ^ 3.
Proof.
  intro Hz. split; [| exact (sinh_excess z Hz)].
  assert (P3 : 0 <= Rabs z ^ 3) by (apply pow_le, Rabs_pos).
  destruct (Rle_dec 0 z) as [P | P].
  - rewrite (Rabs_pos_eq z) in * by exact P. pose proof (sinh_ge_cube z P). rewrite Rabs_left1; lra.
  - rewrite (Rabs_left z) in * by lra. pose proof (sinh_ge_cube (- z) ltac:(lra)) as R.
    rewrite sinh_neg in R. rewrite Rabs_pos_eq; lra.
Qed.
