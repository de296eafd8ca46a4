(** * TimeReal6: how the hyperbolic anomaly follows the mean anomaly for e >= 6/5 (proofs for C111) *)
From Coq Require Import Reals Lra Psatz.
From Verif Require Import Num NumR Spec Ana UFacts KepEqu SolveFacts SolveHypb HypNewton HypNear TimeReal.
Local Open Scope R_scope.

Lemma gap6 (e A B : R) : 6 / 5 <= e -> 0 <= A <= B -> (B - A) * (e * cosh A - 1) <= (e * sinh B - B) - (e * sinh A - A).
Proof.
  intros He [HA HB]. pose proof (slope_pos e He B) as SB.

  pose proof (sinh_ge_id (B - A) ltac:(lra)) as S. pose proof (cosh_ge_1 (B - A)) as C. pose proof (sinh_nonneg A HA) as S0. pose proof (cosh_ge_1 A) as CA.
  replace B with (A + (B - A)) at 2 by ring. rewrite sinh_plus.
  assert (sinh A <= sinh A * cosh (B - A)) by nra. assert (cosh A * (B - A) <= cosh A * sinh (B - A)) by (apply Rmult_le_compat_l; lra). nra.
Qed.
Lemma size6 (e A : R) : 6 / 5 <= e -> 0 <= A -> 0 <= e * sinh A - A <= e * cosh A - 1.
Proof.
  intros He HA. pose proof (sinh_ge_id A HA) as S. split; [nra|].
  pose proof (exp_cosh_sinh A) as E. pose proof (exp_ineq1_le (- A)) as L. pose proof (exp_pos (- A)) as P. rewrite <- E in L, P.
  destruct (Rle_dec A 1) as [K|K]; nra.
Qed.
Lemma pos6 (e X : R) : 6 / 5 <= e -> 0 <= e * sinh X - X -> 0 <= X.
Proof.
  intros He H. apply Rnot_lt_le. intros K. pose proof (sinh_ge_id (- X) ltac:(lra)) as S. replace (sinh (- X)) with (- sinh X) in S by (unfold sinh; rewrite Ropp_involutive; lra). nra.
Qed.
Lemma follow6_pos (e X X' w w' eta : R) : 6 / 5 <= e -> 0 <= w -> e * sinh X - X = w -> e * sinh X' - X' = w' ->
  0 <= eta <= / 1000 -> Rabs (w' - w) <= eta * w -> Rabs (X' - X) <= 21 / 20 * eta.
Proof.
  intros He Hw HX HX' Heta HR.
  assert (R1 : - (eta * w) <= w' - w <= eta * w) by (unfold Rabs in HR; destruct Rcase_abs in HR; lra).
  assert (E0 : eta * w <= / 1000 * w) by (apply Rmult_le_compat_r; lra).
  pose proof (pos6 e X He ltac:(lra)) as P. pose proof (pos6 e X' He ltac:(lra)) as P'.
  destruct (Rle_or_lt X X') as [C|C].
  - pose proof (gap6 e X X' He ltac:(lra)) as G. pose proof (size6 e X He P) as S. pose proof (slope_pos e He X) as C1.
    assert (K1 : eta * w <= eta * (e * cosh X - 1)) by (apply Rmult_le_compat_l; lra).
    assert (K : (X' - X) * (e * cosh X - 1) <= eta * (e * cosh X - 1)) by lra.
    apply Rmult_le_reg_r in K; [|lra]. rewrite Rabs_pos_eq; lra.
  - pose proof (gap6 e X' X He ltac:(lra)) as G. pose proof (size6 e X' He P') as S. pose proof (slope_pos e He X') as C1.
    assert (K0 : w - w' <= 21 / 20 * eta * w').
    { assert (eta * w <= eta * (1000 / 999 * w')) by (apply Rmult_le_compat_l; lra). assert (0 <= eta * w') by (apply Rmult_le_pos; lra). lra. }
    assert (K1 : eta * w' <= eta * (e * cosh X' - 1)) by (apply Rmult_le_compat_l; lra).
    assert (K : (X - X') * (e * cosh X' - 1) <= (21 / 20 * eta) * (e * cosh X' - 1)) by lra.
    apply Rmult_le_reg_r in K; [|lra]. rewrite Rabs_left; lra.
Qed.
Lemma follow6 (e X X' w w' eta : R) : 6 / 5 <= e -> e * sinh X - X = w -> e * sinh X' - X' = w' ->
  0 <= eta <= / 1000 -> Rabs (w' - w) <= eta * Rabs w -> Rabs (X' - X) <= 21 / 20 * eta.
Proof.
  intros He HX HX' Heta HR. destruct (Rle_or_lt 0 w) as [C|C].
  - rewrite (Rabs_pos_eq w) in HR by exact C. exact (follow6_pos e X X' w w' eta He C HX HX' Heta HR).
  - rewrite (Rabs_left w) in HR by exact C. rewrite <- Rabs_Ropp. replace (- (X' - X)) with (- X' - - X) by ring.
    assert (O : forall x, sinh (- x) = - sinh x) by (intros x; unfold sinh; rewrite Ropp_involutive; lra).
    apply (follow6_pos e (- X) (- X') (- w) (- w') eta He); try (rewrite O; lra); try lra.
    rewrite <- Rabs_Ropp in HR. replace (- w' - - w) with (- (w' - w)) by ring. exact HR.
Qed.
Lemma total6 (e X X' h tol delta u : R) : 6 / 5 <= e -> 0 <= u <= / 1000000 -> 0 <= tol -> 0 <= delta -> Rabs (X' - X) <= 6 * u ->
  Rabs (h - X') <= 3 * (tol / (e * cosh X' - 1)) + 41 / 10 * (delta * (Rabs X' + 13) + (Rabs X' + 70) * u) + / 10 ^ 19 ->
  Rabs (h - X) <= 32 / 10 * (tol / (e * cosh X - 1)) + 42 / 10 * (delta * (Rabs X + 13) + (Rabs X + 72) * u) + / 10 ^ 19.
Proof.
  intros He Hu Ht Hd HX Hh.
  pose proof (slope6 e He X') as C'. pose proof (slope_pos e He X) as D. pose proof (slope_pos e He X') as D'.
  pose proof (cosh_near X X' ltac:(rewrite Rabs_minus_sym; lra)) as N.
  set (d := e * cosh X - 1) in *. set (d' := e * cosh X' - 1) in *.
  assert (DD : d <= 106 / 100 * d') by (unfold d, d' in *; assert (e * cosh X <= e * (101 / 100 * cosh X')) by (apply Rmult_le_compat_l; lra); lra).
  assert (T : tol / d' <= 106 / 100 * (tol / d)).
  { replace (106 / 100 * (tol / d)) with (tol * (106 / 100 * / d)) by (unfold Rdiv; ring). unfold Rdiv. apply Rmult_le_compat_l; [exact Ht|].
    replace (106 * / 100 * / d) with (/ (d * (100 / 106))) by (field; lra). apply Rinv_le_contravar; lra. }
  assert (T0 : 0 <= tol / d) by (apply Rmult_le_pos; [exact Ht|left; apply Rinv_0_lt_compat; lra]).
  assert (A : Rabs X' <= Rabs X + 6 * u) by (replace X' with (X + (X' - X)) by ring; pose proof (Rabs_triang X (X' - X)); lra).
  pose proof (Rabs_pos X) as P.
  assert (B1 : delta * (Rabs X' + 13) <= delta * (101 / 100 * (Rabs X + 13))) by (apply Rmult_le_compat_l; lra).
  assert (B2 : (Rabs X' + 70) * u <= (Rabs X + 701 / 10) * u) by (apply Rmult_le_compat_r; lra).
  assert (0 <= delta * (Rabs X + 13)) by (apply Rmult_le_pos; lra). assert (0 <= Rabs X * u) by (apply Rmult_le_pos; lra).
  replace (h - X) with ((h - X') + (X' - X)) by ring. pose proof (Rabs_triang (h - X') (X' - X)). lra.
Qed.
