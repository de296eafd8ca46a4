(** * TimeReal: how the solutions of Kepler's two equations follow the mean anomaly (proofs for C111) *)
From Coq Require Import Reals Lra Psatz.
From Verif Require Import Num NumR Spec KepEqu SolveFacts SolveHypb HypNewton.
Local Open Scope R_scope.

Lemma elps_follow (e X X' M M' : R) : 0 <= e <= 3 / 4 -> X - e * sin X = M -> X' - e * sin X' = M' -> Rabs (X' - X) <= 4 * Rabs (M' - M).
Proof.
  intros He HX HX'. pose proof (sin_lip X' X) as S. replace (M' - M) with ((X' - X) - e * (sin X' - sin X)) by lra.
  assert (K : Rabs (e * (sin X' - sin X)) <= 3 / 4 * Rabs (X' - X)).
  { rewrite Rabs_mult, (Rabs_pos_eq e) by lra. apply Rmult_le_compat; try apply Rabs_pos; lra. }
  pose proof (Rabs_triang_inv (X' - X) (e * (sin X' - sin X))). lra.
Qed.

Lemma hypb_gap (e A B : R) : 2 <= e -> 0 <= A <= B -> (B - A) * (e * cosh A / 2) <= (e * sinh B - B) - (e * sinh A - A).
Proof.
  intros He [HA HB]. pose proof (resid e (e * sinh A - A) A He HA eq_refl B HB). lra.
Qed.
Lemma hypb_size (e A : R) : 2 <= e -> 0 <= A -> 0 <= e * sinh A - A <= e * cosh A.
Proof.
  intros He HA. pose proof (sinh_ge_id A HA). pose proof (abs_sinh A). nra.
Qed.
Lemma pos_of (e X : R) : 2 <= e -> 0 <= e * sinh X - X -> 0 <= X.
Proof.
  intros He H. apply Rnot_lt_le. intros K. pose proof (sinh_ge_id (- X) ltac:(lra)) as S. replace (sinh (- X)) with (- sinh X) in S by (unfold sinh; rewrite Ropp_involutive; lra). nra.
Qed.
Lemma follow_pos (e X X' w w' eta : R) : 2 <= e -> 0 <= w -> e * sinh X - X = w -> e * sinh X' - X' = w' ->
  0 <= eta <= / 1000 -> Rabs (w' - w) <= eta * w -> Rabs (X' - X) <= 21 / 10 * eta.
Proof.
  intros He Hw HX HX' Heta HR.
  assert (R1 : - (eta * w) <= w' - w <= eta * w) by (unfold Rabs in HR; destruct Rcase_abs in HR; lra).
  assert (E0 : eta * w <= / 1000 * w) by (apply Rmult_le_compat_r; lra).
  pose proof (pos_of e X He ltac:(lra)) as P. pose proof (pos_of e X' He ltac:(lra)) as P'.
  destruct (Rle_or_lt X X') as [C|C].
  - pose proof (hypb_gap e X X' He ltac:(lra)) as G. pose proof (hypb_size e X He P) as S. pose proof (cosh_ge_1 X) as C1.
    assert (K : (X' - X) * (e * cosh X / 2) <= (2 * eta) * (e * cosh X / 2)) by nra.
    apply Rmult_le_reg_r in K; [|nra]. rewrite Rabs_pos_eq; lra.
  - pose proof (hypb_gap e X' X He ltac:(lra)) as G. pose proof (hypb_size e X' He P') as S. pose proof (cosh_ge_1 X') as C1.
    assert (K0 : w - w' <= 21 / 20 * eta * w').
    { assert (eta * w <= eta * (1000 / 999 * w')) by (apply Rmult_le_compat_l; lra). assert (0 <= eta * w') by (apply Rmult_le_pos; lra). lra. }
    assert (K1 : eta * w' <= eta * (e * cosh X')) by (apply Rmult_le_compat_l; lra).
    assert (K : (X - X') * (e * cosh X' / 2) <= (21 / 10 * eta) * (e * cosh X' / 2)) by lra.
    apply Rmult_le_reg_r in K; [|nra]. rewrite Rabs_left; lra.
Qed.
Lemma hypb_follow (e X X' w w' eta : R) : 2 <= e -> e * sinh X - X = w -> e * sinh X' - X' = w' ->
  0 <= eta <= / 1000 -> Rabs (w' - w) <= eta * Rabs w -> Rabs (X' - X) <= 21 / 10 * eta.
Proof.
  intros He HX HX' Heta HR. destruct (Rle_or_lt 0 w) as [C|C].
  - rewrite (Rabs_pos_eq w) in HR by exact C. exact (follow_pos e X X' w w' eta He C HX HX' Heta HR).
  - rewrite (Rabs_left w) in HR by exact C. rewrite <- Rabs_Ropp. replace (- (X' - X)) with (- X' - - X) by ring.
    assert (O : forall x, sinh (- x) = - sinh x) by (intros x; unfold sinh; rewrite Ropp_involutive; lra).
    apply (follow_pos e (- X) (- X') (- w) (- w') eta He); try (rewrite O; lra); try lra.
    rewrite <- Rabs_Ropp in HR. replace (- w' - - w) with (- (w' - w)) by ring. exact HR.
Qed.
Lemma cosh_near (x y : R) : Rabs (x - y) <= / 400 -> cosh x <= 101 / 100 * cosh y.
Proof.
  intros H. assert (B : - / 400 <= x - y <= / 400) by (unfold Rabs in H; destruct Rcase_abs in H; lra).
  assert (E : forall d, d <= / 400 -> exp d <= 101 / 100).
  { intros d Hd. apply Rle_trans with (exp (/ 400)); [apply exp_mono; exact Hd|]. apply Rle_trans with (1 := exp_le_inv (/ 400) ltac:(lra)). lra. }
  unfold cosh. replace x with ((x - y) + y) by ring. replace (- ((x - y) + y)) with (- (x - y) + - y) by ring. rewrite !exp_plus.
  pose proof (E (x - y) ltac:(lra)). pose proof (E (- (x - y)) ltac:(lra)). pose proof (exp_pos y). pose proof (exp_pos (- y)). nra.
Qed.

(** the error of the anomaly is that of the solver and that of the mean anomaly *)
Lemma hypb_total (e X X' h tol delta u : R) : 2 <= e -> 0 <= u <= / 1000000 -> 0 <= tol -> 0 <= delta -> Rabs (X' - X) <= 11 * u ->
  Rabs (h - X') <= 22 / 10 * (tol / (e * cosh X') + delta * (Rabs X' + 4) + (Rabs X' + 31) * u) + / 10 ^ 19 ->
  Rabs (h - X) <= 23 / 10 * (tol / (e * cosh X) + delta * (Rabs X + 4) + (Rabs X + 36) * u) + / 10 ^ 19.
Proof.
  intros He Hu Ht Hd HX Hh.
  pose proof (cosh_ge_1 X) as C. pose proof (cosh_ge_1 X') as C'.
  pose proof (cosh_near X X' ltac:(rewrite Rabs_minus_sym; lra)) as N.
  assert (T : tol / (e * cosh X') <= 101 / 100 * (tol / (e * cosh X))).
  { assert (0 < e * cosh X) by nra. assert (0 < e * cosh X') by nra.
    replace (101 / 100 * (tol / (e * cosh X))) with (tol * (101 / 100 * / (e * cosh X))) by (unfold Rdiv; ring). unfold Rdiv. apply Rmult_le_compat_l; [exact Ht|].
    replace (101 * / 100 * / (e * cosh X)) with (/ (e * cosh X * (100 / 101))) by (field; lra). apply Rinv_le_contravar; nra. }
  assert (T0 : 0 <= tol / (e * cosh X)) by (apply Rmult_le_pos; [exact Ht|left; apply Rinv_0_lt_compat; nra]).
  assert (A : Rabs X' <= Rabs X + 11 * u) by (replace X' with (X + (X' - X)) by ring; pose proof (Rabs_triang X (X' - X)); lra).
  pose proof (Rabs_pos X) as P. 
  assert (B1 : delta * (Rabs X' + 4) <= delta * (101 / 100 * (Rabs X + 4))) by (apply Rmult_le_compat_l; lra).
  assert (B2 : (Rabs X' + 31) * u <= (Rabs X + 311 / 10) * u) by (apply Rmult_le_compat_r; lra).
  assert (0 <= delta * (Rabs X + 4)) by (apply Rmult_le_pos; lra). assert (0 <= Rabs X * u) by (apply Rmult_le_pos; lra).
  replace (h - X) with ((h - X') + (X' - X)) by ring. pose proof (Rabs_triang (h - X') (X' - X)). lra.
Qed.
