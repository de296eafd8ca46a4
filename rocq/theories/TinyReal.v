(** * TinyReal: cos, cosh, sin and sinh of small arguments (for C106) *)
From Coq Require Import ZArith Reals Lra Psatz.
From Coquelicot Require Import Coquelicot.
From Verif Require Import SolveElps SolveHypb B32Uni RoundFn.
Local Open Scope R_scope.

Lemma cos_gt_quad (x : R) : x <> 0 -> x ^ 2 <= 1 -> 1 - x ^ 2 / 2 < cos x <= 1.
Proof.
  intros N B. split; [| apply COS_bound].
  assert (P : forall y, 0 < y -> y ^ 2 <= 1 -> 1 - y ^ 2 / 2 < cos y).
  { intros y Y Y2. replace (cos y) with (1 - 2 * sin (y / 2) * sin (y / 2)) by (rewrite <- cos_2a_sin; f_equal; field).
    pose proof (sin_lt_x (y / 2) ltac:(lra)) as S. pose proof PI2_1 as Q.
    assert (0 <= sin (y / 2)) by (apply sin_ge_0; [lra | nra]). nra. }
  destruct (Rlt_dec 0 x) as [X | X]; [apply P; assumption |]. rewrite <- cos_neg. replace (x ^ 2) with ((- x) ^ 2) by ring. apply P; [lra |]. replace ((- x) ^ 2) with (x ^ 2) by ring. exact B.
Qed.
Lemma cosh_even (x : R) : cosh (- x) = cosh x.
Proof. unfold cosh. rewrite Ropp_involutive. lra. Qed.
Lemma sinh_odd (x : R) : sinh (- x) = - sinh x.
Proof. unfold sinh. rewrite Ropp_involutive. lra. Qed.
Lemma cosh_half (x : R) : cosh x = 1 + 2 * sinh (x / 2) ^ 2.
Proof.
  unfold cosh, sinh. replace x with (x / 2 + x / 2) at 1 2 by field. rewrite Ropp_plus_distr, !exp_plus.
  assert (E : exp (x / 2) * exp (- (x / 2)) = 1) by (rewrite <- exp_plus, Rplus_opp_r; apply exp_0). nra.
Qed.
Lemma cosh_le_quad (x : R) : x ^ 2 <= / 100 -> 1 <= cosh x <= 1 + 3 / 5 * x ^ 2.
Proof.
  intro B. split; [apply cosh_ge_sinh |].
  assert (P : forall y, 0 <= y -> y ^ 2 <= / 100 -> cosh y <= 1 + 3 / 5 * y ^ 2).
  { intros y Y Y2. assert (y <= / 10) by nra. rewrite cosh_half. set (h := y / 2). assert (Hh : 0 <= h <= / 20) by (unfold h; lra).
    pose proof (sinh_le_cosh h (proj1 Hh)) as S. pose proof (cosh_le_small h ltac:(lra)) as C.
    assert (S0 : 0 <= sinh h). { unfold sinh. pose proof (exp_le' (- h) h ltac:(lra)). lra. }
    assert (S1 : sinh h <= h * (1005 / 1000)) by nra. replace (y ^ 2) with (4 * (h * h)) by (unfold h; field).
    assert (sinh h ^ 2 <= (h * (1005 / 1000)) ^ 2) by (apply pow_incr; lra). nra. }
  destruct (Rle_dec 0 x) as [X | X]; [apply P; assumption |]. rewrite <- cosh_even. replace (x ^ 2) with ((- x) ^ 2) by ring. apply P; [lra |]. replace ((- x) ^ 2) with (x ^ 2) by ring. exact B.
Qed.
Lemma sinh_le_cube (x : R) : 0 <= x <= / 10 -> x <= sinh x <= x + x ^ 3 / 5.
Proof.
  intro B. assert (D : forall a b (f g : R -> R), (forall t : R, is_derive f t (g t)) -> 0 <= a <= b -> b <= / 10 -> (forall t, 0 <= t <= / 10 -> 0 <= g t) -> f a <= f b).
  { intros a b f g Hf Hab Hb Hg. destruct (MVT_gen f a b g) as [c [C E]].
    - intros t _. apply Hf.
    - intros t _. apply continuity_pt_filterlim. apply (ex_derive_continuous f). exists (g t). apply Hf.
    - rewrite Rmin_left, Rmax_right in C by lra. pose proof (Hg c ltac:(lra)). nra. }
  split.
  - pose proof (D 0 x (fun t => sinh t - t) (fun t => cosh t - 1)) as H. cbv beta in H. rewrite sinh_0 in H.
    assert (0 - 0 <= sinh x - x); [| lra]. apply H; [| lra | lra |].
    + intro t. apply (is_derive_minus (V := R_NormedModule) sinh (fun t => t)); [apply sinh_d | apply (is_derive_id (K := R_AbsRing))].
    + intros t _. destruct (cosh_ge_sinh t) as [_ [_ H1]]. lra.
  - pose proof (D 0 x (fun t => t + t ^ 3 / 5 - sinh t) (fun t => 1 + 3 / 5 * t ^ 2 - cosh t)) as H. cbv beta in H. rewrite sinh_0 in H.
    assert (0 + 0 ^ 3 / 5 - 0 <= x + x ^ 3 / 5 - sinh x); [| lra]. apply H; [| lra | lra |].
    + intro t. apply (is_derive_minus (V := R_NormedModule) (fun t => t + t ^ 3 / 5) sinh); [auto_derive; [trivial | field] | apply sinh_d].
    + intros t T. pose proof (cosh_le_quad t ltac:(nra)). lra.
Qed.
(** both within a fifth of the cube *)
Lemma sines_close (x : R) : x ^ 2 <= / 100 -> Rabs (sin x - x) <= Rabs x * (x ^ 2 / 5) /\ Rabs (sinh x - x) <= Rabs x * (x ^ 2 / 5).
Proof.
  intro B.
  assert (P : forall y, 0 <= y -> y ^ 2 <= / 100 -> Rabs (sin y - y) <= Rabs y * (y ^ 2 / 5) /\ Rabs (sinh y - y) <= Rabs y * (y ^ 2 / 5)).
  { intros y Y Y2. assert (y <= / 10) by nra. pose proof (sin_ge_cube y Y) as S. pose proof (sinh_le_cube y ltac:(lra)) as T.
    assert (sin y <= y). { destruct Y as [Y | <-]; [apply Rlt_le, sin_lt_x, Y | rewrite sin_0; lra]. }
    assert (0 <= y ^ 3) by (apply pow_le; exact Y). rewrite (Rabs_pos_eq y) by exact Y. rewrite Rabs_left1, (Rabs_pos_eq (_ - _)) by lra.
    replace (y * (y ^ 2 / 5)) with (y ^ 3 / 5) by field. lra. }
  destruct (Rle_dec 0 x) as [X | X]; [apply P; assumption |].
  destruct (P (- x) ltac:(lra) ltac:(replace ((- x) ^ 2) with (x ^ 2) by ring; exact B)) as [P1 P2].
  rewrite sin_neg in P1. rewrite sinh_odd in P2. rewrite Rabs_Ropp in P1, P2. replace ((- x) ^ 2) with (x ^ 2) in P1, P2 by ring.
  split; rewrite <- Rabs_Ropp; [replace (- (sin x - x)) with (- sin x - - x) by ring | replace (- (sinh x - x)) with (- sinh x - - x) by ring]; assumption.
Qed.
