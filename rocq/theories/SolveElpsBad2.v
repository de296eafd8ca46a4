(** * Mean anomalies that defeat [solve_kepler_elps] for [0.9972 <= e <= 0.998] (C26, refutation)

    Newton's first step overshoots to about 4.5, the second comes back next to
    0, where the derivative is nearly 0; the third is then as far as wished, and
    the jumps of [SolveElpsBad] begin. *)
From Coq Require Import Reals ZArith Lia Lra List Bool Ranalysis.
From Coquelicot Require Import Coquelicot.
From Verif Require Import Num NumR Spec OrbIntegrals KepEqu RLib Ana Atan2 LoopFacts KepRows SolveFacts NewtonConvex SolveElps SolveElpsNear SolveElpsBad.
Local Open Scope R_scope.

Lemma near_3PI2 x : sin x = - cos (3 * (PI / 2) - x) /\ cos x = - sin (3 * (PI / 2) - x).
Proof. split; [rewrite cos_minus | rewrite sin_minus]; rewrite sin_3PI2, cos_3PI2; ring. Qed.
Lemma sin_le_fifth x : 0 <= x -> sin x <= x - x ^ 3 / 6 + x ^ 5 / 120.
Proof.
  intros Hx. destruct (Req_dec x 0) as [-> | N]; [rewrite sin_0; lra |].
  destruct (mvt_on (fun u => sin u - (u - u ^ 3 / 6 + u ^ 5 / 120)) (fun u => cos u - (1 - u ^ 2 / 2 + u ^ 4 / 24)) 0 x ltac:(lra)) as [u [Hu Eu]].
  { intros u _. auto_derive; [trivial | field]. }
  cbv beta in Eu. rewrite sin_0 in Eu. pose proof (cos_le_quart u ltac:(lra)) as C.
  assert ((cos u - (1 - u ^ 2 / 2 + u ^ 4 / 24)) * (x - 0) <= 0) by nra. lra.
Qed.
Lemma swing_4492 : sin (4492 / 1000) - 4492 / 1000 * cos (4492 / 1000) <= 66 / 10000.
Proof.
  pose proof PI_tight as P. destruct (near_3PI2 (4492 / 1000)) as [S C]. rewrite S, C.
  set (d := 3 * (PI / 2) - 4492 / 1000). assert (D : 220384 / 1000000 <= d <= 220401 / 1000000) by (unfold d; lra).
  pose proof (sin_le_fifth d ltac:(lra)) as Sd. pose proof (cos_ge_quad d ltac:(lra)) as Cd.
  assert (d2 : 48569 / 1000000 <= d ^ 2 <= 48577 / 1000000) by nra.
  assert (d3 : 10703 / 1000000 <= d ^ 3) by nra.
  assert (d5 : d ^ 5 <= 522 / 1000000).
  { assert (d4 : d ^ 4 <= 236 / 100000) by (replace (d ^ 4) with (d ^ 2 * d ^ 2) by ring; nra).
    replace (d ^ 5) with (d ^ 4 * d) by ring. assert (0 <= d ^ 4) by (apply pow_le; lra). nra. }
  lra.
Qed.
Lemma swing_4 : 12 / 10 <= sin 4 - 4 * cos 4 + 9 / 10 * cos 4.
Proof.
  pose proof PI_tight as P. destruct (near_3PI2 4) as [S C]. rewrite S, C.
  set (d := 3 * (PI / 2) - 4). assert (D : 712 / 1000 <= d <= 713 / 1000) by (unfold d; lra).
  pose proof (sin_ge_cube d ltac:(lra)) as Sd. pose proof (cos_le_quart d ltac:(lra)) as Cd.
  assert (d2 : 506 / 1000 <= d ^ 2 <= 509 / 1000) by nra.
  assert (d3 : d ^ 3 <= 363 / 1000) by nra.
  assert (d4 : d ^ 4 <= 260 / 1000) by (replace (d ^ 4) with (d ^ 2 * d ^ 2) by ring; nra).
  lra.
Qed.

Section Bad2.
  Variable e : R.
  Hypothesis He : 9972 / 10000 <= e <= 998 / 1000.
  Let He1 : 0 <= e < 1.
  Proof. lra. Qed.
  Let He3 : 3 / 4 <= e < 1.
  Proof. lra. Qed.

  Lemma newton_quot M y : elps_newton M e y = (M + e * (sin y - y * cos y)) / dE y e.
  Proof using He.
    pose proof (dE_pos y e ltac:(lra)) as D. rewrite elps_newton_R, kepler_equ_elps_R, dE_R in *. field. lra.
  Qed.
  Lemma newton_ge M y c : c * dE y e <= M + e * (sin y - y * cos y) -> c <= elps_newton M e y.
  Proof using He.
    intros H. pose proof (dE_pos y e ltac:(lra)) as D. rewrite newton_quot.
    apply (Rmult_le_reg_r (dE y e)); [exact D|].
    replace ((M + e * (sin y - y * cos y)) / dE y e * dE y e) with (M + e * (sin y - y * cos y)) by (field; lra). exact H.
  Qed.
  Lemma newton_le M y c : M + e * (sin y - y * cos y) <= c * dE y e -> elps_newton M e y <= c.
  Proof using He.
    intros H. pose proof (dE_pos y e ltac:(lra)) as D. rewrite newton_quot.
    apply (Rmult_le_reg_r (dE y e)); [exact D|].
    replace ((M + e * (sin y - y * cos y)) / dE y e * dE y e) with (M + e * (sin y - y * cos y)) by (field; lra). exact H.
  Qed.

  Lemma guess_range m : 0 <= m <= 1 / 20 -> 2989 / 1000 * m <= elps_guess m e <= 2994005 / 1000000 * m.
  Proof using He.
    intros Hm. rewrite elps_guess_R.
    assert (m3 : 0 <= m ^ 3 <= 25 / 10000 * m) by (split; [apply pow_le; lra|nra]).
    assert (S1 : m - m ^ 3 / 6 <= sin m <= m) by (split; [apply sin_ge_cube | apply sin_le_id]; lra).
    assert (S2 : 2 * m - 8 * m ^ 3 / 6 <= sin (2 * m) <= 2 * m).
    { split; [|apply sin_le_id; lra]. pose proof (sin_ge_cube (2 * m) ltac:(lra)). nra. }
    assert (E2 : 9944 / 10000 <= e ^ 2 <= 996005 / 1000000) by nra.
    assert (e * sin m <= 998 / 1000 * m) by (apply Rmult_le_compat; lra).
    assert (e ^ 2 * sin (2 * m) <= 996005 / 1000000 * (2 * m)) by (apply Rmult_le_compat; lra).
    assert (9972 / 10000 * (m - m ^ 3 / 6) <= e * sin m) by (apply Rmult_le_compat; lra).
    assert (9944 / 10000 * (2 * m - 8 * m ^ 3 / 6) <= e ^ 2 * sin (2 * m)) by (apply Rmult_le_compat; lra).
    lra.
  Qed.
  Lemma swing_small w : 0 <= w <= 1 / 5 -> 33 / 100 * w ^ 3 <= sin w - w * cos w <= w ^ 3 / 2.
  Proof using He.
    intros Hw. pose proof (cos_ge_quad w ltac:(lra)) as Cw. pose proof (sin_ge_cube w ltac:(lra)) as Sw.
    pose proof (cos_le_quart w ltac:(lra)) as Cu. pose proof (sin_le_id w ltac:(lra)) as Su.
    assert (w3 : 0 <= w ^ 3) by (apply pow_le; lra).
    assert (w5 : w ^ 5 <= 1 / 25 * w ^ 3) by (replace (w ^ 5) with (w ^ 2 * w ^ 3) by ring; apply Rmult_le_compat_r; [exact w3|nra]).
    assert (w * (1 - w ^ 2 / 2) <= w * cos w) by (apply Rmult_le_compat_l; lra).
    assert (w * cos w <= w * (1 - w ^ 2 / 2 + w ^ 4 / 24)) by (apply Rmult_le_compat_l; lra).
    replace (w * (1 - w ^ 2 / 2 + w ^ 4 / 24)) with (w - w ^ 3 / 2 + w ^ 5 / 24) in * by field. split; lra.
  Qed.
  Lemma slope_small w : 0 <= w <= 1 / 5 -> 2 / 1000 + 9972 / 10000 * (w ^ 2 / 2 - w ^ 4 / 24) <= dE w e <= 28 / 10000 + 9972 / 10000 * (w ^ 2 / 2).
  Proof using He.
    intros Hw. pose proof (cos_ge_quad w ltac:(lra)) as Cw. pose proof (cos_le_quart w ltac:(lra)) as Cu.
    assert (w2 : 0 <= w ^ 2 <= 1 / 25) by nra.
    assert (w4 : 0 <= w ^ 4 <= w ^ 2) by (replace (w ^ 4) with (w ^ 2 * w ^ 2) by ring; nra).
    rewrite dE_R. split; nra.
  Qed.

  Let x1 M := elps_newton M e (elps_guess M e).
  Let x2 M := elps_newton M e (x1 M).
  Let x3 M := elps_newton M e (x2 M).

  Lemma overshoot M : 254 / 10000 <= M <= 1 / 20 -> 31 / 10 <= x1 M.
  Proof using He.
    intros HM. pose proof (guess_range M ltac:(lra)) as G. unfold x1. set (w := elps_guess M e) in *.
    apply newton_ge. pose proof (slope_small w ltac:(lra)) as [_ D]. pose proof (swing_small w ltac:(lra)) as [T _].
    assert (w ^ 2 <= 9 * M ^ 2) by nra. assert (0 <= w ^ 3) by (apply pow_le; lra).
    assert (0 <= e * (sin w - w * cos w)) by (apply Rmult_le_pos; lra).
    assert (31 / 10 * dE w e <= 31 / 10 * (28 / 10000 + 9972 / 10000 * (9 * M ^ 2 / 2))) by (apply Rmult_le_compat_l; lra).
    assert (31 / 10 * (28 / 10000 + 9972 / 10000 * (9 * M ^ 2 / 2)) <= M + 33 / 100 * 9972 / 10000 * (26 * M ^ 3)).
    { assert (0 <= M ^ 3) by (apply pow_le; lra). assert (0 <= (M - 254 / 10000) * (1 / 20 - M)) by nra. nra. }
    assert (26 * M ^ 3 <= w ^ 3).
    { apply Rle_trans with ((2989 / 1000 * M) ^ 3); [|apply pow_incr; lra].
      replace ((2989 / 1000 * M) ^ 3) with ((2989 / 1000) ^ 3 * M ^ 3) by ring.
      apply Rmult_le_compat_r; [apply pow_le; lra|lra]. }
    assert (9972 / 10000 * (33 / 100 * w ^ 3) <= e * (sin w - w * cos w)) by (apply Rmult_le_compat; lra).
    lra.
  Qed.
  Lemma overshoot_a : 4492 / 1000 <= x1 (254 / 10000) <= 55 / 10.
  Proof using He.
    pose proof (guess_range (254 / 10000) ltac:(lra)) as G. unfold x1. set (w := elps_guess (254 / 10000) e) in *.
    pose proof (slope_small w ltac:(lra)) as [D1 D2]. pose proof (swing_small w ltac:(lra)) as [T1 T2].
    assert (w2 : 57636 / 10000000 <= w ^ 2 <= 57833 / 10000000) by nra.
    assert (w4 : w ^ 4 <= 34 / 1000000) by (replace (w ^ 4) with (w ^ 2 * w ^ 2) by ring; nra).
    assert (w3 : 4375 / 10000000 <= w ^ 3 <= 44 / 100000) by (replace (w ^ 3) with (w ^ 2 * w) by ring; split; nra).
    assert (9972 / 10000 * (33 / 100 * w ^ 3) <= e * (sin w - w * cos w)) by (apply Rmult_le_compat; lra).
    assert (e * (sin w - w * cos w) <= 1 * (w ^ 3 / 2)) by (apply Rmult_le_compat; lra).
    split; [apply newton_ge | apply newton_le]; lra.
  Qed.
  Lemma overshoot_b : 35 / 10 <= x1 (1 / 20) <= 4.
  Proof using He.
    pose proof (guess_range (1 / 20) ltac:(lra)) as G. unfold x1. set (w := elps_guess (1 / 20) e) in *.
    pose proof (slope_small w ltac:(lra)) as [D1 D2]. pose proof (swing_small w ltac:(lra)) as [T1 T2].
    assert (w2 : 2233 / 100000 <= w ^ 2 <= 2242 / 100000) by nra.
    assert (w4 : w ^ 4 <= 51 / 100000) by (replace (w ^ 4) with (w ^ 2 * w ^ 2) by ring; nra).
    assert (w3 : 0 <= w ^ 3 <= 336 / 100000) by (replace (w ^ 3) with (w ^ 2 * w) by ring; split; nra).
    assert (0 <= e * (sin w - w * cos w)) by (apply Rmult_le_pos; lra).
    assert (e * (sin w - w * cos w) <= 1 * (w ^ 3 / 2)) by (apply Rmult_le_compat; lra).
    split; [apply newton_ge | apply newton_le]; lra.
  Qed.

  Lemma second_a : x2 (254 / 10000) <= 35 / 1000.
  Proof using He.
    pose proof overshoot_a as A. pose proof PI_tight as P. unfold x2. set (y := x1 (254 / 10000)) in *. clearbody y.
    apply newton_le. pose proof (dE_pos y e He1) as D.
    destruct (Rle_dec y (3 * (PI / 2))) as [L|L].
    - pose proof (swing_decr 0 (4492 / 1000) y ltac:(lra) ltac:(lra) ltac:(lra) ltac:(lra)) as K. pose proof swing_4492 as K2.
      assert (C : cos y <= 0) by (apply cos_le_0; lra). rewrite dE_R.
      assert (0 <= - (e * cos y)) by nra.
      assert (e * (sin y - y * cos y) <= 66 / 10000) by nra. lra.
    - pose proof (swing_decr 0 (3 * (PI / 2)) y ltac:(lra) ltac:(lra) ltac:(lra) ltac:(lra)) as K.
      rewrite sin_3PI2, cos_3PI2 in K. assert (e * (sin y - y * cos y) <= - (9 / 10)) by nra. nra.
  Qed.
  Lemma second_b : 9 / 10 <= x2 (1 / 20) <= PI.
  Proof using He.
    pose proof overshoot_b as A. pose proof PI_tight as P. unfold x2. set (y := x1 (1 / 20)) in *. clearbody y.
    pose proof (swing_decr (9 / 10) y 4 ltac:(lra) ltac:(lra) ltac:(lra) ltac:(lra)) as K. pose proof swing_4 as K2.
    assert (Sy : sin y <= 0) by (apply sin_le_0; lra). pose proof (COS_bound y) as Cy.
    split; [apply newton_ge | apply newton_le]; rewrite dE_R; [nra|].
    assert (0 <= - (e * sin y)) by nra.
    assert ((y - PI) * (1 - e * cos y) <= (y - PI) * 2) by (apply Rmult_le_compat_l; nra). nra.
  Qed.
  Lemma third_b : x3 (1 / 20) <= PI.
  Proof using He.
    pose proof second_b as A. unfold x3. set (y := x2 (1 / 20)) in *. clearbody y.
    assert (F0 : 0 <= kepler_equ_elps (9 / 10) e (1 / 20)).
    { rewrite kepler_equ_elps_R. pose proof (sin_le_fifth (9 / 10) ltac:(lra)) as S9. 
      assert (S9' : sin (9 / 10) <= 79 / 100) by lra. assert (e * sin (9 / 10) <= e * (79 / 100)) by (apply Rmult_le_compat_l; lra). lra. }
    assert (F : 0 <= kepler_equ_elps y e (1 / 20)).
    { destruct (Req_dec y (9 / 10)) as [-> | N]; [exact F0|].
      pose proof (der_pos_incr (fun t => kepler_equ_elps t e (1 / 20)) (fun t => dE t e)
        ltac:(intros; apply elps_deriv) ltac:(intros; apply dE_pos; lra) (9 / 10) y ltac:(lra)) as I. cbv beta in I. lra. }
    rewrite elps_newton_R. pose proof (dE_pos y e He1) as D.
    assert (0 <= kepler_equ_elps y e (1 / 20) / dE y e) by (apply Rle_mult_inv_pos; lra). lra.
  Qed.
  Lemma third_far M : 254 / 10000 <= M -> x2 M = 35 / 1000 -> 2 * PI <= x3 M.
  Proof using He.
    intros HM H. pose proof PI_tight as P. unfold x3. rewrite H. apply newton_ge.
    pose proof (slope_small (35 / 1000) ltac:(lra)) as [_ D]. pose proof (swing_small (35 / 1000) ltac:(lra)) as [T _].
    assert (0 <= e * (sin (35 / 1000) - 35 / 1000 * cos (35 / 1000))) by (apply Rmult_le_pos; lra).
    pose proof (dE_pos (35 / 1000) e He1) as D0.
    assert (2 * PI * dE (35 / 1000) e <= 63 / 10 * dE (35 / 1000) e) by (apply Rmult_le_compat_r; lra). lra.
  Qed.
  Lemma cont_x3 : continuity x2 /\ continuity x3.
  Proof using He.
    assert (C1 : continuity x1) by (apply cont_newton; [exact He1|apply cont_guess]).
    assert (C2 : continuity x2) by (apply cont_newton; [exact He1|exact C1]).
    split; [exact C2|]. apply cont_newton; [exact He1|exact C2].
  Qed.

  Lemma never_converges2 n : exists M, 254 / 10000 <= M <= 1 / 20 /\
    forall k, (k <= n)%nat ->
      PI <= (-1) ^ k * iterate (elps_newton M e) (3 + k) (elps_guess M e) <= 2 * PI.
  Proof using He.
    destruct cont_x3 as [C2 C3].
    destruct (IVT_gen x2 (254 / 10000) (1 / 20) (35 / 1000)) as [b [Hb Eb]]; [exact C2| |].
    { pose proof second_a. pose proof second_b. split.
      - eapply Rle_trans; [apply Rmin_l|lra].
      - eapply Rle_trans; [|apply Rmax_r]. lra. }
    rewrite Rmin_left, Rmax_right in Hb by lra.
    destruct (horseshoe e He3 n x3 1 (1 / 20) b) as [M [HM H]]; auto; try lra.
    - rewrite Rmult_1_l. exact third_b.
    - rewrite Rmult_1_l. apply third_far; [lra|exact Eb].
    - exists M. rewrite Rmin_right, Rmax_left in HM by lra. split; [lra|].
      intros k Hk. specialize (H k Hk). rewrite Rmult_1_l in H.
      replace (iterate (elps_newton M e) (3 + k) (elps_guess M e)) with (iterate (elps_newton M e) k (x3 M)); [exact H|].
      unfold x3, x2, x1. rewrite !iterate_S_in. reflexivity.
  Qed.

  Lemma elps_bad2_at (tol : R) (mi : Z) : 0 < tol <= 1 -> (3 <= mi)%Z ->
    exists M, 0 <= M <= 1 / 20 /\
      (exists prev, elps_run M e tol mi = Some (mi, solve_kepler_elps M e tol mi, prev)) /\
      2 < Rabs (kepler_equ_elps (solve_kepler_elps M e tol mi) e M).
  Proof using He.
    intros Ht Hm. destruct (never_converges2 (Z.to_nat mi)) as [M [HM H]]. exists M. split; [lra|].
    destruct (elps_run_char M e tol mi) as [k [Hk [Hr [_ Hx]]]]. cbv zeta in *.
    assert (E : solve_kepler_elps M e tol mi = iterate (elps_newton M e) k (elps_guess M e))
      by (unfold solve_kepler_elps; now rewrite Hr).
    assert (B : (3 <= k)%nat -> 2 < Rabs (kepler_equ_elps (solve_kepler_elps M e tol mi) e M)).
    { intros Hk0. rewrite E. specialize (H (k - 3)%nat ltac:(lia)). replace (3 + (k - 3))%nat with k in H by lia.
      apply (window_residual e He3 M (k - 3)); [lra|exact H]. }
    destruct Hx as [Hx|Hx].
    - assert (Hk0 : (3 <= k)%nat) by lia. split; [|now apply B].
      rewrite E. subst k. rewrite Z2Nat.id in Hr by lia. eexists. exact Hr.
    - exfalso. apply exceeds_R_false in Hx.
      pose proof (overshoot M HM) as O.
      destruct k as [|[|[|k]]].
      + change (Rabs (elps_guess M e - (elps_guess M e + 2 * tol)) <= tol) in Hx.
        replace (elps_guess M e - (elps_guess M e + 2 * tol)) with (- (2 * tol)) in Hx by ring.
        rewrite Rabs_Ropp, Rabs_pos_eq in Hx by lra. lra.
      + change (Rabs (x1 M - elps_guess M e) <= tol) in Hx.
        pose proof (guess_range M ltac:(lra)) as G. rewrite Rabs_pos_eq in Hx; lra.
      + change (Rabs (elps_newton M e (x1 M) - x1 M) <= tol) in Hx.
        pose proof (dE_pos (x1 M) e He1) as D.
        rewrite elps_newton_R in Hx.
        assert (Q : 1 < kepler_equ_elps (x1 M) e M / dE (x1 M) e).
        { apply (Rmult_lt_reg_r (dE (x1 M) e)); [exact D|].
          replace (kepler_equ_elps (x1 M) e M / dE (x1 M) e * dE (x1 M) e) with (kepler_equ_elps (x1 M) e M) by (field; lra).
          rewrite kepler_equ_elps_R, dE_R. pose proof (SIN_bound (x1 M)). pose proof (COS_bound (x1 M)). nra. }
        rewrite Rabs_left in Hx; lra.
      + specialize (B ltac:(lia)). rewrite E in B.
        destruct (elps_converged M e tol mi _ _ _ He1 (proj1 Ht) Hr Hx) as [C _].
        assert (tol ^ 2 <= 1) by nra. nra.
  Qed.
End Bad2.

Lemma elps_bad2_residual (e : R) : 9972 / 10000 <= e < 1 ->
  forall (tol : R) (mi : Z), 0 < tol <= 1 -> (3 <= mi)%Z ->
  exists M, 0 <= M <= 1 / 20 /\
    (exists prev, elps_run M e tol mi = Some (mi, solve_kepler_elps M e tol mi, prev)) /\
    2 < Rabs (kepler_equ_elps (solve_kepler_elps M e tol mi) e M).
Proof.
  intros He tol mi Ht Hm. destruct (Rle_dec e (998 / 1000)) as [L|L].
  - apply elps_bad2_at; auto; lra.
  - apply elps_bad_residual; auto; lra || lia.
Qed.
