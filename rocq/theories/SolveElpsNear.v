(** * [solve_kepler_elps] converges for eccentricities up to 0.997 (C26)

    Continues [SolveElps], which stops at 0.996: up to 0.997 the first step may
    overshoot to 4.39, the second may fall short of the root, and the third is
    back above it. *)
From Coq Require Import Reals ZArith Lia Lra List Bool Ranalysis.
From Coquelicot Require Import Coquelicot.
From Verif Require Import Num NumR Spec OrbIntegrals KepEqu RLib Ana Atan2 LoopFacts KepRows SolveFacts NewtonConvex.
From Verif Require Import SolveElps.
Local Open Scope R_scope.

(** [sin y - y cos y] falls between [PI] and [2 PI]; so does any shift of it. *)
Lemma swing_decr k x y : 0 <= k <= 1 -> PI <= x -> x <= y -> y <= 2 * PI ->
  sin y - y * cos y + k * cos y <= sin x - x * cos x + k * cos x.
Proof.
  intros Hk H1 H2 H3. pose proof PI2_3_2 as P.
  destruct (Req_dec x y) as [-> | D]; [lra |].
  destruct (mvt_on (fun u => sin u - u * cos u + k * cos u) (fun u => (u - k) * sin u) x y ltac:(lra)) as [u [Hu Eu]].
  { intros u _. auto_derive; [trivial | ring]. }
  cbv beta in Eu. pose proof (sin_le_0 u ltac:(lra) ltac:(lra)) as S.
  assert ((u - k) * sin u <= 0) by nra. assert ((u - k) * sin u * (y - x) <= 0) by nra. lra.
Qed.
Lemma swing_439 : 3355 / 10000 <= sin (439 / 100) - 439 / 100 * cos (439 / 100) + 334 / 1000 * cos (439 / 100).
Proof.
  pose proof PI_tight as P. set (d := 3 * (PI / 2) - 439 / 100). assert (D : 3223 / 10000 <= d <= 3224 / 10000) by (unfold d; lra).
  assert (S : sin (439 / 100) = - cos d).
  { replace (439 / 100) with (3 * (PI / 2) - d) by (unfold d; lra). rewrite sin_minus, sin_3PI2, cos_3PI2. ring. }
  assert (C : cos (439 / 100) = - sin d).
  { replace (439 / 100) with (3 * (PI / 2) - d) by (unfold d; lra). rewrite cos_minus, sin_3PI2, cos_3PI2. ring. }
  rewrite S, C. pose proof (sin_ge_cube d ltac:(lra)) as Sd. pose proof (cos_le_quart d ltac:(lra)) as Cd.
  assert (d ^ 2 >= 10387 / 100000) by nra. assert (d ^ 2 <= 10395 / 100000) by nra.
  assert (d ^ 3 <= 3352 / 100000) by nra. assert (d ^ 4 <= 1081 / 100000) by nra. lra.
Qed.

Section Near.
  Variables (e M : R).
  Hypothesis He : 249 / 250 <= e <= 997 / 1000.
  Hypothesis HM : 0 <= M <= PI.
  Let s := sin M.
  Let c := cos M.
  Let del := e * s + e ^ 2 * s * c.
  Let w := elps_guess M e.

  Lemma near_guess : w = M + del.
  Proof using. unfold w, del, s, c. rewrite elps_guess_R, sin_2a. field. Qed.
  Lemma near_s : 0 <= s <= 1 /\ s ^ 2 + c ^ 2 = 1 /\ -1 <= c <= 1.
  Proof using HM.
    split; [split|split].
    - apply sin_ge_0; apply HM.
    - apply SIN_bound.
    - unfold s, c. rewrite <- !Rsqr_pow2. apply sin2_cos2.
    - apply COS_bound.
  Qed.
  Lemma near_del : 0 <= del.
  Proof using He HM.
    pose proof near_s as [S [_ C]]. unfold del.
    replace (e * s + e ^ 2 * s * c) with (e * s * (1 + e * c)) by ring.
    apply Rmult_le_pos; [apply Rmult_le_pos; lra|]. nra.
  Qed.
  Lemma near_resid : kepler_equ_elps w e M = del - e * (s * cos del + c * sin del).
  Proof using. rewrite kepler_equ_elps_R, near_guess, sin_plus. unfold s, c. ring. Qed.

  Lemma near_q1 : M <= PI / 2 ->
    0 <= w <= PI /\ (0 <= kepler_equ_elps w e M + dE w e * (PI - w) \/
      w < 1 / 4 /\ 0 <= kepler_equ_elps w e M + dE w e * (439 / 100 - w)).
  Proof using He HM.
    intros HM2. pose proof near_s as [S [SC C]]. pose proof near_del as D. pose proof PI_3 as P3.
    pose proof PI_4 as P4.
    assert (C0 : 0 <= c) by (apply cos_ge_0; lra).
    assert (Ms : s <= M) by (apply sin_le_id; lra).
    assert (Cq : c <= PI / 2 - M).
    { unfold c. rewrite <- sin_shift. apply sin_le_id. lra. }
    assert (Wl : s * (1 + e + e ^ 2 * c) <= w) by (rewrite near_guess; unfold del; nra).
    assert (Wu : w <= PI / 2 + 1).
    { rewrite near_guess. unfold del.
      assert (e * s <= 1) by nra. assert (0 <= e * s) by nra.
      assert (e ^ 2 * s * c <= c).
      { replace (e ^ 2 * s * c) with (e * (e * s) * c) by ring.
        assert (e * (e * s) <= 1) by nra. nra. }
      lra. }
    assert (Rs : - (e ^ 3 * s * c ^ 2) <= kepler_equ_elps w e M).
    { rewrite near_resid.
      pose proof (sin_le_id del D) as Q1. pose proof (COS_bound del) as [_ Q2].
      assert (s * cos del <= s) by nra. assert (c * sin del <= c * del) by nra.
      assert (e * (s * cos del + c * sin del) <= e * (s + c * del)) by (apply Rmult_le_compat_l; lra).
      assert (del - e * (s + c * del) = - (e ^ 3 * s * c ^ 2)) by (unfold del; ring).
      lra. }
    split; [split; [rewrite near_guess|]; lra|].
    assert (E3 : e ^ 3 * s * c ^ 2 <= s * c ^ 2).
    { assert (0 <= s * c ^ 2) by nra. assert (e ^ 3 <= 1) by nra. nra. }
    assert (W0 : 0 <= w) by (rewrite near_guess; lra).
    destruct (Rle_dec (PI / 2) w) as [B|B].
    - assert (cos w <= 0) by (apply cos_le_0; lra).
      assert (1 <= dE w e) by (rewrite dE_R; nra).
      assert (s * c ^ 2 <= 1 / 2).
      { replace (c ^ 2) with (1 - s ^ 2) by lra. 
        assert (0 <= (s - 3/5) ^ 2 * (s + 6/5)) by (apply Rmult_le_pos; [apply pow2_ge_0|lra]). nra. }
      assert (1 / 2 <= PI - w) by lra. left. nra.
    - apply Rnot_le_lt in B.
      assert (T : e ^ 3 * s * c ^ 2 <= 3314 / 10000 * w).
      { assert (K1 : c * (e * c - 3314 / 10000) <= e - 3314 / 10000) by nra.
        assert (K2 : e ^ 2 * (c * (e * c - 3314 / 10000)) <= e ^ 2 * (e - 3314 / 10000)) by (apply Rmult_le_compat_l; [apply pow2_ge_0 | exact K1]).
        assert (K3 : e ^ 2 * (e - 3314 / 10000) <= 3314 / 10000 * (1 + e)) by nra.
        assert (K4 : e ^ 3 * c ^ 2 <= 3314 / 10000 * (1 + e + e ^ 2 * c)).
        { replace (e ^ 3 * c ^ 2) with (e ^ 2 * (c * (e * c - 3314 / 10000)) + 3314 / 10000 * (e ^ 2 * c)) by ring. lra. }
        assert (s * (e ^ 3 * c ^ 2) <= s * (3314 / 10000 * (1 + e + e ^ 2 * c))) by (apply Rmult_le_compat_l; lra).
        lra. }
      assert (Dl : 3 / 1000 + 997 / 1000 * (1 - cos w) <= dE w e).
      { rewrite dE_R. assert (0 <= cos w) by (apply cos_ge_0; lra). nra. }
      assert (V : w ^ 2 / 2 - w ^ 4 / 24 <= 1 - cos w) by (pose proof (cos_le_quart w W0); lra).
      assert (Fin : forall q, w <= q -> 3314 / 10000 * w <= (3 / 1000 + 997 / 1000 * (w ^ 2 / 2 - w ^ 4 / 24)) * (q - w) ->
        0 <= kepler_equ_elps w e M + dE w e * (q - w)).
      { intros q Hq K.
        assert ((3 / 1000 + 997 / 1000 * (w ^ 2 / 2 - w ^ 4 / 24)) * (q - w) <= dE w e * (q - w)).
        { apply Rmult_le_compat_r; lra. }
        lra. }
      destruct (Rlt_dec w (1 / 4)) as [R0|R0].
      { right. split; [exact R0|]. apply Fin; [lra|].
        assert (w ^ 2 <= 1 / 16) by nra.
        assert (4959 / 10000 * w ^ 2 <= 997 / 1000 * (w ^ 2 / 2 - w ^ 4 / 24)) by nra.
        apply Rle_trans with ((3 / 1000 + 4959 / 10000 * w ^ 2) * (439 / 100 - w)).
        2:{ apply Rmult_le_compat_r; lra. }
        assert (0 <= (w - 78 / 1000) ^ 2 * (439 / 100 - w)) by (apply Rmult_le_pos; [apply pow2_ge_0|lra]). nra. }
      left. apply Fin; [lra|]. apply Rnot_lt_le in R0.
      destruct (Rle_dec w (1 / 2)) as [R1|R1]; [|destruct (Rle_dec w 1) as [R2|R2]].
      + assert (w ^ 2 <= 1 / 4) by nra.
        assert (48 / 100 * w ^ 2 <= 997 / 1000 * (w ^ 2 / 2 - w ^ 4 / 24)) by nra.
        assert ((3 / 1000 + 48 / 100 * w ^ 2) * (3 - w) <= (3 / 1000 + 997 / 1000 * (w ^ 2 / 2 - w ^ 4 / 24)) * (PI - w)).
        { apply Rmult_le_compat; nra. }
        assert (3314 / 10000 * w <= (3 / 1000 + 48 / 100 * w ^ 2) * (3 - w)); [|lra].
        assert (0 <= (w - 1 / 4) * (1 / 2 - w)) by (apply Rmult_le_pos; lra). nra.
      + assert (w ^ 2 <= 1) by nra.
        assert (45 / 100 * w ^ 2 <= 997 / 1000 * (w ^ 2 / 2 - w ^ 4 / 24)) by nra.
        assert ((3 / 1000 + 45 / 100 * w ^ 2) * 2 <= (3 / 1000 + 997 / 1000 * (w ^ 2 / 2 - w ^ 4 / 24)) * (PI - w)).
        { apply Rmult_le_compat; nra. }
        nra.
      + assert (w ^ 2 <= 4) by nra.
        assert (33 / 100 * w ^ 2 <= 997 / 1000 * (w ^ 2 / 2 - w ^ 4 / 24)) by nra.
        assert ((3 / 1000 + 33 / 100 * w ^ 2) * (3 / 2) <= (3 / 1000 + 997 / 1000 * (w ^ 2 / 2 - w ^ 4 / 24)) * (PI - w)).
        { apply Rmult_le_compat; nra. }
        assert (w <= w ^ 2) by nra. lra.
  Qed.
  Lemma near_q2 : PI / 2 <= M ->
    0 <= w <= PI /\ 0 <= kepler_equ_elps w e M + dE w e * (PI - w).
  Proof using He HM.
    intros HM2. pose proof near_s as [S [SC C]]. pose proof near_del as D. pose proof PI_3 as P3.
    assert (C0 : c <= 0) by (apply cos_le_0; lra).
    assert (Ms : s <= PI - M).
    { unfold s. rewrite <- (sin_PI_x M). apply sin_le_id. lra. }
    set (k := - c) in *. assert (K : 0 <= k <= 1) by (unfold k; lra).
    assert (Ed : del = e * s * (1 - e * k)) by (unfold del, k; ring).
    assert (Ek : 0 <= 1 - e * k <= 1) by nra.
    assert (Es : 0 <= e * s <= s) by nra.
    assert (Ds : del <= s) by (rewrite Ed; nra).
    assert (W1 : w <= PI) by (rewrite near_guess; lra).
    split; [split; [rewrite near_guess|]; lra|].
    assert (cos w <= 0) by (apply cos_le_0; rewrite ?near_guess; lra).
    assert (Dw : 1 <= dE w e) by (rewrite dE_R; nra).
    assert (PI - w <= dE w e * (PI - w)) by nra.
    assert (Rs : - (e ^ 3 * s * k ^ 2) - e * k * (del ^ 3 / 6) <= kepler_equ_elps w e M).
    { rewrite near_resid.
      pose proof (sin_ge_cube del D) as Q1. pose proof (COS_bound del) as [_ Q2].
      assert (s * cos del <= s) by nra.
      assert (c * sin del <= - k * del + k * (del ^ 3 / 6)).
      { replace c with (- k) by (unfold k; ring). nra. }
      assert (e * (s * cos del + c * sin del) <= e * (s + (- k * del + k * (del ^ 3 / 6)))) by (apply Rmult_le_compat_l; lra).
      assert (del - e * (s + - k * del) = - (e ^ 3 * s * k ^ 2)) by (rewrite Ed; ring).
      lra. }
    assert (P : s - del <= PI - w) by (rewrite near_guess; lra).
    assert (Q : e ^ 3 * s * k ^ 2 + e * k * (del ^ 3 / 6) <= s - del).
    { assert (del ^ 2 <= e ^ 2 * (1 - e * k)).
      { rewrite Ed. replace ((e * s * (1 - e * k)) ^ 2) with (e ^ 2 * (1 - e * k) * (s ^ 2 * (1 - e * k))) by ring.
        assert (s ^ 2 * (1 - e * k) <= 1) by nra. assert (0 <= e ^ 2 * (1 - e * k)) by nra. nra. }
      assert (0 <= e * k) by nra.
      assert (e * k * (del ^ 3 / 6) <= e * k * del * (e ^ 2 * (1 - e * k)) / 6).
      { replace (e * k * (del ^ 3 / 6)) with (e * k * del * del ^ 2 / 6) by field.
        assert (0 <= e * k * del) by nra. nra. }
      assert (e * k * del * (e ^ 2 * (1 - e * k)) <= e ^ 2 * (1 - e * k) * k * s).
      { replace (e * k * del * (e ^ 2 * (1 - e * k))) with (e ^ 2 * (1 - e * k) * k * (e * del)) by ring.
        apply Rmult_le_compat_l; [|nra]. apply Rmult_le_pos; [apply Rmult_le_pos|]; nra. }
      assert (s - del - e ^ 3 * s * k ^ 2 = s * (1 - e) + e ^ 2 * (1 - e * k) * k * s) by (rewrite Ed; ring).
      assert (0 <= s * (1 - e)) by nra.
      assert (0 <= e ^ 2 * (1 - e * k) * k * s).
      { apply Rmult_le_pos; [|lra]. apply Rmult_le_pos; [|lra]. apply Rmult_le_pos; nra. }
      lra. }
    lra.
  Qed.

  Lemma near_ok : 0 <= w <= PI /\
    (elps_newton M e w <= PI \/ w < 1 / 4 /\ elps_newton M e w <= 439 / 100).
  Proof using He HM.
    assert (H : 0 <= w <= PI /\ (0 <= kepler_equ_elps w e M + dE w e * (PI - w) \/
      w < 1 / 4 /\ 0 <= kepler_equ_elps w e M + dE w e * (439 / 100 - w))).
    { destruct (Rle_dec M (PI / 2)); [now apply near_q1|]. destruct near_q2 as [A B]; [lra|]. auto. }
    destruct H as [H1 H2]. split; [exact H1|].
    rewrite elps_newton_R. pose proof (dE_pos w e ltac:(lra)) as D.
    assert (G : forall q, 0 <= kepler_equ_elps w e M + dE w e * (q - w) ->
      w - kepler_equ_elps w e M / dE w e <= q).
    { intros q Hq. apply (Rmult_le_reg_r (dE w e)); [exact D|].
      replace ((w - kepler_equ_elps w e M / dE w e) * dE w e) with (w * dE w e - kepler_equ_elps w e M) by (field; lra).
      nra. }
    destruct H2 as [H2|[H2 H3]]; [left|right]; auto.
  Qed.
  (** A small guess means a small root. *)
  Lemma near_root E : kepler_equ_elps E e M = 0 -> w < 1 / 4 -> M <= 9 / 100 /\ E <= 1.
  Proof using He HM.
    intros HE W. pose proof near_s as [S [SC C]]. pose proof near_del as D. pose proof PI_3 as P3.
    assert (Mw : M <= 1 / 4) by (rewrite near_guess in W; lra).
    assert (Cl : 31 / 32 <= c) by (pose proof (cos_ge_quad M ltac:(lra)) as H0; fold c in H0; nra).
    assert (Sl : 95 / 96 * M <= s) by (pose proof (sin_ge_cube M ltac:(lra)) as H0; fold s in H0; nra).
    assert (M9 : M <= 9 / 100).
    { rewrite near_guess in W. unfold del in W.
      assert (249 / 250 * (31 / 32) <= e * c) by (apply Rmult_le_compat; lra).
      assert (249 / 250 * (249 / 250 * (31 / 32)) <= e * (e * c)) by (apply Rmult_le_compat; lra). nra. }
    split; [exact M9|].
    assert (S1 : sin 1 <= 7 / 8).
    { pose proof (cos_ge_quad 1 ltac:(lra)) as C1. pose proof (sin2_cos2 1) as Q. rewrite !Rsqr_pow2 in Q.
      apply Rnot_lt_le. intros L. nra. }
    assert (F : 0 <= kepler_equ_elps 1 e M).
    { rewrite kepler_equ_elps_R. assert (e * sin 1 <= e * (7 / 8)) by (apply Rmult_le_compat_l; lra). lra. }
    apply Rnot_lt_le. intros L.
    pose proof (der_pos_incr (fun t => kepler_equ_elps t e M) (fun t => dE t e)
      ltac:(intros; apply elps_deriv) ltac:(intros; apply dE_pos; lra) 1 E L) as I. cbv beta in I. lra.
  Qed.

  Lemma newton_quot y : elps_newton M e y = (M + e * (sin y - y * cos y)) / dE y e.
  Proof using He.
    pose proof (dE_pos y e ltac:(lra)) as D. rewrite elps_newton_R, kepler_equ_elps_R, dE_R in *. field. lra.
  Qed.
  (** A step from beyond PI comes back, perhaps below the root. *)
  Lemma near_back y : M <= 9 / 100 -> PI <= y <= 439 / 100 -> 334 / 1000 <= elps_newton M e y <= PI.
  Proof using He HM.
    intros HM4 Hy. pose proof PI_tight as P. pose proof (dE_pos y e ltac:(lra)) as D.
    assert (Sy : sin y <= 0) by (apply sin_le_0; lra). pose proof (COS_bound y) as Cy.
    split.
    - rewrite newton_quot. apply (Rmult_le_reg_r (dE y e)); [exact D|].
      replace ((M + e * (sin y - y * cos y)) / dE y e * dE y e) with (M + e * (sin y - y * cos y)) by (field; lra).
      rewrite dE_R.
      pose proof (swing_decr (334 / 1000) y (439 / 100) ltac:(lra) ltac:(lra) ltac:(lra) ltac:(lra)) as K.
      pose proof swing_439 as K2.
      assert (K3 : 3355 / 10000 <= sin y - y * cos y + 334 / 1000 * cos y) by lra.
      assert (K4 : 334 / 1000 <= e * (sin y - y * cos y + 334 / 1000 * cos y)) by nra. lra.
    - rewrite elps_newton_R. apply (Rmult_le_reg_r (dE y e)); [exact D|].
      replace ((y - kepler_equ_elps y e M / dE y e) * dE y e) with (y * dE y e - kepler_equ_elps y e M) by (field; lra).
      rewrite kepler_equ_elps_R, dE_R.
      assert (0 <= - (e * sin y)) by nra.
      assert (1 - e * cos y <= 2) by nra.
      assert ((y - PI) * (1 - e * cos y) <= (y - PI) * 2) by (apply Rmult_le_compat_l; lra). lra.
  Qed.
  (** The next one is above the root and at most PI. *)
  Lemma near_third y : M <= 9 / 100 -> 334 / 1000 <= y <= 1 -> elps_newton M e y <= PI.
  Proof using He HM.
    intros HM4 Hy. pose proof PI_tight as P. pose proof (dE_pos y e ltac:(lra)) as D.
    rewrite newton_quot. apply (Rmult_le_reg_r (dE y e)); [exact D|].
    unfold Rdiv. rewrite Rmult_assoc, Rinv_l, Rmult_1_r by lra.
    assert (Dl : 3 / 1000 + 997 / 1000 * (y ^ 2 / 2 - y ^ 4 / 24) <= dE y e).
    { rewrite dE_R. pose proof (cos_le_quart y ltac:(lra)). assert (0 <= cos y) by (apply cos_ge_0; lra). nra. }
    assert (Y2 : 111 / 1000 <= y ^ 2 <= 1) by (split; nra).
    assert (Y4 : y ^ 4 <= y ^ 2) by (replace (y ^ 4) with (y ^ 2 * y ^ 2) by ring; nra).
    assert (T : e * (sin y - y * cos y) <= y ^ 3 / 2).
    { pose proof (sin_le_id y ltac:(lra)). pose proof (cos_ge_quad y ltac:(lra)).
      assert (y * (1 - y ^ 2 / 2) <= y * cos y) by (apply Rmult_le_compat_l; lra).
      assert (sin y - y * cos y <= y ^ 3 / 2) by lra. assert (0 <= y ^ 3) by (apply pow_le; lra). nra. }
    assert (3 * dE y e <= PI * dE y e) by (apply Rmult_le_compat_r; lra).
    assert (y ^ 3 <= y ^ 2) by (replace (y ^ 3) with (y ^ 2 * y) by ring; nra). lra.
  Qed.
End Near.

Section Seventeen.
  Variables (e M E : R).
  Hypothesis He : 249 / 250 <= e <= 997 / 1000.
  Hypothesis HM : 0 <= M <= PI.
  Hypothesis Hroot : kepler_equ_elps E e M = 0.
  Let x k := iterate (elps_newton M e) k (elps_guess M e).
  Let He1 : 0 <= e < 1.
  Proof. lra. Qed.

  Lemma third_in : E <= x 3 <= PI.
  Proof using He HM Hroot.
    pose proof (root_in e M E He1 HM Hroot) as R0. destruct (near_ok e M He HM) as [A B].
    change (E <= elps_newton M e (elps_newton M e (elps_newton M e (elps_guess M e))) <= PI).
    set (x1 := elps_newton M e (elps_guess M e)) in *.
    assert (L : E <= x1) by (apply newton_above; auto; lra).
    destruct (Rle_dec x1 PI) as [P|P].
    - apply (inside_step e M E He1 HM Hroot). apply (inside_step e M E He1 HM Hroot). lra.
    - destruct B as [B|[B1 B2]]; [lra|].
      destruct (near_root e M He HM E Hroot B1) as [C1 C2].
      pose proof (near_back e M He HM x1 C1 ltac:(lra)) as K. set (x2 := elps_newton M e x1) in *.
      destruct (Rle_dec E x2) as [Q|Q]; [apply (inside_step e M E He1 HM Hroot); lra|].
      split; [apply newton_above; auto; lra|]. apply (near_third e M He HM x2 C1). lra.
  Qed.
  Lemma twentieth_near : Rabs (kepler_equ_elps (x 20) e M) <= / 1000000.
  Proof using He HM Hroot.
    pose proof third_in as S. pose proof (root_in e M E He1 HM Hroot) as R0.
    destruct (inside_iter e M E He1 HM Hroot (x 3) 17 S) as [_ [B C]].
    assert (Q : iterate (elps_newton M e) 17 (x 3) = x 20).
    { unfold x. exact (eq_sym (iterate_add (elps_newton M e) 17 3 (elps_guess M e))). }
    rewrite Q in B, C. rewrite Rabs_pos_eq by exact B.
    pose proof (inside_value e M He1 HM (x 3) ltac:(lra)) as V.
    set (z := kepler_equ_elps (x 20) e M) in *. clearbody z.
    replace (INR 17) with (2 + 15) in C by (rewrite INR_IZR_INZ; simpl Z.of_nat; lra).
    assert (E2 : 4 <= exp 2).
    { replace 2 with (1 + 1) by lra. rewrite exp_plus. pose proof exp_1_low. nra. }
    rewrite !exp_plus in C.
    pose proof exp_m15 as X. change (- 15) with (Ropp 15) in X. rewrite exp_Ropp in X.
    assert (P15 : 0 < exp 15) by apply exp_pos.
    assert (X2 : 1000000 <= exp 15).
    { apply Rnot_lt_le. intros L. apply Rinv_lt_contravar in L; [lra|nra]. }
    assert (4 * 1000000 <= exp 2 * exp 15) by (apply Rmult_le_compat; lra).
    nra.
  Qed.
End Seventeen.

Lemma solve_elps_near_q M e : 0 <= e <= 997 / 1000 -> 0 <= M <= PI ->
  Rabs (kepler_equ_elps (solve_kepler_elps M e default_tol elps_max_iter) e M) <= / 1000000.
Proof.
  intros He HM. destruct (Rle_dec e (249 / 250)) as [L|L]; [apply solve_elps_q; lra|].
  destruct (elps_unique e M ltac:(lra)) as [E [HE _]].
  destruct (elps_run_char M e default_tol elps_max_iter) as [k [Hk [Hr [_ Hx]]]]. cbv zeta in *.
  assert (S : solve_kepler_elps M e default_tol elps_max_iter = iterate (elps_newton M e) k (elps_guess M e))
    by (unfold solve_kepler_elps; now rewrite Hr).
  rewrite S. destruct Hx as [Hx|Hx].
  - change (Z.to_nat elps_max_iter) with 20%nat in Hx. rewrite Hx.
    exact (twentieth_near e M E ltac:(lra) HM HE).
  - apply exceeds_R_false in Hx.
    destruct (elps_converged M e default_tol elps_max_iter _ _ _ ltac:(lra) ltac:(rewrite default_tol_R; lra) Hr Hx) as [B _].
    eapply Rle_trans; [exact B|]. rewrite default_tol_R. nra.
Qed.
Lemma solve_elps_near M e : 0 <= e <= 997 / 1000 ->
  Rabs (kepler_equ_elps (solve_kepler_elps M e default_tol elps_max_iter) e M) <= / 1000000.
Proof.
  intros He. destruct (mod_2PI M) as [k Hk]. set (M1 := M + 2 * PI * IZR k) in *.
  assert (Ht : 0 <= @default_tol R Num_R) by (rewrite default_tol_R; lra).
  assert (S : solve_kepler_elps M1 e default_tol elps_max_iter
              = solve_kepler_elps M e default_tol elps_max_iter + 2 * PI * IZR k)
    by (apply solve_elps_shift; lra).
  rewrite <- (elps_equ_shift _ e M k). rewrite <- S. fold M1.
  destruct (Rle_dec 0 M1) as [P|P]; [apply solve_elps_near_q; lra|].
  pose proof (solve_elps_near_q (- M1) e He ltac:(lra)) as Q.
  rewrite solve_elps_neg, elps_equ_neg, Rabs_Ropp in Q by lra. exact Q.
Qed.
