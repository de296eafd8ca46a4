(** * Convergence and failure of [solve_kepler_elps] (C26) *)
From Coq Require Import Reals ZArith Lia Lra List Bool Ranalysis.
From Coquelicot Require Import Coquelicot.
From Verif Require Import Num NumR Spec OrbIntegrals KepEqu RLib Ana Atan2 LoopFacts KepRows SolveFacts NewtonConvex.
Local Open Scope R_scope.

(** ** Bounds on sine and cosine *)
Lemma sin_le_id x : 0 <= x -> sin x <= x.
Proof.
  intros H. pose proof (sin_lip x 0) as L. rewrite sin_0, !Rminus_0_r, (Rabs_pos_eq x) in L by lra.
  pose proof (Rle_abs (sin x)). lra.
Qed.
Lemma cos_ge_quad x : 0 <= x -> 1 - x ^ 2 / 2 <= cos x.
Proof.
  intros H.
  pose proof (der_nonneg_from (fun t => cos t + t ^ 2 / 2) (fun t => - sin t + t) 0) as P.
  specialize (P ltac:(intros t; apply der_plus; [apply der_cos|];
    eapply der_eq; [apply der_scal_r; apply (der_pow (fun s => s)), der_id|simpl; lra])
    ltac:(intros t Ht; pose proof (sin_le_id t Ht); lra) 0 x ltac:(lra) H).
  cbv beta in P. rewrite cos_0 in P. lra.
Qed.
Lemma sin_ge_cube x : 0 <= x -> x - x ^ 3 / 6 <= sin x.
Proof.
  intros H.
  pose proof (der_nonneg_from (fun t => sin t - (t - t ^ 3 / 6)) (fun t => cos t - (1 - t ^ 2 / 2)) 0) as P.
  specialize (P ltac:(intros t; apply der_minus; [apply der_sin|]; apply der_minus; [apply der_id|];
    eapply der_eq; [apply der_scal_r; apply (der_pow (fun s => s)), der_id|simpl; lra])
    ltac:(intros t Ht; pose proof (cos_ge_quad t Ht); lra) 0 x ltac:(lra) H).
  cbv beta in P. rewrite sin_0 in P. lra.
Qed.
Lemma cos_le_quart x : 0 <= x -> cos x <= 1 - x ^ 2 / 2 + x ^ 4 / 24.
Proof.
  intros H.
  pose proof (der_nonneg_from (fun t => 1 - t ^ 2 / 2 + t ^ 4 / 24 - cos t)
    (fun t => 0 - t + t ^ 3 / 6 - - sin t) 0) as P.
  specialize (P ltac:(intros t; apply der_minus; [|apply der_cos]; apply der_plus; [apply der_minus; [apply der_const|]|];
    (eapply der_eq; [apply der_scal_r; apply (der_pow (fun s => s)), der_id|simpl; lra]))
    ltac:(intros t Ht; pose proof (sin_ge_cube t Ht); lra) 0 x ltac:(lra) H).
  cbv beta in P. rewrite cos_0 in P. lra.
Qed.

Lemma sin_ratio u v : 0 <= u -> u <= v -> v <= PI / 2 -> u * sin v <= v * sin u.
Proof.
  intros Hu Huv Hv. pose proof PI_RGT_0.
  destruct (mvt sin cos 0 u der_sin) as [a [Ha Ea]].
  destruct (mvt sin cos u v der_sin) as [b [Hb Eb]].
  rewrite Rmin_left, Rmax_right in Ha, Hb by lra. rewrite sin_0 in Ea.
  assert (cos b <= cos a) by (apply cos_decr_1; lra).
  assert (u * (v - u) * cos b <= u * (v - u) * cos a) by (apply Rmult_le_compat_l; [apply Rmult_le_pos|]; lra).
  nra.
Qed.
Lemma versin_ratio s x : 0 <= s -> s <= x -> x <= PI -> s ^ 2 * (1 - cos x) <= x ^ 2 * (1 - cos s).
Proof.
  intros Hs Hx HP.
  assert (V : forall t, 1 - cos t = 2 * sin (t / 2) ^ 2).
  { intros t. replace t with (2 * (t / 2)) at 1 by field. rewrite cos_2a_sin. ring. }
  rewrite !V. pose proof (sin_ratio (s / 2) (x / 2) ltac:(lra) ltac:(lra) ltac:(lra)) as R.
  assert (0 <= sin (x / 2)) by (apply sin_ge_0; lra).
  assert (0 <= s / 2 * sin (x / 2)) by (apply Rmult_le_pos; lra).
  assert ((s / 2 * sin (x / 2)) ^ 2 <= (x / 2 * sin (s / 2)) ^ 2) by (apply pow_incr; lra).
  nra.
Qed.
Lemma dE_ratio e s x : 0 <= e < 1 -> 0 <= s -> s <= x -> 0 < x -> x <= PI ->
  s ^ 2 * dE x e <= x ^ 2 * dE s e.
Proof.
  intros He Hs Hx Hp HP. pose proof (versin_ratio s x Hs Hx HP) as V. pose proof PI_RGT_0.
  assert (cos x <= cos s) by (apply cos_decr_1; lra).
  assert (C : cos x < 1). { rewrite <- cos_0. apply cos_decreasing_1; lra. }
  rewrite !dE_R. pose proof (COS_bound x). pose proof (COS_bound s).
  assert (A : (1 - e * cos x) * (1 - cos s) <= (1 - e * cos s) * (1 - cos x)) by nra.
  apply (Rmult_le_reg_r (1 - cos x)); [lra|].
  assert (0 < 1 - e * cos x) by nra.
  assert (s ^ 2 * (1 - cos x) * (1 - e * cos x) <= x ^ 2 * (1 - cos s) * (1 - e * cos x))
    by (apply Rmult_le_compat_r; lra).
  assert (0 <= x ^ 2) by nra.
  assert (x ^ 2 * ((1 - e * cos x) * (1 - cos s)) <= x ^ 2 * ((1 - e * cos s) * (1 - cos x)))
    by (apply Rmult_le_compat_l; lra).
  lra.
Qed.

(** ** Newton's method from the right of the root, on the convex half [0, PI] *)
Section Convex.
  Variables (e M E : R).
  Hypothesis He : 0 <= e < 1.
  Hypothesis HE : 0 <= E.
  Hypothesis Hroot : kepler_equ_elps E e M = 0.

  Lemma newton_error x : (elps_newton M e x - E) * dE x e = (x - E) * dE x e - kepler_equ_elps x e M.
  Proof. rewrite elps_newton_R. pose proof (dE_pos x e He). field. lra. Qed.

  Lemma newton_above x : 0 <= x <= PI -> E <= PI -> E <= elps_newton M e x.
  Proof.
    intros Hx HP. pose proof (dE_pos x e He) as D. pose proof (newton_error x) as N. pose proof PI_RGT_0.
    destruct (mvt (fun t => kepler_equ_elps t e M) (fun t => dE t e) E x
      ltac:(intros; apply elps_deriv)) as [c [Hc Ec]]. cbv beta in Ec. rewrite Hroot in Ec.
    assert (0 <= (x - E) * dE x e - kepler_equ_elps x e M).
    { replace (kepler_equ_elps x e M) with (dE c e * (x - E)) by lra. rewrite !dE_R.
      replace ((x - E) * (1 - e * cos x) - (1 - e * cos c) * (x - E))
        with (e * ((x - E) * (cos c - cos x))) by ring.
      apply Rmult_le_pos; [lra|].
      destruct (Rle_dec E x).
      - rewrite Rmin_left, Rmax_right in Hc by lra.
        assert (cos x <= cos c) by (apply cos_decr_1; lra). nra.
      - rewrite Rmin_right, Rmax_left in Hc by lra.
        assert (cos c <= cos x) by (apply cos_decr_1; lra). nra. }
    apply Rnot_lt_le. intros L. nra.
  Qed.
  Lemma residual_nonneg x : E <= x -> 0 <= kepler_equ_elps x e M.
  Proof.
    intros L. rewrite <- Hroot.
    apply (der_nonneg_incr (fun t => kepler_equ_elps t e M) (fun t => dE t e)); auto.
    - intros; apply elps_deriv.
    - intros; apply Rlt_le, dE_pos, He.
  Qed.
  Lemma residual_third x : E <= x -> 0 < x -> x <= PI -> (x - E) * dE x e / 3 <= kepler_equ_elps x e M.
  Proof.
    intros L Hp HP. destruct (Req_dec x E) as [->|NE].
    { rewrite Hroot. lra. }
    assert (Hd : 0 < x - E) by lra.
    set (k := dE x e / (x - E) ^ 2).
    pose proof (mvt (fun s => kepler_equ_elps s e M - k * ((s - E) ^ 3 / 3)) (fun s => dE s e - k * (s - E) ^ 2) E x) as V.
    destruct V as [s [Hs Es]].
    { intros s. apply der_minus; [apply elps_deriv|]. apply der_scal.
      eapply der_eq. apply der_scal_r. apply (der_pow (fun u => u - E)). apply der_minus; [apply der_id|apply der_const].
      simpl. field. }
    cbv beta in Es. rewrite Hroot in Es. rewrite Rmin_left, Rmax_right in Hs by lra.
    assert (G : 0 <= dE s e - k * (s - E) ^ 2).
    { pose proof (dE_ratio e s x He ltac:(lra) ltac:(lra) Hp HP) as Q.
      pose proof (dE_pos x e He) as D.
      assert (P1 : (x * (s - E)) ^ 2 <= (s * (x - E)) ^ 2) by (apply pow_incr; nra).
      assert (P2 : (x * (s - E)) ^ 2 * dE x e <= (s * (x - E)) ^ 2 * dE x e) by (apply Rmult_le_compat_r; lra).
      assert (P3 : s ^ 2 * dE x e * (x - E) ^ 2 <= x ^ 2 * dE s e * (x - E) ^ 2)
        by (apply Rmult_le_compat_r; [nra|lra]).
      assert (P4 : x ^ 2 * ((s - E) ^ 2 * dE x e) <= x ^ 2 * (dE s e * (x - E) ^ 2)) by nra.
      assert (P5 : (s - E) ^ 2 * dE x e <= dE s e * (x - E) ^ 2) by (apply (Rmult_le_reg_l (x ^ 2)); [nra|exact P4]).
      assert (P6 : k * (s - E) ^ 2 <= dE s e).
      { unfold k. apply (Rmult_le_reg_r ((x - E) ^ 2)); [nra|].
        replace (dE x e / (x - E) ^ 2 * (s - E) ^ 2 * (x - E) ^ 2) with ((s - E) ^ 2 * dE x e) by (field; lra).
        exact P5. }
      lra. }
    assert (W : 0 <= (dE s e - k * (s - E) ^ 2) * (x - E)) by (apply Rmult_le_pos; lra).
    assert (T : k * ((x - E) ^ 3 / 3) = (x - E) * dE x e / 3) by (unfold k; field; lra).
    replace ((E - E) ^ 3) with 0 in Es by ring. lra.
  Qed.
  Lemma newton_below x : E <= x -> 0 < x -> x <= PI -> elps_newton M e x - E <= 2 / 3 * (x - E).
  Proof.
    intros L Hp HP. pose proof (dE_pos x e He) as D. pose proof (newton_error x) as N.
    pose proof (residual_third x L Hp HP).
    apply (Rmult_le_reg_r (dE x e)); [exact D|]. lra.
  Qed.
  (** Quadratic convergence, anywhere. *)
  Lemma newton_quadratic x : Rabs (elps_newton M e x - E) <= e / (2 * (1 - e)) * (x - E) ^ 2.
  Proof.
    pose proof (dE_pos x e He) as D. pose proof (newton_error x) as N.
    assert (A : (elps_newton M e x - E) * dE x e = - e * (sin (x + (E - x)) - sin x - (E - x) * cos x)).
    { rewrite N. replace (x + (E - x)) with E by ring. rewrite kepler_equ_elps_R in Hroot |- *.
      rewrite dE_R. nra. }
    assert (B : Rabs (elps_newton M e x - E) * dE x e <= e * (x - E) ^ 2 / 2).
    { rewrite <- (Rabs_pos_eq (dE x e)) by lra. rewrite <- Rabs_mult, A, Rabs_mult, Rabs_Ropp, (Rabs_pos_eq e) by lra.
      pose proof (sin_taylor x (E - x)). replace ((x - E) ^ 2) with ((E - x) ^ 2) by ring.
      replace (e * (E - x) ^ 2 / 2) with (e * ((E - x) ^ 2 / 2)) by field. apply Rmult_le_compat_l; lra. }
    pose proof (dE_lower x e ltac:(lra)). pose proof (Rabs_pos (elps_newton M e x - E)).
    apply (Rmult_le_reg_r (1 - e)); [lra|].
    replace (e / (2 * (1 - e)) * (x - E) ^ 2 * (1 - e)) with (e * (x - E) ^ 2 / 2) by (field; lra).
    nra.
  Qed.
End Convex.

Lemma PI_tight : 3.14159 < PI < 3.1416.
Proof.
  pose proof (PI_2_3_7_ineq 2) as [A B].
  unfold tg_alt, PI_2_3_7_tg, Ratan_seq in A, B. simpl in A, B. split; lra.
Qed.

Lemma PI_low : 3.14 <= PI.
Proof. pose proof PI_tight. lra. Qed.

(** ** The first step stays in [0, PI], or in [0, 4] if the guess is small,
    for [e <= 0.996] *)
Section Start.
  Variables (e M : R).
  Hypothesis He : 0 <= e <= 249 / 250.
  Hypothesis HM : 0 <= M <= PI.
  Let s := sin M.
  Let c := cos M.
  Let del := e * s + e ^ 2 * s * c.
  Let w := elps_guess M e.

  Lemma PI_3 : 3 < PI.
  Proof. pose proof PI2_3_2. lra. Qed.
  Lemma guess_del : w = M + del.
  Proof.
    unfold w, del, s, c. rewrite elps_guess_R, sin_2a. field.
  Qed.
  Lemma s_bounds : 0 <= s <= 1 /\ s ^ 2 + c ^ 2 = 1 /\ -1 <= c <= 1.
  Proof.
    split; [split|split].
    - apply sin_ge_0; apply HM.
    - apply SIN_bound.
    - unfold s, c. rewrite <- !Rsqr_pow2. apply sin2_cos2.
    - apply COS_bound.
  Qed.
  Lemma del_nonneg : 0 <= del.
  Proof.
    pose proof s_bounds as [S [_ C]]. unfold del.
    replace (e * s + e ^ 2 * s * c) with (e * s * (1 + e * c)) by ring.
    apply Rmult_le_pos; [apply Rmult_le_pos; lra|]. nra.
  Qed.
  Lemma resid_start : kepler_equ_elps w e M = del - e * (s * cos del + c * sin del).
  Proof. rewrite kepler_equ_elps_R, guess_del, sin_plus. unfold s, c. ring. Qed.

  Lemma start_q1 : M <= PI / 2 ->
    0 <= w <= PI /\ (0 <= kepler_equ_elps w e M + dE w e * (PI - w) \/
      w < 1 / 4 /\ 0 <= kepler_equ_elps w e M + dE w e * (4 - w)).
  Proof.
    intros HM2. pose proof s_bounds as [S [SC C]]. pose proof del_nonneg as D. pose proof PI_3 as P3.
    pose proof PI_4 as P4.
    assert (C0 : 0 <= c) by (apply cos_ge_0; lra).
    assert (Ms : s <= M) by (apply sin_le_id; lra).
    assert (Cq : c <= PI / 2 - M).
    { unfold c. rewrite <- sin_shift. apply sin_le_id. lra. }
    assert (Wl : s * (1 + e + e ^ 2 * c) <= w) by (rewrite guess_del; unfold del; nra).
    assert (Wu : w <= PI / 2 + 1).
    { rewrite guess_del. unfold del.
      assert (e * s <= 1) by nra. assert (0 <= e * s) by nra.
      assert (e ^ 2 * s * c <= c).
      { replace (e ^ 2 * s * c) with (e * (e * s) * c) by ring.
        assert (e * (e * s) <= 1) by nra. nra. }
      lra. }
    assert (Rs : - (e ^ 3 * s * c ^ 2) <= kepler_equ_elps w e M).
    { rewrite resid_start.
      pose proof (sin_le_id del D) as Q1. pose proof (COS_bound del) as [_ Q2].
      assert (s * cos del <= s) by nra. assert (c * sin del <= c * del) by nra.
      assert (e * (s * cos del + c * sin del) <= e * (s + c * del)) by (apply Rmult_le_compat_l; lra).
      assert (del - e * (s + c * del) = - (e ^ 3 * s * c ^ 2)) by (unfold del; ring).
      lra. }
    split; [split; [rewrite guess_del|]; lra|].
    assert (E3 : e ^ 3 * s * c ^ 2 <= s * c ^ 2).
    { assert (0 <= s * c ^ 2) by nra. assert (e ^ 3 <= 1) by nra. nra. }
    assert (W0 : 0 <= w) by (rewrite guess_del; lra).
    destruct (Rle_dec (PI / 2) w) as [B|B].
    - assert (cos w <= 0) by (apply cos_le_0; lra).
      assert (1 <= dE w e) by (rewrite dE_R; nra).
      assert (s * c ^ 2 <= 1 / 2).
      { replace (c ^ 2) with (1 - s ^ 2) by lra. 
        assert (0 <= (s - 3/5) ^ 2 * (s + 6/5)) by (apply Rmult_le_pos; [apply pow2_ge_0|lra]). nra. }
      assert (1 / 2 <= PI - w) by lra. left. nra.
    - apply Rnot_le_lt in B.
      (* e^3 s c^2 <= w / 3 *)
      assert (T : e ^ 3 * s * c ^ 2 <= w / 3).
      { assert (3 * (e ^ 3 * c ^ 2) <= 1 + e + e ^ 2 * c).
        { assert (e ^ 2 * c <= 1) by nra. assert (0 <= e ^ 2 * c) by nra.
          assert (e ^ 3 * c ^ 2 <= e ^ 2 * c).
          { replace (e ^ 3 * c ^ 2) with (e ^ 2 * c * (e * c)) by ring. assert (e * c <= 1) by nra. nra. }
          assert (e ^ 2 * c <= e) by nra. lra. }
        assert (s * (3 * (e ^ 3 * c ^ 2)) <= s * (1 + e + e ^ 2 * c)) by (apply Rmult_le_compat_l; lra).
        lra. }
      assert (Dl : 1 / 250 + 249 / 250 * (1 - cos w) <= dE w e).
      { rewrite dE_R. assert (0 <= cos w) by (apply cos_ge_0; lra). nra. }
      assert (V : w ^ 2 / 2 - w ^ 4 / 24 <= 1 - cos w) by (pose proof (cos_le_quart w W0); lra).
      assert (Fin : forall q, w <= q -> w / 3 <= (1 / 250 + 249 / 250 * (w ^ 2 / 2 - w ^ 4 / 24)) * (q - w) ->
        0 <= kepler_equ_elps w e M + dE w e * (q - w)).
      { intros q Hq K.
        assert ((1 / 250 + 249 / 250 * (w ^ 2 / 2 - w ^ 4 / 24)) * (q - w) <= dE w e * (q - w)).
        { apply Rmult_le_compat_r; lra. }
        lra. }
      destruct (Rlt_dec w (1 / 4)) as [R0|R0].
      { right. split; [exact R0|]. apply Fin; [lra|].
        assert (w ^ 2 <= 1 / 16) by nra.
        assert (49 / 100 * w ^ 2 <= 249 / 250 * (w ^ 2 / 2 - w ^ 4 / 24)) by nra.
        apply Rle_trans with ((1 / 250 + 49 / 100 * w ^ 2) * (4 - w)).
        2:{ apply Rmult_le_compat_r; lra. }
        assert (0 <= (w - 9 / 100) ^ 2 * (4 - w)) by (apply Rmult_le_pos; [apply pow2_ge_0|lra]). nra. }
      left. apply Fin; [lra|]. apply Rnot_lt_le in R0.
      destruct (Rle_dec w (1 / 2)) as [R1|R1]; [|destruct (Rle_dec w 1) as [R2|R2]].
      + assert (w ^ 2 <= 1 / 4) by nra.
        assert (48 / 100 * w ^ 2 <= 249 / 250 * (w ^ 2 / 2 - w ^ 4 / 24)) by nra.
        assert ((1 / 250 + 48 / 100 * w ^ 2) * (3 - w) <= (1 / 250 + 249 / 250 * (w ^ 2 / 2 - w ^ 4 / 24)) * (PI - w)).
        { apply Rmult_le_compat; nra. }
        assert (w / 3 <= (1 / 250 + 48 / 100 * w ^ 2) * (3 - w)); [|lra].
        assert (0 <= (w - 1 / 4) * (1 / 2 - w)) by (apply Rmult_le_pos; lra). nra.
      + assert (w ^ 2 <= 1) by nra.
        assert (45 / 100 * w ^ 2 <= 249 / 250 * (w ^ 2 / 2 - w ^ 4 / 24)) by nra.
        assert ((1 / 250 + 45 / 100 * w ^ 2) * 2 <= (1 / 250 + 249 / 250 * (w ^ 2 / 2 - w ^ 4 / 24)) * (PI - w)).
        { apply Rmult_le_compat; nra. }
        nra.
      + assert (w ^ 2 <= 4) by nra.
        assert (33 / 100 * w ^ 2 <= 249 / 250 * (w ^ 2 / 2 - w ^ 4 / 24)) by nra.
        assert ((1 / 250 + 33 / 100 * w ^ 2) * (3 / 2) <= (1 / 250 + 249 / 250 * (w ^ 2 / 2 - w ^ 4 / 24)) * (PI - w)).
        { apply Rmult_le_compat; nra. }
        assert (w <= w ^ 2) by nra. lra.
  Qed.

  Lemma start_q2 : PI / 2 <= M ->
    0 <= w <= PI /\ 0 <= kepler_equ_elps w e M + dE w e * (PI - w).
  Proof.
    intros HM2. pose proof s_bounds as [S [SC C]]. pose proof del_nonneg as D. pose proof PI_3 as P3.
    assert (C0 : c <= 0) by (apply cos_le_0; lra).
    assert (Ms : s <= PI - M).
    { unfold s. rewrite <- (sin_PI_x M). apply sin_le_id. lra. }
    set (k := - c) in *. assert (K : 0 <= k <= 1) by (unfold k; lra).
    assert (Ed : del = e * s * (1 - e * k)) by (unfold del, k; ring).
    assert (Ek : 0 <= 1 - e * k <= 1) by nra.
    assert (Es : 0 <= e * s <= s) by nra.
    assert (Ds : del <= s) by (rewrite Ed; nra).
    assert (W1 : w <= PI) by (rewrite guess_del; lra).
    split; [split; [rewrite guess_del|]; lra|].
    assert (cos w <= 0) by (apply cos_le_0; rewrite ?guess_del; lra).
    assert (Dw : 1 <= dE w e) by (rewrite dE_R; nra).
    assert (PI - w <= dE w e * (PI - w)) by nra.
    assert (Rs : - (e ^ 3 * s * k ^ 2) - e * k * (del ^ 3 / 6) <= kepler_equ_elps w e M).
    { rewrite resid_start.
      pose proof (sin_ge_cube del D) as Q1. pose proof (COS_bound del) as [_ Q2].
      assert (s * cos del <= s) by nra.
      assert (c * sin del <= - k * del + k * (del ^ 3 / 6)).
      { replace c with (- k) by (unfold k; ring). nra. }
      assert (e * (s * cos del + c * sin del) <= e * (s + (- k * del + k * (del ^ 3 / 6)))) by (apply Rmult_le_compat_l; lra).
      assert (del - e * (s + - k * del) = - (e ^ 3 * s * k ^ 2)) by (rewrite Ed; ring).
      lra. }
    assert (P : s - del <= PI - w) by (rewrite guess_del; lra).
    assert (Q : e ^ 3 * s * k ^ 2 + e * k * (del ^ 3 / 6) <= s - del).
    { assert (del ^ 2 <= e ^ 2 * (1 - e * k)).
      { rewrite Ed. replace ((e * s * (1 - e * k)) ^ 2) with (e ^ 2 * (1 - e * k) * (s ^ 2 * (1 - e * k))) by ring.
        assert (s ^ 2 * (1 - e * k) <= 1) by nra. assert (0 <= e ^ 2 * (1 - e * k)) by nra. nra. }
      assert (0 <= e * k) by nra.
      assert (e * k * (del ^ 3 / 6) <= e * k * del * (e ^ 2 * (1 - e * k)) / 6).
      { replace (e * k * (del ^ 3 / 6)) with (e * k * del * del ^ 2 / 6) by field.
        assert (0 <= e * k * del) by nra. nra. }
      assert (e * k * del * (e ^ 2 * (1 - e * k)) <= e ^ 2 * (1 - e * k) * k * s).
      { replace (e * k * del * (e ^ 2 * (1 - e * k))) with (e ^ 2 * (1 - e * k) * k * (e * del)) by ring.
        apply Rmult_le_compat_l; [|nra]. apply Rmult_le_pos; [apply Rmult_le_pos|]; nra. }
      assert (s - del - e ^ 3 * s * k ^ 2 = s * (1 - e) + e ^ 2 * (1 - e * k) * k * s) by (rewrite Ed; ring).
      assert (0 <= s * (1 - e)) by nra.
      assert (0 <= e ^ 2 * (1 - e * k) * k * s).
      { apply Rmult_le_pos; [|lra]. apply Rmult_le_pos; [|lra]. apply Rmult_le_pos; nra. }
      lra. }
    lra.
  Qed.

  Lemma start_ok : 0 <= w <= PI /\
    (elps_newton M e w <= PI \/ w < 1 / 4 /\ elps_newton M e w <= 4).
  Proof.
    assert (H : 0 <= w <= PI /\ (0 <= kepler_equ_elps w e M + dE w e * (PI - w) \/
      w < 1 / 4 /\ 0 <= kepler_equ_elps w e M + dE w e * (4 - w))).
    { destruct (Rle_dec M (PI / 2)); [now apply start_q1|]. destruct start_q2 as [A B]; [lra|]. auto. }
    destruct H as [H1 H2]. split; [exact H1|].
    rewrite elps_newton_R. pose proof (dE_pos w e ltac:(lra)) as D.
    assert (G : forall q, 0 <= kepler_equ_elps w e M + dE w e * (q - w) ->
      w - kepler_equ_elps w e M / dE w e <= q).
    { intros q Hq. apply (Rmult_le_reg_r (dE w e)); [exact D|].
      replace ((w - kepler_equ_elps w e M / dE w e) * dE w e) with (w * dE w e - kepler_equ_elps w e M) by (field; lra).
      nra. }
    destruct H2 as [H2|[H2 H3]]; [left|right]; auto.
  Qed.
  (** A small guess means a small root. *)
  Lemma small_root E : kepler_equ_elps E e M = 0 -> w < 1 / 4 -> M <= 1 / 4 /\ E <= 1.
  Proof.
    intros HE W. pose proof s_bounds as [S [SC C]]. pose proof del_nonneg as D. pose proof PI_3 as P3.
    assert (Mw : M <= 1 / 4) by (rewrite guess_del in W; lra). split; [exact Mw|].
    assert (S1 : sin 1 <= 7 / 8).
    { pose proof (cos_ge_quad 1 ltac:(lra)) as C1. pose proof (sin2_cos2 1) as Q. rewrite !Rsqr_pow2 in Q.
      apply Rnot_lt_le. intros L. nra. }
    assert (F : 0 <= kepler_equ_elps 1 e M).
    { rewrite kepler_equ_elps_R.
      assert (e * sin 1 <= e * (7 / 8)) by (apply Rmult_le_compat_l; lra).
      destruct (Rle_dec e (4 / 5)) as [E8|E8]; [lra|].
      assert (Cl : 31 / 32 <= c) by (pose proof (cos_ge_quad M ltac:(lra)); fold c in H0; nra).
      assert (Sl : 95 / 96 * M <= s) by (pose proof (sin_ge_cube M ltac:(lra)); fold s in H0; nra).
      assert (23 / 10 * s <= del + s).
      { unfold del. assert (4 / 5 * (31 / 32) <= e * c) by (apply Rmult_le_compat; lra).
        assert (4 / 5 * (4 / 5 * (31 / 32)) <= e * (e * c)) by (apply Rmult_le_compat; lra). nra. }
      rewrite guess_del in W. assert (s <= M) by (apply sin_le_id; lra). lra. }
    apply Rnot_lt_le. intros L.
    pose proof (der_pos_incr (fun t => kepler_equ_elps t e M) (fun t => dE t e)
      ltac:(intros; apply elps_deriv) ltac:(intros; apply dE_pos; lra) 1 E L) as I. cbv beta in I. lra.
  Qed.
End Start.

(** ** Twenty steps suffice for [e <= 0.996] *)
(** The residual is log-concave on [0, PI]. *)
Lemma elps_log M e y : 0 <= e -> 0 <= M -> 0 <= y <= PI ->
  kepler_equ_elps y e M * (e * sin y) <= dE y e ^ 2.
Proof.
  intros He HM Hy. rewrite kepler_equ_elps_R, dE_R.
  assert (Q : sin y ^ 2 + cos y ^ 2 = 1) by (rewrite <- !Rsqr_pow2; apply sin2_cos2).
  pose proof (sin_ge_0 y ltac:(lra) ltac:(lra)) as S.
  assert (G : y * sin y + 2 * cos y <= 2).
  { destruct (mvt_on (fun t => t * sin t + 2 * cos t) (fun t => t * cos t - sin t) 0 y ltac:(lra)) as [t [Ht Et]].
    { intros t _. eapply der_eq; [apply der_plus; [apply der_mult; [apply der_id|apply is_derive_sin]|apply der_scal, is_derive_cos]|cbv beta; ring]. }
    cbv beta in Et. rewrite cos_0 in Et.
    destruct (mvt_on (fun u => u * cos u - sin u) (fun u => - u * sin u) 0 t ltac:(lra)) as [u [Hu Eu]].
    { intros u _. eapply der_eq; [apply der_minus; [apply der_mult; [apply der_id|apply is_derive_cos]|apply is_derive_sin]|cbv beta; ring]. }
    cbv beta in Eu. rewrite sin_0 in Eu.
    pose proof (sin_ge_0 u ltac:(lra) ltac:(lra)).
    assert (0 <= u * sin u) by (apply Rmult_le_pos; lra).
    assert (- u * sin u * (t - 0) <= 0) by nra.
    assert ((t * cos t - sin t) * (y - 0) <= 0) by nra. lra. }
  assert (0 <= M * (e * sin y)) by (apply Rmult_le_pos; [lra|apply Rmult_le_pos; lra]).
  assert (e * (y * sin y + 2 * cos y) <= e * 2) by (apply Rmult_le_compat_l; lra).
  assert (0 <= (e - 1) ^ 2) by apply pow2_ge_0.
  assert (e ^ 2 * (sin y ^ 2 + cos y ^ 2) = e ^ 2) by (rewrite Q; ring).
  nra.
Qed.
Lemma elps_der2 e (t : R) : is_derive (fun u : R => dE u e) t (e * sin t).
Proof.
  apply is_derive_ext with (fun u => 1 - e * cos u); [intros; now rewrite dE_R|].
  eapply der_eq; [apply der_minus; [apply der_const|apply der_scal, is_derive_cos]|ring].
Qed.

Section Inside.
  Variables (e M E : R).
  Hypothesis He : 0 <= e < 1.
  Hypothesis HM : 0 <= M <= PI.
  Hypothesis Hroot : kepler_equ_elps E e M = 0.

  Lemma root_in : 0 <= E <= PI.
  Proof using He HM Hroot.
    assert (F0 : kepler_equ_elps 0 e M <= 0) by (rewrite kepler_equ_elps_R, sin_0; lra).
    assert (F1 : 0 <= kepler_equ_elps PI e M) by (rewrite kepler_equ_elps_R, sin_PI; lra).
    pose proof (der_pos_incr (fun t => kepler_equ_elps t e M) (fun t => dE t e)
      ltac:(intros; apply elps_deriv) ltac:(intros; apply dE_pos, He)) as I. cbv beta in I.
    split; apply Rnot_lt_le; intros L; specialize (I _ _ L); lra.
  Qed.
  Lemma inside_step y : E <= y <= PI -> E <= elps_newton M e y <= PI /\
    0 <= kepler_equ_elps (elps_newton M e y) e M /\
    kepler_equ_elps (elps_newton M e y) e M * exp 1 <= kepler_equ_elps y e M.
  Proof using He HM Hroot.
    intros [L LP]. pose proof root_in as R0. rewrite elps_newton_R.
    assert (A1 : forall t, E <= t <= y -> 0 < dE t e) by (intros; apply dE_pos; auto).
    assert (A2 : forall t, E <= t <= y -> 0 <= e * sin t).
    { intros t Ht. apply Rmult_le_pos; [lra|]. apply sin_ge_0; lra. }
    assert (A3 : forall t, E <= t <= y -> kepler_equ_elps t e M * (e * sin t) <= dE t e ^ 2).
    { intros t Ht. apply elps_log; lra. }
    assert (D1 : forall t : R, is_derive (fun u : R => kepler_equ_elps u e M) t (dE t e)) by (intros; apply elps_deriv).
    pose proof (drop_between _ _ _ E y D1 (elps_der2 e) L Hroot A1 A2) as B.
    pose proof (drop_value _ _ _ E y D1 (elps_der2 e) L Hroot A1 A2 A3) as V. cbv beta in *.
    split; [lra|exact V].
  Qed.
  Lemma inside_iter y k : E <= y <= PI -> E <= iterate (elps_newton M e) k y <= PI /\
    0 <= kepler_equ_elps (iterate (elps_newton M e) k y) e M /\
    kepler_equ_elps (iterate (elps_newton M e) k y) e M * exp (INR k) <= kepler_equ_elps y e M.
  Proof using He HM Hroot.
    intros L. induction k as [|k IH].
    - cbn [iterate]. simpl INR. rewrite exp_0. split; [exact L|]. split; [|lra].
      apply (residual_nonneg e M E); auto; lra.
    - cbn [iterate]. destruct IH as [A [B C]]. destruct (inside_step _ A) as [A' [B' C']].
      split; [exact A'|]. split; [exact B'|]. rewrite S_INR, exp_plus.
      eapply Rle_trans; [|exact C]. rewrite (Rmult_comm (exp (INR k))), <- Rmult_assoc.
      apply Rmult_le_compat_r; [apply Rlt_le, exp_pos|exact C'].
  Qed.
  Lemma inside_value y : 0 <= y <= PI -> kepler_equ_elps y e M <= 4.
  Proof using He HM.
    intros Hy. rewrite kepler_equ_elps_R. pose proof (sin_ge_0 y ltac:(lra) ltac:(lra)).
    assert (0 <= e * sin y) by (apply Rmult_le_pos; lra). pose proof PI_4. lra.
  Qed.
  (** A step from just beyond PI comes back. *)
  Lemma come_back y : M <= 1 / 4 -> E <= 1 -> PI <= y <= 4 -> E <= elps_newton M e y <= PI.
  Proof using He HM Hroot.
    intros HM4 HE1 Hy. pose proof root_in as R0. pose proof PI2_3_2 as P0.
    set (u := y - PI). assert (Hu : 0 <= u <= 1) by (unfold u; lra).
    assert (P : 22 / 7 - 1 / 100 <= PI) by (pose proof PI_low; lra).
    assert (U : u <= 87 / 100) by (unfold u; lra).
    assert (Y : y = u + PI) by (unfold u; ring).
    assert (Sy : sin y = - sin u) by (rewrite Y; apply neg_sin).
    assert (Cy : cos y = - cos u) by (rewrite Y; apply neg_cos).
    pose proof (sin_ge_0 u ltac:(lra) ltac:(lra)) as S0. pose proof (sin_le_id u ltac:(lra)) as S1.
    pose proof (cos_ge_quad u ltac:(lra)) as C0. pose proof (COS_bound u) as [_ C1].
    pose proof (dE_pos y e He) as D.
    assert (SE : sin E <= 7 / 8).
    { assert (sin 1 <= 7 / 8).
      { pose proof (cos_ge_quad 1 ltac:(lra)) as C2. pose proof (sin2_cos2 1) as Q. rewrite !Rsqr_pow2 in Q.
        apply Rnot_lt_le. intros L. nra. }
      eapply Rle_trans; [|exact H]. apply sin_incr_1; lra. }
    split.
    - pose proof (newton_error e M E He y) as N.
      assert (0 <= (elps_newton M e y - E) * dE y e); [|apply Rnot_lt_le; intros L; nra].
      rewrite N. rewrite kepler_equ_elps_R in Hroot. rewrite kepler_equ_elps_R, dE_R, Sy, Cy.
      replace M with (E - e * sin E) by lra.
      replace ((y - E) * (1 - e * - cos u) - (y - e * - sin u - (E - e * sin E)))
        with (e * ((y - E) * cos u - sin u - sin E)) by ring.
      apply Rmult_le_pos; [lra|].
      assert (q : 0 <= 1 - u ^ 2 / 2) by nra.
      assert ((PI - 1 + u) * (1 - u ^ 2 / 2) <= (y - E) * cos u) by (apply Rmult_le_compat; lra).
      assert (213 / 100 * (1 - u ^ 2 / 2) <= (PI - 1) * (1 - u ^ 2 / 2)) by (apply Rmult_le_compat_r; lra).
      assert (7 / 8 + u <= (213 / 100 + u) * (1 - u ^ 2 / 2)); [|lra].
      assert (u ^ 2 <= 757 / 1000) by nra. nra.
    - rewrite elps_newton_R. apply (Rmult_le_reg_r (dE y e)); [exact D|].
      replace ((y - kepler_equ_elps y e M / dE y e) * dE y e) with (y * dE y e - kepler_equ_elps y e M) by (field; lra).
      rewrite kepler_equ_elps_R, dE_R, Sy, Cy.
      assert (0 <= e * sin u) by (apply Rmult_le_pos; lra).
      assert (1 - e * - cos u <= 2) by nra.
      assert ((y - PI) * (1 - e * - cos u) <= u * 2) by (apply Rmult_le_compat_l; unfold u in *; lra).
      lra.
  Qed.
End Inside.

Section Twenty.
  Variables (e M E : R).
  Hypothesis He : 0 <= e <= 249 / 250.
  Hypothesis HM : 0 <= M <= PI.
  Hypothesis Hroot : kepler_equ_elps E e M = 0.
  Let x k := iterate (elps_newton M e) k (elps_guess M e).
  Let He1 : 0 <= e < 1.
  Proof. lra. Qed.

  Lemma second_in : E <= x 2 <= PI.
  Proof using He HM Hroot.
    pose proof (root_in e M E He1 HM Hroot) as R0. destruct (start_ok e M He HM) as [A B].
    change (E <= elps_newton M e (elps_newton M e (elps_guess M e)) <= PI).
    set (x1 := elps_newton M e (elps_guess M e)) in *.
    assert (L : E <= x1) by (apply newton_above; auto; lra).
    destruct (Rle_dec x1 PI) as [P|P].
    - apply (inside_step e M E He1 HM Hroot). lra.
    - destruct B as [B|[B1 B2]]; [lra|].
      destruct (small_root e M He HM E Hroot B1) as [C1 C2]. apply come_back; auto; lra.
  Qed.
  Lemma twentieth : Rabs (kepler_equ_elps (x 20) e M) <= / 1000000.
  Proof using He HM Hroot.
    pose proof second_in as S. pose proof (root_in e M E He1 HM Hroot) as R0.
    destruct (inside_iter e M E He1 HM Hroot (x 2) 18 S) as [_ [B C]].
    assert (Q : iterate (elps_newton M e) 18 (x 2) = x 20).
    { unfold x. exact (eq_sym (iterate_add (elps_newton M e) 18 2 (elps_guess M e))). }
    rewrite Q in B, C. rewrite Rabs_pos_eq by exact B.
    pose proof (inside_value e M He1 HM (x 2) ltac:(lra)) as V.
    set (z := kepler_equ_elps (x 20) e M) in *. clearbody z.
    replace (INR 18) with (2 + 15 + 1) in C by (rewrite INR_IZR_INZ; simpl Z.of_nat; lra).
    assert (E2 : 4 <= exp 2).
    { replace 2 with (1 + 1) by lra. rewrite exp_plus. pose proof exp_1_low. nra. }
    rewrite !exp_plus in C.
    pose proof exp_m15 as X. change (- 15) with (Ropp 15) in X. rewrite exp_Ropp in X.
    assert (P15 : 0 < exp 15) by apply exp_pos.
    assert (X2 : 1000000 <= exp 15).
    { apply Rnot_lt_le. intros L. apply Rinv_lt_contravar in L; [lra|nra]. }
    pose proof exp_1_low as X1.
    assert (4 * 1000000 * 1 <= exp 2 * exp 15 * exp 1).
    { apply Rmult_le_compat; [lra|lra|apply Rmult_le_compat; lra|lra]. }
    nra.
  Qed.
End Twenty.

Lemma solve_elps_q M e : 0 <= e <= 249 / 250 -> 0 <= M <= PI ->
  Rabs (kepler_equ_elps (solve_kepler_elps M e default_tol elps_max_iter) e M) <= / 1000000.
Proof.
  intros He HM. destruct (elps_unique e M ltac:(lra)) as [E [HE _]].
  destruct (elps_run_char M e default_tol elps_max_iter) as [k [Hk [Hr [_ Hx]]]]. cbv zeta in *.
  assert (S : solve_kepler_elps M e default_tol elps_max_iter = iterate (elps_newton M e) k (elps_guess M e))
    by (unfold solve_kepler_elps; now rewrite Hr).
  rewrite S. destruct Hx as [Hx|Hx].
  - change (Z.to_nat elps_max_iter) with 20%nat in Hx. rewrite Hx.
    exact (twentieth e M E He HM HE).
  - apply exceeds_R_false in Hx.
    destruct (elps_converged M e default_tol elps_max_iter _ _ _ ltac:(lra) ltac:(rewrite default_tol_R; lra) Hr Hx) as [B _].
    eapply Rle_trans; [exact B|]. rewrite default_tol_R. nra.
Qed.

Lemma mod_2PI M : exists k : Z, - PI <= M + 2 * PI * IZR k <= PI.
Proof.
  pose proof PI_RGT_0 as P.
  destruct (archimed ((M - PI) / (2 * PI))) as [A B].
  exists (- up ((M - PI) / (2 * PI)))%Z. set (n := up _) in *.
  rewrite opp_IZR. set (z := IZR n) in *.
  assert (Q : (M - PI) / (2 * PI) * (2 * PI) = M - PI) by (field; lra). set (q := (M - PI) / (2 * PI)) in *.
  assert (q * (2 * PI) < z * (2 * PI)) by (apply Rmult_lt_compat_r; lra).
  assert ((z - q) * (2 * PI) <= 1 * (2 * PI)) by (apply Rmult_le_compat_r; lra).
  lra.
Qed.

Lemma solve_elps_residual M e : 0 <= e <= 249 / 250 ->
  Rabs (kepler_equ_elps (solve_kepler_elps M e default_tol elps_max_iter) e M) <= / 1000000.
Proof.
  intros He. destruct (mod_2PI M) as [k Hk]. set (M1 := M + 2 * PI * IZR k) in *.
  assert (Ht : 0 <= @default_tol R Num_R) by (rewrite default_tol_R; lra).
  assert (S : solve_kepler_elps M1 e default_tol elps_max_iter
              = solve_kepler_elps M e default_tol elps_max_iter + 2 * PI * IZR k)
    by (apply solve_elps_shift; lra).
  rewrite <- (elps_equ_shift _ e M k). rewrite <- S. fold M1.
  destruct (Rle_dec 0 M1) as [P|P]; [apply solve_elps_q; lra|].
  pose proof (solve_elps_q (- M1) e He ltac:(lra)) as Q.
  rewrite solve_elps_neg, elps_equ_neg, Rabs_Ropp in Q by lra. exact Q.
Qed.
