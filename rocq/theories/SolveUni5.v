(** * SolveUni5: the universal solver on ellipses beyond e = 3/5 (proofs for C28)

    In eccentric anomaly the solver runs Newton's iteration on Kepler's equation
    from [M + s], [s] the sine of the starting anomaly times [e].  It
    converges if [|s|] is at most [18/5 (1 - e) - 3/20], in particular for [e <= 3/4]. *)
From Coq Require Import Reals Lra Lia Psatz ZArith List.
From Coquelicot Require Import Coquelicot.
From Verif Require Import Num NumR Spec SpecAnom RLib Ana Uniformulas Lagrange OrbIntegrals KepEqu StateTrans
  PropKepler SeriesU UFacts Atan2 OrbFacts KepState LoopFacts KepMotion TwoBody KepRows SolveFacts NewtonConvex SolveElps SolveElpsNear SolveElpsBad2
  SolveHypb Classical SolveUni.
Import ListNotations.
Local Open Scope R_scope.

(** ** Numbers *)
Lemma swing_down k x y : 0 <= k <= PI -> PI <= x -> x <= y -> y <= 2 * PI ->
  sin y - y * cos y + k * cos y <= sin x - x * cos x + k * cos x.
Proof.
  intros Hk H1 H2 H3. pose proof PI_RGT_0 as P.
  destruct (Req_dec x y) as [-> | D]; [lra |].
  destruct (mvt_on (fun u => sin u - u * cos u + k * cos u) (fun u => (u - k) * sin u) x y ltac:(lra)) as [u [Hu Eu]].
  { intros u _. auto_derive; [trivial | ring]. }
  cbv beta in Eu. pose proof (sin_le_0 u ltac:(lra) ltac:(lra)) as S.
  assert ((u - k) * sin u <= 0) by nra. assert ((u - k) * sin u * (y - x) <= 0) by nra. lra.
Qed.
Lemma at_38 : exists c s : R, cos (38 / 10) = - s /\ sin (38 / 10) = - c /\ 785 / 1000 <= s <= 792 / 1000 /\ c <= 613 / 1000.
Proof.
  pose proof PI_tight as P. destruct (near_3PI2 (38 / 10)) as [S C]. set (d := 3 * (PI / 2) - 38 / 10) in *.
  assert (D : 91238 / 100000 <= d <= 9124 / 10000) by (unfold d; lra).
  exists (cos d), (sin d). split; [exact C|]. split; [exact S|].
  pose proof (sin_ge_cube d ltac:(lra)) as Sd. pose proof (cos_le_quart d ltac:(lra)) as Cd.
  pose proof (sin_le_fifth d ltac:(lra)) as Su.
  assert (d2 : 832 / 1000 <= d ^ 2 <= 8325 / 10000) by nra.
  assert (d3 : 7590 / 10000 <= d ^ 3 <= 7597 / 10000) by (replace (d ^ 3) with (d ^ 2 * d) by ring; nra).
  assert (d4 : d ^ 4 <= 6931 / 10000) by (replace (d ^ 4) with (d ^ 2 * d ^ 2) by ring; nra).
  assert (d5 : d ^ 5 <= 633 / 1000).
  { replace (d ^ 5) with (d ^ 3 * d ^ 2) by ring. apply Rle_trans with (7597 / 10000 * (8325 / 10000)); [|lra].
    apply Rmult_le_compat; lra. }
  split; [split|]; lra.
Qed.
Lemma pow53 b u : 0 <= u -> u ^ 2 <= b -> u ^ 5 <= b * u ^ 3.
Proof.
  intros Hu Hb. replace (u ^ 5) with (u ^ 2 * u ^ 3) by ring. apply Rmult_le_compat_r; [apply pow_le; exact Hu|exact Hb].
Qed.
Lemma shrink u : 0 <= u <= 1 -> sin u - u * cos u <= 3 / 4 * (u * (1 - cos u)).
Proof.
  intros Hu. pose proof (cos_ge_quad u ltac:(lra)) as C. pose proof (sin_le_fifth u ltac:(lra)) as S.
  assert (u * (1 - u ^ 2 / 2) <= u * cos u) by (apply Rmult_le_compat_l; lra).
  assert (0 <= u ^ 3) by (apply pow_le; lra).
  pose proof (pow53 1 u ltac:(lra) ltac:(nra)).
  replace (u * (1 - u ^ 2 / 2)) with (u - u ^ 3 / 2) in * by field. lra.
Qed.
Lemma swing_poly x : 0 <= x <= 5 / 4 ->
  let P := 38 / 10 * (1 - cos x) - (sin x - x * cos x) in x - 15 / 100 <= P /\ x - 2 / 10 <= 3 / 4 * P /\ P <= 3.
Proof.
  intros Hx P. pose proof (cos_le_quart x ltac:(lra)) as C. pose proof (sin_le_fifth x ltac:(lra)) as S.
  pose proof (cos_ge_quad x ltac:(lra)) as C2.
  assert (x * (1 - x ^ 2 / 2) <= x * cos x) by (apply Rmult_le_compat_l; lra).
  assert (U : P <= 3).
  { assert (0 <= sin x - x * cos x).
    { pose proof (sin_ge_cube x ltac:(lra)). assert (x * cos x <= x * (1 - x ^ 2 / 2 + x ^ 4 / 24)) by (apply Rmult_le_compat_l; lra).
      assert (0 <= x ^ 3) by (apply pow_le; lra). 
      pose proof (pow53 2 x ltac:(lra) ltac:(nra)).
      replace (x * (1 - x ^ 2 / 2 + x ^ 4 / 24)) with (x - x ^ 3 / 2 + x ^ 5 / 24) in * by field. lra. }
    unfold P. nra. }
  assert (B : x ^ 2 * (19 / 10 - 334 / 1000 * x - 159 / 1000 * x ^ 2 - 84 / 10000 * x ^ 3) <= P).
  { unfold P. replace (x * (1 - x ^ 2 / 2)) with (x - x ^ 3 / 2) in * by field.
    assert (0 <= x ^ 3) by (apply pow_le; lra). assert (0 <= x ^ 4) by (apply pow_le; lra). assert (0 <= x ^ 5) by (apply pow_le; lra).
    replace (x ^ 2 * (19 / 10 - 334 / 1000 * x - 159 / 1000 * x ^ 2 - 84 / 10000 * x ^ 3))
      with (19 / 10 * x ^ 2 - 334 / 1000 * x ^ 3 - 159 / 1000 * x ^ 4 - 84 / 10000 * x ^ 5) by ring. lra. }
  assert (G : forall b, 0 <= x <= b -> x ^ 2 * (19 / 10 - 334 / 1000 * b - 159 / 1000 * b ^ 2 - 84 / 10000 * b ^ 3) <= P).
  { intros b Hb. eapply Rle_trans; [|exact B]. apply Rmult_le_compat_l; [apply pow_le; lra|].
    assert (x ^ 2 <= b ^ 2) by (apply pow_incr; lra). assert (x ^ 3 <= b ^ 3) by (apply pow_incr; lra). lra. }
  assert (x - 15 / 100 <= P /\ x - 2 / 10 <= 3 / 4 * P); [|tauto].
  clearbody P. clear C S C2 H B.
  assert (G2 : forall b c, 0 <= x <= b -> c <= 19 / 10 - 334 / 1000 * b - 159 / 1000 * b ^ 2 - 84 / 10000 * b ^ 3 -> c * x ^ 2 <= P).
  { intros b c Hb Hc. eapply Rle_trans; [|apply (G b Hb)]. rewrite Rmult_comm. apply Rmult_le_compat_l; [apply pow_le; lra|exact Hc]. }
  clear G. assert (Sq : 0 <= x ^ 2) by (apply pow_le; lra).
  destruct (Rle_dec x (1 / 2)) as [L1|L1].
  { pose proof (G2 (1 / 2) (169 / 100) ltac:(lra) ltac:(lra)) as K.
    assert (0 <= (x - 296 / 1000) ^ 2) by apply pow2_ge_0. assert (0 <= (x - 394 / 1000) ^ 2) by apply pow2_ge_0. split; lra. }
  destruct (Rle_dec x (65 / 100)) as [L2|L2].
  { pose proof (G2 (65 / 100) (161 / 100) ltac:(lra) ltac:(lra)) as K.
    assert (0 <= (x - 1 / 2) * x) by (apply Rmult_le_pos; lra). split; nra. }
  destruct (Rle_dec x (9 / 10)) as [L3|L3].
  { pose proof (G2 (9 / 10) (146 / 100) ltac:(lra) ltac:(lra)) as K.
    assert (0 <= (x - 65 / 100) * x) by (apply Rmult_le_pos; lra). split; nra. }
  pose proof (G2 (5 / 4) (121 / 100) ltac:(lra) ltac:(lra)) as K.
  assert (0 <= (x - 9 / 10) * x) by (apply Rmult_le_pos; lra). split; nra.
Qed.
Lemma swing_far x : 5 / 4 <= x <= PI -> sin x + (38 / 10 - x) * cos x <= 178 / 100.
Proof.
  intros Hx. pose proof PI_tight as P.
  assert (A : sin (5 / 4) + (38 / 10 - 5 / 4) * cos (5 / 4) <= 178 / 100).
  { pose proof (cos_le_quart (5 / 4) ltac:(lra)). pose proof (sin_le_fifth (5 / 4) ltac:(lra)). lra. }
  destruct (Req_dec x (5 / 4)) as [-> | D]; [exact A|].
  destruct (mvt_on (fun u => sin u + (38 / 10 - u) * cos u) (fun u => - ((38 / 10 - u) * sin u)) (5 / 4) x ltac:(lra)) as [u [Hu Eu]].
  { intros u _. auto_derive; [trivial | ring]. }
  cbv beta in Eu. pose proof (sin_ge_0 u ltac:(lra) ltac:(lra)) as S.
  assert (0 <= (38 / 10 - u) * sin u) by (apply Rmult_le_pos; lra).
  assert (0 <= (38 / 10 - u) * sin u * (x - 5 / 4)) by (apply Rmult_le_pos; lra). lra.
Qed.

Section Ell5.
  Variables (e M E : R).
  Hypothesis He : 3 / 5 <= e <= 23 / 24.
  Hypothesis HM : 0 <= M <= PI.
  Hypothesis Hroot : kepler_equ_elps E e M = 0.
  Let He1 : 0 <= e < 1.
  Proof. lra. Qed.
  Let N := elps_newton M e.
  Definition close (y : R) : Prop := Rabs (y - E) <= 1 - e.

  Lemma quot y : N y = (M + e * (sin y - y * cos y)) / dE y e.
  Proof using He.
    pose proof (dE_pos y e ltac:(lra)) as D. unfold N. rewrite elps_newton_R, kepler_equ_elps_R. rewrite dE_R in D |- *. field. lra.
  Qed.
  Lemma N_ge y c : c * dE y e <= M + e * (sin y - y * cos y) -> c <= N y.
  Proof using He.
    intros H. pose proof (dE_pos y e ltac:(lra)) as D. rewrite quot.
    apply (Rmult_le_reg_r (dE y e)); [exact D|].
    replace ((M + e * (sin y - y * cos y)) / dE y e * dE y e) with (M + e * (sin y - y * cos y)) by (field; lra). exact H.
  Qed.
  Lemma N_le y c : M + e * (sin y - y * cos y) <= c * dE y e -> N y <= c.
  Proof using He.
    intros H. pose proof (dE_pos y e ltac:(lra)) as D. rewrite quot.
    apply (Rmult_le_reg_r (dE y e)); [exact D|].
    replace ((M + e * (sin y - y * cos y)) / dE y e * dE y e) with (M + e * (sin y - y * cos y)) by (field; lra). exact H.
  Qed.
  Lemma N_quad y c : 0 < c -> c <= dE y e -> Rabs (N y - E) <= e / (2 * c) * (y - E) ^ 2.
  Proof using He HM Hroot.
    intros Hc Hd. pose proof (newton_error e M E He1 y) as Q. fold N in Q.
    assert (A : (N y - E) * dE y e = - e * (sin (y + (E - y)) - sin y - (E - y) * cos y)).
    { unfold N in *. rewrite Q. replace (y + (E - y)) with E by ring. pose proof Hroot as Z. rewrite kepler_equ_elps_R in Z |- *.
      rewrite dE_R. nra. }
    assert (B : Rabs (N y - E) * dE y e <= e * (y - E) ^ 2 / 2).
    { rewrite <- (Rabs_pos_eq (dE y e)) by lra. rewrite <- Rabs_mult, A, Rabs_mult, Rabs_Ropp, (Rabs_pos_eq e) by lra.
      pose proof (sin_taylor y (E - y)). replace ((y - E) ^ 2) with ((E - y) ^ 2) by ring.
      replace (e * (E - y) ^ 2 / 2) with (e * ((E - y) ^ 2 / 2)) by field. apply Rmult_le_compat_l; lra. }
    pose proof (Rabs_pos (N y - E)).
    apply (Rmult_le_reg_r c); [lra|].
    replace (e / (2 * c) * (y - E) ^ 2 * c) with (e * (y - E) ^ 2 / 2) by (field; lra). nra.
  Qed.
  Lemma close_S y : close y -> close (N y).
  Proof using He HM Hroot.
    unfold close. intros H. pose proof (N_quad y (1 - e) ltac:(lra) (dE_lower y e ltac:(lra))) as Q.
    assert (S : (y - E) ^ 2 <= (1 - e) ^ 2) by (rewrite <- (pow2_abs (y - E)); apply pow_incr; split; [apply Rabs_pos|exact H]).
    eapply Rle_trans; [exact Q|].
    apply Rle_trans with (e / (2 * (1 - e)) * (1 - e) ^ 2).
    { apply Rmult_le_compat_l; [|exact S]. apply Rmult_le_pos; [lra|]. left. apply Rinv_0_lt_compat. lra. }
    replace (e / (2 * (1 - e)) * (1 - e) ^ 2) with (e / 2 * (1 - e)) by (field; lra). nra.
  Qed.
  Lemma close_iter k y : close y -> close (iterate N k y).
  Proof using He HM Hroot. intros H. induction k as [|k IH]; cbn [iterate]; [exact H|]. now apply close_S. Qed.
  Lemma close_mono j k y : (j <= k)%nat -> close (iterate N j y) -> close (iterate N k y).
  Proof using He HM Hroot.
    intros L H. replace k with ((k - j) + j)%nat by lia. rewrite iterate_add. now apply close_iter.
  Qed.

  Lemma E_in : 0 <= E <= PI.
  Proof using He HM Hroot. exact (root_in e M E He1 HM Hroot). Qed.
  Lemma E_M : E - e * sin E = M.
  Proof using Hroot. pose proof Hroot as Z. rewrite kepler_equ_elps_R in Z. lra. Qed.

  Lemma close_in y : E <= y <= PI -> close (iterate N 9 y).
  Proof using He HM Hroot.
    intros Hy. pose proof E_in as R0. destruct (inside_iter e M E He1 HM Hroot y 9 Hy) as [A [B C]].
    fold N in A, B, C. set (z := iterate N 9 y) in *.
    pose proof (inside_value e M He1 HM y ltac:(lra)) as V.
    assert (L : (1 - e) * (z - E) <= kepler_equ_elps z e M).
    { destruct (mvt (fun t => kepler_equ_elps t e M) (fun t => dE t e) E z
        ltac:(intros; apply elps_deriv)) as [c [_ Ec]]. cbv beta in Ec. rewrite Hroot in Ec.
      pose proof (dE_lower c e ltac:(lra)). nra. }
    assert (X9 : 4700 <= exp (INR 9)).
    { replace (INR 9) with (1 + 1 + 1 + (1 + 1 + 1) + (1 + 1 + 1)) by (simpl; lra). rewrite !exp_plus.
      pose proof exp_1_low as X. set (w := exp 1) in *. assert (X3 : 1677 / 100 <= w * w * w) by nra.
      set (w3 := w * w * w) in *. assert (281 <= w3 * w3) by nra. nra. }
    unfold close. rewrite Rabs_pos_eq by lra.
    set (f := kepler_equ_elps z e M) in *. set (x9 := exp (INR 9)) in *. clearbody f x9.
    assert (f <= 4 / 4700) by nra.
    apply Rnot_lt_le. intros L2. nra.
  Qed.

  (** A step from beyond [PI]. *)
  Lemma beyond y : M <= 2 -> PI <= y <= 38 / 10 -> (E <= N y <= PI) \/ (E <= N (N y) <= PI).
  Proof using He HM Hroot.
    intros M2 Hy. pose proof PI_tight as P. pose proof E_in as R0. pose proof E_M as EM.
    destruct at_38 as [c [s [Ec [Es [Bs Bc]]]]].
    assert (Sy : sin y <= 0) by (apply sin_le_0; lra). pose proof (COS_bound y) as Cy.
    assert (U : N y <= PI).
    { apply N_le. rewrite dE_R. assert (0 <= - (e * sin y)) by nra.
      assert ((y - PI) * (1 - e * cos y) <= (y - PI) * 2) by (apply Rmult_le_compat_l; nra). nra. }
    destruct (Rle_dec E (17 / 10)) as [L|L].
    - left. split; [|exact U]. apply N_ge. rewrite dE_R.
      pose proof (swing_down E y (38 / 10) ltac:(lra) ltac:(lra) ltac:(lra) ltac:(lra)) as K. rewrite Ec, Es in K.
      pose proof (SIN_bound E) as SE.
      assert (E * s <= 17 / 10 * s) by (apply Rmult_le_compat_r; lra).
      assert (sin E <= sin y - y * cos y + E * cos y) by lra.
      assert (e * sin E <= e * (sin y - y * cos y + E * cos y)) by (apply Rmult_le_compat_l; lra). lra.
    - assert (Lw : 15 / 10 <= N y).
      { apply N_ge. rewrite dE_R.
        pose proof (swing_down (15 / 10) y (38 / 10) ltac:(lra) ltac:(lra) ltac:(lra) ltac:(lra)) as K. rewrite Ec, Es in K.
        pose proof (SIN_bound E) as SE.
        assert (e * sin E <= e) by nra.
        assert (e * 1 <= e * (sin y - y * cos y + 15 / 10 * cos y)) by (apply Rmult_le_compat_l; lra). lra. }
      set (z := N y) in *. destruct (Rle_dec E z) as [L2|L2]; [left; lra|]. right.
      split; [apply newton_above; auto; lra|].
      apply N_le. rewrite dE_R. pose proof (SIN_bound z) as Sz.
      assert (Cz : cos z <= 71 / 1000).
      { apply Rle_trans with (cos (15 / 10)); [apply cos_decr_1; lra|].
        replace (15 / 10) with (PI / 2 - (PI / 2 - 15 / 10)) by lra. rewrite cos_shift.
        pose proof (sin_le_id (PI / 2 - 15 / 10) ltac:(lra)). lra. }
      assert ((PI - z) * cos z <= 1642 / 1000 * (71 / 1000)).
      { destruct (Rle_dec 0 (cos z)) as [Q|Q]; [apply Rmult_le_compat; lra|]. nra. }
      assert (e * (sin z + (PI - z) * cos z) <= 23 / 24 * (1 + 1642 / 1000 * (71 / 1000))) by nra. lra.
  Qed.
  Lemma close_mid y : M <= 2 -> E <= y <= 38 / 10 -> close (iterate N 11 y).
  Proof using He HM Hroot.
    intros M2 Hy. destruct (Rle_dec y PI) as [L|L].
    - apply (close_mono 9); [lia|]. apply close_in. lra.
    - destruct (beyond y M2 ltac:(lra)) as [A|A]; apply close_in in A; rewrite iterate_S_in in A.
      + apply (close_mono 10); [lia|]. exact A.
      + rewrite iterate_S_in in A. exact A.
  Qed.

  (** A step from between 0 and the root. *)
  Variable sg : R.
  Hypothesis Hs1 : 0 <= sg <= e.
  Hypothesis Hs2 : sg <= 18 / 5 * (1 - e) - 3 / 20.

  Lemma overshoot5 x : M <= 2 -> 0 <= x <= PI -> M <= x + sg -> N x <= 38 / 10.
  Proof using He Hs1 Hs2.
    intros M2 Hx Hm. apply N_le. rewrite dE_R.
    destruct (Rle_dec x (5 / 4)) as [L|L].
    - destruct (swing_poly x ltac:(lra)) as [A [B C]].
      set (P := 38 / 10 * (1 - cos x) - (sin x - x * cos x)) in *.
      assert (Q : M <= 38 / 10 * (1 - e) + e * P); [|unfold P in Q; lra].
      clearbody P. destruct (Rle_dec e (3 / 4)); nra.
    - pose proof (swing_far x ltac:(lra)) as G.
      assert (e * (sin x + (38 / 10 - x) * cos x) <= e * (178 / 100)) by (apply Rmult_le_compat_l; lra). lra.
  Qed.
  Lemma close_nonneg x : M <= 2 -> 0 <= x <= 38 / 10 -> M <= x + sg -> close (iterate N 12 x).
  Proof using He HM Hroot Hs1 Hs2.
    intros M2 Hx Hm. pose proof E_in as R0. destruct (Rle_dec E x) as [L|L].
    - apply (close_mono 11); [lia|]. apply close_mid; lra.
    - pose proof (overshoot5 x M2 ltac:(lra) Hm) as O.
      assert (A : E <= N x) by (apply newton_above; auto; lra).
      pose proof (close_mid (N x) M2 (conj A O)) as K. rewrite iterate_S_in in K. exact K.
  Qed.

  (** Steps from below 0. *)
  Lemma below x : -1 <= x <= 0 -> 3 / 4 * x <= N x /\ N x <= M / (1 - e) /\
    (N x < 0 -> M <= 3 / 4 * (- x * (1 - cos x))).
  Proof using He HM.
    intros Hx. pose proof (shrink (- x) ltac:(lra)) as K. rewrite sin_neg, cos_neg in K.
    assert (H : sin x - x * cos x <= 0).
    { pose proof (sin_ge_cube (- x) ltac:(lra)) as S. rewrite sin_neg in S.
      pose proof (cos_le_quart (- x) ltac:(lra)) as C. rewrite cos_neg in C.
      assert (- x * cos x <= - x * (1 - (- x) ^ 2 / 2 + (- x) ^ 4 / 24)) by (apply Rmult_le_compat_l; lra).
      assert (0 <= (- x) ^ 3) by (apply pow_le; lra).
      pose proof (pow53 1 (- x) ltac:(lra) ltac:(nra)).
      replace (- x * (1 - (- x) ^ 2 / 2 + (- x) ^ 4 / 24)) with (- x - (- x) ^ 3 / 2 + (- x) ^ 5 / 24) in * by field. lra. }
    pose proof (COS_bound x) as Cx. pose proof (dE_pos x e He1) as D.
    split; [|split].
    - apply N_ge. rewrite dE_R.
      assert (e * (x * cos x - sin x) <= e * (3 / 4 * (- x * (1 - cos x)))) by (apply Rmult_le_compat_l; lra).
      assert (0 <= - x * (1 - e)) by (apply Rmult_le_pos; lra). lra.
    - apply N_le. pose proof (dE_lower x e ltac:(lra)) as DL.
      assert (e * (sin x - x * cos x) <= 0) by nra.
      assert (M <= M / (1 - e) * dE x e).
      { apply Rle_trans with (M / (1 - e) * (1 - e)); [right; field; lra|]. apply Rmult_le_compat_l; [|exact DL].
        apply Rmult_le_pos; [lra|]. left. apply Rinv_0_lt_compat. lra. }
      lra.
    - intros Neg. apply Rnot_lt_le. intros L. assert (Q : 0 <= N x); [|lra]. apply N_ge.
      assert (e * (x * cos x - sin x) <= 1 * (3 / 4 * (- x * (1 - cos x)))) by (apply Rmult_le_compat; lra). lra.
  Qed.
  Lemma below_iter k x : -1 <= x < 0 ->
    (exists j, (1 <= j <= k)%nat /\ 0 <= iterate N j x <= M / (1 - e)) \/ (3 / 4) ^ k * x <= iterate N k x < 0.
  Proof using He HM.
    intros Hx. induction k as [|k IH]; [right; cbn [iterate]; simpl pow; lra|].
    destruct IH as [[j [J1 J2]]|IH]; [left; exists j; split; [lia|exact J2]|].
    assert (P1 : (3 / 4) ^ k <= 1) by (rewrite <- (pow1 k); apply pow_incr; lra).
    assert (P0 : 0 < (3 / 4) ^ k) by (apply pow_lt; lra).
    set (y := iterate N k x) in *. assert (Hy : -1 <= y <= 0) by nra.
    destruct (below y Hy) as [A [B _]]. cbn [iterate]. fold y.
    destruct (Rle_dec 0 (N y)) as [L|L].
    - left. exists (S k). split; [lia|]. cbn [iterate]. fold y. split; [exact L|exact B].
    - right. simpl pow. nra.
  Qed.
  Lemma close_neg x : M <= 2 -> -1 <= x < 0 -> M <= x + sg -> close (iterate N 24 x).
  Proof using He HM Hroot Hs1 Hs2.
    intros M2 Hx Hm.
    assert (B : M / (1 - e) <= 38 / 10).
    { apply (Rmult_le_reg_r (1 - e)); [lra|]. replace (M / (1 - e) * (1 - e)) with M by (field; lra). lra. }
    destruct (below_iter 11 x Hx) as [[j [J1 J2]]|Q].
    - pose proof (close_nonneg (iterate N j x) M2 ltac:(lra) ltac:(lra)) as C. rewrite <- iterate_add in C.
      apply (close_mono (12 + j)); [lia|exact C].
    - assert (P : (3 / 4) ^ 11 <= 43 / 1000) by (simpl; lra).
      set (y := iterate N 11 x) in *. assert (Hy : - (43 / 1000) <= y <= 0) by nra.
      destruct (below y ltac:(lra)) as [A1 [A2 A3]].
      destruct (Rle_dec 0 (N y)) as [L|L].
      + pose proof (close_nonneg (N y) M2 ltac:(lra) ltac:(lra)) as C. rewrite iterate_S_in in C. unfold y in C.
        change (N (iterate N 11 x)) with (iterate N 12 x) in C. rewrite <- iterate_S_in in C.
        change (N (iterate N 11 x)) with (iterate N 12 x) in C. rewrite <- iterate_add in C. exact C.
      + apply (close_mono 12); [lia|]. change (iterate N 12 x) with (N y). specialize (A3 ltac:(lra)).
        pose proof (cos_ge_quad (- y) ltac:(lra)) as C. rewrite cos_neg in C.
        assert (M <= 3 / 4 * (43 / 1000 * (43 / 1000 * (43 / 1000) / 2))).
        { eapply Rle_trans; [exact A3|]. apply Rmult_le_compat_l; [lra|]. apply Rmult_le_compat; [lra| |lra|nra].
          pose proof (COS_bound y). lra. }
        pose proof E_in as R0. pose proof E_M as EM.
        assert (E <= M / (1 - e)).
        { apply (Rmult_le_reg_r (1 - e)); [lra|]. replace (M / (1 - e) * (1 - e)) with M by (field; lra).
          pose proof (sin_le_id E ltac:(lra)). nra. }
        assert (M / (1 - e) <= 24 * M).
        { apply (Rmult_le_reg_r (1 - e)); [lra|]. replace (M / (1 - e) * (1 - e)) with M by (field; lra). nra. }
        unfold close. apply Rabs_le. lra.
  Qed.

  (** The far half of the orbit. *)
  Lemma far_root : 2 <= M -> 23 / 10 <= E /\ E <= M + 56 / 100.
  Proof using He HM Hroot Hs1 Hs2.
    intros M2. pose proof PI_tight as P. pose proof E_in as R0. pose proof E_M as EM. split.
    - apply Rnot_lt_le. intros L.
      assert (S : 7 / 10 <= sin E).
      { destruct (Rle_dec E (PI / 2)) as [Q|Q]; [exfalso; pose proof (sin_ge_0 E ltac:(lra) ltac:(lra)); nra|].
        apply Rle_trans with (sin (23 / 10)); [|apply sin_decr_1; lra].
        rewrite <- sin_PI_x. pose proof (sin_ge_cube (PI - 23 / 10) ltac:(lra)) as S. set (d := PI - 23 / 10) in *.
        assert (D : 84159 / 100000 <= d <= 8416 / 10000) by (unfold d; lra).
        assert (d ^ 3 <= 597 / 1000) by (simpl; nra). lra. }
      nra.
    - apply Rnot_lt_le. intros L.
      assert (S : sin E <= 582 / 1000).
      { rewrite <- sin_PI_x. pose proof (sin_le_id (PI - E) ltac:(lra)). lra. }
      nra.
  Qed.
  Lemma far_step y : -(72 / 100) <= y - E <= 1217 / 1000 -> 23 / 10 <= E -> Rabs (N y - E) <= 48 / 100 * (y - E) ^ 2.
  Proof using He HM Hroot Hs1 Hs2.
    intros Hy HE. pose proof PI_tight as P. pose proof E_in as R0.
    assert (C : cos y <= 0) by (apply cos_le_0; lra).
    assert (D : 1 <= dE y e) by (rewrite dE_R; nra).
    pose proof (N_quad y 1 ltac:(lra) D) as Q. eapply Rle_trans; [exact Q|]. apply Rmult_le_compat_r; [apply pow2_ge_0|lra].
  Qed.
  Lemma close_far x : 2 <= M -> Rabs (x - M) <= sg -> close (iterate N 4 x).
  Proof using He HM Hroot Hs1 Hs2.
    intros M2 Hx. apply Rabs_le_between in Hx. pose proof PI_tight as P. pose proof E_in as R0.
    destruct (far_root M2) as [E1 E2]. pose proof E_M as EM.
    assert (S0 : 0 <= sin E) by (apply sin_ge_0; lra). assert (EM' : M <= E) by nra.
    assert (sg75 : sg <= 3 / 4) by nra.
    assert (A1 : - (5 / 10) <= N x - E <= 1217 / 1000).
    { destruct (Rle_dec x PI) as [L|L].
      - assert (B : E <= N x) by (apply newton_above; auto; lra). split; [lra|].
        assert (C : cos x <= 33 / 100).
        { apply Rle_trans with (cos (125 / 100)); [apply cos_decr_1; lra|].
          pose proof (cos_le_quart (125 / 100) ltac:(lra)). lra. }
        assert (D : 68 / 100 <= dE x e) by (rewrite dE_R; nra).
        pose proof (N_quad x (68 / 100) ltac:(lra) D) as Q. rewrite Rabs_pos_eq in Q by lra.
        assert (e / (2 * (68 / 100)) <= 705 / 1000) by lra.
        assert (B2 : -(131 / 100) <= x - E <= 131 / 100) by lra. set (d := x - E) in *. clearbody d.
        assert (d ^ 2 <= (131 / 100) ^ 2) by nra.
        assert (e / (2 * (68 / 100)) * d ^ 2 <= 705 / 1000 * (131 / 100) ^ 2) by (apply Rmult_le_compat; [lra|apply pow2_ge_0|lra|lra]). lra.
      - pose proof (far_step x ltac:(lra) E1) as Q. apply Rabs_le_between in Q. nra. }
    pose proof (far_step (N x) ltac:(lra) E1) as A2. assert (B2 : Rabs (N (N x) - E) <= 712 / 1000) by nra.
    pose proof B2 as B2'. apply Rabs_le_between in B2'.
    pose proof (far_step (N (N x)) ltac:(lra) E1) as A3. assert (B3 : Rabs (N (N (N x)) - E) <= 244 / 1000) by nra.
    pose proof B3 as B3'. apply Rabs_le_between in B3'.
    pose proof (far_step (N (N (N x))) ltac:(lra) E1) as A4. cbn [iterate]. unfold close. nra.
  Qed.

  Lemma close_start x : Rabs (x - M) <= sg -> close (iterate N 24 x).
  Proof using He HM Hroot Hs1 Hs2.
    intros Hx. destruct (Rle_dec 2 M) as [L|L].
    - apply (close_mono 4); [lia|]. now apply close_far.
    - apply Rabs_le_between in Hx. destruct (Rle_dec 0 x) as [L2|L2].
      + apply (close_mono 12); [lia|]. apply close_nonneg; lra.
      + apply close_neg; lra.
  Qed.
End Ell5.

Lemma newton_sym g c M e x : g = 1 \/ g = -1 -> 0 <= e < 1 -> (forall t, sin (g * t + c) = g * sin t) -> (forall t, cos (g * t + c) = cos t) ->
  elps_newton (g * M + c) e (g * x + c) = g * elps_newton M e x + c.
Proof.
  intros Hg He Hs Hc. rewrite !elps_newton_R, !kepler_equ_elps_R, !dE_R, Hs, Hc.
  pose proof (dE_pos x e He) as D. rewrite dE_R in D. field. lra.
Qed.
Lemma iter_sym g c M e x k : g = 1 \/ g = -1 -> 0 <= e < 1 -> (forall t, sin (g * t + c) = g * sin t) -> (forall t, cos (g * t + c) = cos t) ->
  iterate (elps_newton (g * M + c) e) k (g * x + c) = g * iterate (elps_newton M e) k x + c.
Proof.
  intros Hg He Hs Hc. induction k as [|k IH]; cbn [iterate]; [reflexivity|]. rewrite IH. now apply newton_sym.
Qed.

Lemma close_any e M E x : 3 / 5 <= e < 1 -> kepler_equ_elps E e M = 0 -> Rabs (x - M) <= e -> Rabs (x - M) <= 18 / 5 * (1 - e) - 3 / 20 ->
  Rabs (iterate (elps_newton M e) 24 x - E) <= 1 - e.
Proof.
  intros He HE H1 H2. pose proof (Rabs_pos (x - M)) as P.
  assert (K : exists g c, (g = 1 \/ g = -1) /\ (forall t, sin (g * t + c) = g * sin t) /\ (forall t, cos (g * t + c) = cos t) /\ 0 <= g * M + c <= PI).
  { destruct (mod_2PI M) as [k Hk]. destruct (Rle_dec 0 (M + 2 * PI * IZR k)) as [L|L].
    - exists 1, (2 * PI * IZR k). split; [now left|]. split; [intros t; rewrite !Rmult_1_l; apply sin_2kPI|].
      split; [intros t; rewrite Rmult_1_l; apply cos_2kPI|lra].
    - exists (-1), (2 * PI * IZR (- k)). split; [now right|].
      split; [intros t; rewrite sin_2kPI; replace (-1 * t) with (- t) by ring; rewrite sin_neg; ring|].
      split; [intros t; rewrite cos_2kPI; replace (-1 * t) with (- t) by ring; apply cos_neg|]. rewrite opp_IZR. lra. }
  destruct K as [g [c [Hg [Hs [Hc Hm]]]]].
  assert (Ab : forall z, Rabs (g * z) = Rabs z).
  { intros z. rewrite Rabs_mult. destruct Hg as [-> | ->]; [rewrite Rabs_R1|replace (-1) with (- (1)) by ring; rewrite Rabs_Ropp, Rabs_R1]; ring. }
  assert (Hr : kepler_equ_elps (g * E + c) e (g * M + c) = 0).
  { rewrite kepler_equ_elps_R in HE |- *. rewrite Hs. replace (g * E + c - e * (g * sin E) - (g * M + c)) with (g * (E - e * sin E - M)) by ring.
    rewrite HE. ring. }
  assert (Hx : Rabs (g * x + c - (g * M + c)) <= Rabs (x - M)).
  { replace (g * x + c - (g * M + c)) with (g * (x - M)) by ring. rewrite Ab. lra. }
  pose proof (close_start e (g * M + c) (g * E + c) ltac:(lra) Hm Hr (Rabs (x - M)) ltac:(lra) H2 (g * x + c) Hx) as Q.
  assert (G : forall k, Rabs (iterate (elps_newton (g * M + c) e) k (g * x + c) - (g * E + c)) = Rabs (iterate (elps_newton M e) k x - E)).
  { intros k. rewrite iter_sym by (auto; lra). rewrite <- (Ab (iterate (elps_newton M e) k x - E)). f_equal. ring. }
  unfold close in Q. rewrite (G 24%nat) in Q. exact Q.
Qed.

Lemma halves : (1 / 2) ^ (2 ^ 11) <= / 10 ^ 512.
Proof.
  assert (P : forall n, (1 / 2) ^ (2 ^ S n) = ((1 / 2) ^ (2 ^ n)) ^ 2).
  { intros n. rewrite <- pow_mult. f_equal. simpl. lia. }
  assert (A4 : (1 / 2) ^ (2 ^ 4) <= / 10 ^ 4) by (simpl; lra).
  assert (D : forall n m, (1 / 2) ^ (2 ^ n) <= / 10 ^ m -> (1 / 2) ^ (2 ^ S n) <= / 10 ^ (m + m)).
  { intros n m H. rewrite P. apply Rle_trans with ((/ 10 ^ m) ^ 2); [apply pow_incr; split; [apply pow_le; lra|exact H]|].
    right. rewrite pow_add, Rinv_mult. simpl. ring. }
  do 7 apply D in A4. exact A4.
Qed.
Lemma quad_tail e M E x k : 3 / 5 <= e < 1 -> kepler_equ_elps E e M = 0 -> Rabs (x - E) <= 1 - e ->
  e / (2 * (1 - e)) * Rabs (iterate (elps_newton M e) k x - E) <= (1 / 2) ^ (2 ^ k).
Proof.
  intros He HE Hx. assert (C : 0 < e / (2 * (1 - e))) by (apply Rdiv_lt_0_compat; lra).
  induction k as [|k IH].
  - cbn [iterate]. change (2 ^ 0)%nat with 1%nat.
    apply Rle_trans with (e / (2 * (1 - e)) * (1 - e)); [apply Rmult_le_compat_l; lra|].
    replace (e / (2 * (1 - e)) * (1 - e)) with (e / 2) by (field; lra). lra.
  - cbn [iterate]. set (y := iterate _ k _) in *.
    pose proof (newton_quadratic e M E ltac:(lra) HE y) as Q.
    assert (N : (1 / 2) ^ (2 ^ S k) = (1 / 2) ^ (2 ^ k) * (1 / 2) ^ (2 ^ k)).
    { rewrite <- pow_add. f_equal. simpl. lia. }
    rewrite N. pose proof (Rabs_pos (y - E)) as PA.
    rewrite <- (pow2_abs (y - E)) in Q. set (d := Rabs (y - E)) in *. set (c := e / (2 * (1 - e))) in *.
    assert (c * (c * d ^ 2) = c * d * (c * d)) by ring.
    assert (c * d * (c * d) <= (1 / 2) ^ (2 ^ k) * (1 / 2) ^ (2 ^ k)) by (apply Rmult_le_compat; nra).
    assert (c * Rabs (elps_newton M e y - E) <= c * (c * d ^ 2)) by (apply Rmult_le_compat_l; lra). lra.
Qed.

Lemma uni_elliptic_converges2 r0 v0 mu t : 0 < mu -> cross r0 v0 <> vzero ->
  let a := semimajor_axis (vnorm r0) (vnorm v0) mu in
  let e := vnorm (eccentricity_vector r0 v0 mu) in
  let alpha := alpha_of (vnorm r0) (vnorm v0) mu in
  let sigma0 := sigma_fn r0 v0 mu in
  e <= 3 / 4 \/ Rabs sigma0 <= (18 / 5 * (1 - e) - 3 / 20) * sqrt a -> a <= 10 ^ 200 ->
  energy mu r0 v0 < 0 ->
  exists i chi prev, (i <= 35)%Z /\
    uni_run t alpha (vnorm r0) sigma0 mu default_tol uni_max_iter = Some (i, chi, prev) /\
    Rabs (kepler_equ_uni chi alpha (vnorm r0) sigma0 t mu) <= / 1000000.
Proof.
  intros Hmu Hh. cbv zeta. intros Hc Ha HE.
  destruct (Rle_dec (vnorm (eccentricity_vector r0 v0 mu)) (3 / 5)) as [L35|L35].
  { destruct (uni_elliptic_converges r0 v0 mu t Hmu Hh L35 Ha) as [i [chi [prev [A B]]]]. exists i, chi, prev. split; [lia|exact B]. }
  set (a := semimajor_axis _ _ _) in *. set (e := vnorm (eccentricity_vector r0 v0 mu)) in *.
  pose proof (e_elps r0 v0 mu Hmu Hh HE) as Le. fold e in Le.
  destruct (ea_exists r0 v0 mu Hmu Hh HE) as [E0 [_ H0]].
  set (al := alpha_of _ _ _) in *. set (sg := sigma_fn _ _ _) in *.
  destruct (uni_run_char t al (vnorm r0) sg mu default_tol uni_max_iter) as [k [Hk [Hrun [Hj Hx]]]].
  set (M := E0 - e * sin E0 + mean_anomaly_elps a t mu).
  destruct (elps_unique e M ltac:(lra)) as [E [HE0 _]].
  pose proof (s_pos r0 v0 mu Hmu Hh HE) as Ps. fold a in Ps.
  assert (S3 : sqrt a ^ 3 <= 10 ^ 300).
  { pose proof (a_pos r0 v0 mu Hmu Hh HE) as Pa. fold a in Pa.
    assert (sqrt a <= 10 ^ 100).
    { rewrite <- (sqrt_pow2 (10 ^ 100)) by (apply pow_le; lra). apply sqrt_le_1_alt. rewrite <- pow_mult. exact Ha. }
    replace (10 ^ 300) with ((10 ^ 100) ^ 3) by (rewrite <- pow_mult; reflexivity). apply pow_incr. lra. }
  assert (Sg : sg = sqrt a * (e * sin E0)).
  { pose proof (proj1 (ea_iff r0 v0 mu Hmu Hh HE E0) H0) as [_ B]. fold a e in B.
    change (sigmaS r0 v0 mu = sqrt a * (e * sin E0)). lra. }
  assert (Q1 : Rabs (e * sin E0) <= e).
  { rewrite Rabs_mult, (Rabs_pos_eq e) by lra. pose proof (Rabs_sin E0). nra. }
  assert (Q2 : Rabs (e * sin E0) <= 18 / 5 * (1 - e) - 3 / 20).
  { destruct Hc as [Hc|Hc]; [lra|]. rewrite Sg, Rabs_mult, (Rabs_pos_eq (sqrt a)) in Hc by lra.
    apply (Rmult_le_reg_l (sqrt a)); [exact Ps|]. lra. }
  assert (B35 : Rabs (kepler_equ_uni (iterate (uni_newton t al (vnorm r0) sg mu) 35 (uni_guess t al mu))
      al (vnorm r0) sg t mu) <= default_tol).
  { rewrite default_tol_R.
    pose proof (ell_residual r0 v0 mu Hmu Hh HE E0 H0 t
      (iterate (uni_newton t al (vnorm r0) sg mu) 35 (uni_guess t al mu))) as Res.
    fold al sg a e in Res. rewrite Res. clear Res. fold M.
    rewrite (iterate_conj _ (elps_newton M e) (fun chi => E0 + chi / sqrt a))
      by (intros y; exact (ell_step r0 v0 mu Hmu Hh HE E0 H0 t y)).
    pose proof (ell_guess r0 v0 mu Hmu Hh HE E0 t) as Gu. fold al a in Gu. cbv beta. rewrite Gu. clear Gu.
    set (g := E0 + mean_anomaly_elps a t mu).
    assert (D0 : g - M = e * sin E0) by (unfold g, M; ring).
    pose proof (close_any e M E g ltac:(lra) HE0 ltac:(rewrite D0; exact Q1) ltac:(rewrite D0; exact Q2)) as C24.
    pose proof (quad_tail e M E _ 11 ltac:(lra) HE0 C24) as Q.
    change 35%nat with (11 + 24)%nat. rewrite iterate_add.
    pose proof (elps_residual_lip e M E (iterate (elps_newton M e) 11 (iterate (elps_newton M e) 24 g)) ltac:(lra) HE0) as L.
    pose proof halves as NT.
    set (x := iterate _ 11 _) in *. clearbody x.
    assert (C : 3 / 4 <= e / (2 * (1 - e))).
    { apply (Rmult_le_reg_r (2 * (1 - e))); [lra|]. replace (e / (2 * (1 - e)) * (2 * (1 - e))) with e by (field; lra). lra. }
    pose proof (Rabs_pos (x - E)) as PA.
    assert (3 / 4 * Rabs (x - E) <= e / (2 * (1 - e)) * Rabs (x - E)) by (apply Rmult_le_compat_r; lra).
    assert (L2 : Rabs (kepler_equ_elps x e M) <= 3 * / 10 ^ 512) by lra.
    rewrite Rabs_mult, (Rabs_pos_eq (sqrt a ^ 3)) by (apply pow_le; lra).
    apply Rle_trans with (10 ^ 300 * (3 * / 10 ^ 512)).
    { apply Rmult_le_compat; auto; [apply pow_le; lra|apply Rabs_pos]. }
    change 512%nat with (300 + 212)%nat. rewrite pow_add, Rinv_mult.
    assert (T0 : 0 < 10 ^ 300) by (apply pow_lt; lra).
    assert (T : 10 ^ 300 * / 10 ^ 300 = 1) by (apply Rinv_r; lra).
    set (u := 10 ^ 300) in *. set (ui := / u) in *. clearbody ui u.
    replace (u * (3 * (ui * / 10 ^ 212))) with (u * ui * (3 * / 10 ^ 212)) by ring. rewrite T. lra. }
  assert (K : (k <= 35)%nat).
  { apply Nat.nlt_ge. intros L. specialize (Hj 35%nat L). apply exceeds_R in Hj. lra. }
  exists (Z.of_nat k). do 2 eexists. split; [lia|]. split; [exact Hrun|].
  destruct Hx as [Hx|Hx].
  - change (Z.to_nat uni_max_iter) with 50%nat in Hx. lia.
  - apply exceeds_R_false in Hx. now rewrite default_tol_R in Hx.
Qed.

Lemma kepler_elliptic_accurate2 r0 v0 mu : 0 < mu -> cross r0 v0 <> vzero -> energy mu r0 v0 < 0 ->
  let a := semimajor_axis (vnorm r0) (vnorm v0) mu in
  let p := semiparameter (vnorm (angular_momentum r0 v0)) mu in
  let e := vnorm (eccentricity_vector r0 v0 mu) in
  e <= 3 / 4 \/ Rabs (sigma_fn r0 v0 mu) <= (18 / 5 * (1 - e) - 3 / 20) * sqrt a -> a <= 10 ^ 200 ->
  forall ts i t rk vk r v,
  nth_error ts i = Some t -> nth_error (kepler ts r0 v0 mu) i = Some (rk, vk) ->
  flows_to mu t (r0, v0) (r, v) ->
  vnorm (vminus rk r) <= sqrt (mu / p) * (1 + e) * (/ 1000000 / sqrt mu).
Proof.
  intros Hmu Hh HE a p e He Ha ts i t rk vk r v Hi Hk [fr [fv [Hm [A B]]]].
  apply pair_equal_spec in A. apply pair_equal_spec in B. destruct A as [A1 A2]. destruct B as [B1 B2].
  destruct (uni_elliptic_converges2 r0 v0 mu t Hmu Hh He Ha HE) as [k [chi [prev [_ [Hrun Hres]]]]].
  pose proof (row_error r0 v0 mu Hmu Hh fr fv Hm A1 A2 ts i t (/ 1000000) rk vk) as Q. cbv zeta in Q.
  rewrite <- B1. apply Q; auto. unfold solve_kepler_uni. rewrite Hrun. exact Hres.
Qed.
