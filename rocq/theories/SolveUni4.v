(** * SolveUni4: the universal solver on hyperbolas at moderate times (C28) *)
From Coq Require Import Reals Lra Lia Psatz ZArith List.
From Coquelicot Require Import Coquelicot.
From Verif Require Import Num NumR Spec SpecAnom RLib Ana Uniformulas Lagrange OrbIntegrals KepEqu StateTrans
  PropKepler SeriesU UFacts Atan2 OrbFacts KepState LoopFacts KepMotion TwoBody KepRows SolveFacts SolveHypb
  SolveHypb2 NewtonConvex Classical SolveUni SolveUni3.
Import ListNotations.
Local Open Scope R_scope.

Lemma hypb_neg_newton Nm e x : hypb_newton (- Nm) e (- x) = - hypb_newton Nm e x.
Proof.
  rewrite !hypb_newton_R, !kepler_equ_hypb_R, !dH_R, sinh_neg, cosh_neg. unfold Rdiv. ring.
Qed.

(** [y cosh y - sinh y <= (2 + y) (sinh y - y)] *)
Lemma exp_neg_quad y : 0 <= y -> exp (- y) <= 1 - y + y ^ 2 / 2.
Proof.
  intros Hy.
  assert (D : forall t : R, is_derive (fun u : R => 1 - u + u ^ 2 / 2 - exp (- u)) t (- 1 + t + exp (- t))).
  { intros t. auto_derive; auto. field. }
  destruct (mvt_on (fun u : R => 1 - u + u ^ 2 / 2 - exp (- u)) (fun t => - 1 + t + exp (- t)) 0 y Hy
    ltac:(intros; apply D)) as [c [Hc E]].
  pose proof (exp_ineq1_le (- c)). assert (0 <= (- 1 + c + exp (- c)) * (y - 0)) by (apply Rmult_le_pos; lra).
  replace (1 - 0 + 0 ^ 2 / 2 - exp (- 0)) with 0 in E by (rewrite Ropp_0, exp_0; field). lra.
Qed.
Lemma sinh_ratio y : 0 <= y -> y * cosh y - sinh y <= (2 + y) * (sinh y - y).
Proof.
  intros Hy. pose proof (exp_neg_quad y Hy) as Q. pose proof (sinh_ge_cube y Hy) as S.
  assert (E : cosh y = sinh y + exp (- y)) by (unfold cosh, sinh; field).
  rewrite E. assert (y * exp (- y) <= y * (1 - y + y ^ 2 / 2)) by (apply Rmult_le_compat_l; lra). nra.
Qed.

Section Moderate.
  Variables (e N X : R).
  Hypothesis He : 1 < e.
  Hypothesis HN : 0 <= N.
  Hypothesis HX : N / (e - 1) <= X.
  Let fe (y : R) : R := e * sinh y - y.
  Let Z := N / (e - 1).
  Let NZ : N = (e - 1) * Z.
  Proof. unfold Z. field. lra. Qed.
  Let Z0 : 0 <= Z.
  Proof. apply Rdiv_le_0_compat; lra. Qed.
  Let X0 : 0 <= X.
  Proof. apply Rle_trans with Z; [exact Z0|exact HX]. Qed.

  Lemma fe_eq y : kepler_equ_hypb y e N = fe y - N.
  Proof. apply kepler_equ_hypb_R. Qed.
  Lemma fe_low y : 0 <= y -> (e - 1) * y <= fe y.
  Proof using He. intros Hy. unfold fe. pose proof (sinh_ge_id y Hy). nra. Qed.
  Lemma fe_le x y : x <= y -> fe x <= fe y.
  Proof using He.
    intros H. destruct H as [H| ->]; [|lra]. pose proof (hypb_residual_incr e 0 x y He H) as Q.
    rewrite !kepler_equ_hypb_R in Q. unfold fe. lra.
  Qed.
  Lemma fe_opp y : fe (- y) = - fe y.
  Proof. unfold fe. rewrite sinh_neg. ring. Qed.

  Lemma hn_eq x : hypb_newton N e x = (e * (x * cosh x - sinh x) + N) / (e * cosh x - 1).
  Proof using He.
    rewrite hypb_newton_R, kepler_equ_hypb_R, dH_R. pose proof (cosh_ge_1 x). field. nra.
  Qed.

  Lemma h_entry x : 0 <= x <= Z -> forall m,
    0 <= fe (iterate (hypb_newton N e) (S m) x) - N <= (25 / 64) ^ m * fe Z.
  Proof using He HN.
    intros Hx m. destruct (hypb_unique e N He) as [H [Hr _]].
    pose proof (any_step N e H He HN Hr x ltac:(lra)) as A.
    assert (B : hypb_newton N e x <= Z).
    { pose proof (good_dpos e He x) as D. rewrite hypb_newton_R.
      apply (Rmult_le_reg_r (dH x e)); [exact D|].
      replace ((x - kepler_equ_hypb x e N / dH x e) * dH x e) with (x * dH x e - kepler_equ_hypb x e N) by (field; lra).
      rewrite fe_eq. pose proof (fe_low x ltac:(lra)) as L. rewrite dH_R. pose proof (cosh_ge_1 x).
      assert ((Z - x) * (e - 1) <= (Z - x) * (e * cosh x - 1)) by (apply Rmult_le_compat_l; nra).
      rewrite NZ. lra. }
    rewrite iterate_first. destruct (right_iter N e H He HN Hr (hypb_newton N e x) m A) as [_ [C D]].
    rewrite fe_eq in C. rewrite !fe_eq in D. split; [exact C|].
    rewrite exp_nat in D. pose proof (fe_le _ _ B) as F.
    set (u := fe (iterate (hypb_newton N e) m (hypb_newton N e x)) - N) in *.
    assert (P : (64 / 25) ^ m <= exp 1 ^ m) by (apply pow_incr; pose proof exp_1_low; lra).
    assert (u * (64 / 25) ^ m <= fe Z).
    { apply Rle_trans with (u * exp 1 ^ m); [now apply Rmult_le_compat_l|]. lra. }
    assert (PP : (25 / 64) ^ m * (64 / 25) ^ m = 1).
    { rewrite <- Rpow_mult_distr. replace (25 / 64 * (64 / 25)) with 1 by field. apply pow1. }
    pose proof (pow_le (25 / 64) m ltac:(lra)) as Pq.
    apply Rle_trans with ((25 / 64) ^ m * (u * (64 / 25) ^ m)); [|now apply Rmult_le_compat_l].
    right. replace ((25 / 64) ^ m * (u * (64 / 25) ^ m)) with ((25 / 64) ^ m * (64 / 25) ^ m * u) by ring. rewrite PP. ring.
  Qed.

  Lemma h_right H x : kepler_equ_hypb H e N = 0 -> H <= x -> forall m,
    0 <= fe (iterate (hypb_newton N e) m x) - N <= (25 / 64) ^ m * fe x.
  Proof using He HN.
    intros Hr Hx m. destruct (right_iter N e H He HN Hr x m Hx) as [_ [C D]].
    rewrite fe_eq in C. rewrite !fe_eq in D. split; [exact C|]. rewrite exp_nat in D.
    set (u := fe (iterate (hypb_newton N e) m x) - N) in *.
    assert (P : (64 / 25) ^ m <= exp 1 ^ m) by (apply pow_incr; pose proof exp_1_low; lra).
    assert (u * (64 / 25) ^ m <= fe x).
    { apply Rle_trans with (u * exp 1 ^ m); [now apply Rmult_le_compat_l|]. lra. }
    assert (PP : (25 / 64) ^ m * (64 / 25) ^ m = 1).
    { rewrite <- Rpow_mult_distr. replace (25 / 64 * (64 / 25)) with 1 by field. apply pow1. }
    pose proof (pow_le (25 / 64) m ltac:(lra)) as Pq.
    apply Rle_trans with ((25 / 64) ^ m * (u * (64 / 25) ^ m)); [|now apply Rmult_le_compat_l].
    right. replace ((25 / 64) ^ m * (u * (64 / 25) ^ m)) with ((25 / 64) ^ m * (64 / 25) ^ m * u) by ring. rewrite PP. ring.
  Qed.

  Lemma h_neg x : x < 0 -> hypb_newton N e x <= Z /\
    (hypb_newton N e x < 0 -> fe (- hypb_newton N e x) <= 25 / 64 * fe (- x) /\ N <= (2 - x) * fe (- x)).
  Proof using He HN.
    intros Hx. set (y := - x). assert (Hy : 0 < y) by (unfold y; lra).
    pose proof (cosh_ge_1 y) as C1. assert (D : 0 < e * cosh y - 1) by nra.
    assert (E0 : hypb_newton 0 e y = e * (y * cosh y - sinh y) / (e * cosh y - 1)).
    { rewrite hypb_newton_R, kepler_equ_hypb_R, dH_R. field. lra. }
    assert (E : hypb_newton N e x = - hypb_newton 0 e y + N / (e * cosh y - 1)).
    { rewrite E0, hn_eq. replace x with (- y) by (unfold y; ring). rewrite sinh_neg, cosh_neg. field. lra. }
    assert (S : sinh y <= y * cosh y) by (apply sinh_le_cosh; lra).
    assert (Q0 : 0 <= hypb_newton 0 e y).
    { rewrite E0. apply Rdiv_le_0_compat; [|exact D]. apply Rmult_le_pos; lra. }
    assert (Q1 : 0 <= N / (e * cosh y - 1)) by (apply Rdiv_le_0_compat; lra).
    assert (Q2 : N / (e * cosh y - 1) <= Z).
    { unfold Z. apply Rmult_le_compat_l; [lra|]. apply Rinv_le_contravar; nra. }
    split; [lra|]. intros Neg.
    assert (R0 : kepler_equ_hypb 0 e 0 = 0) by (rewrite kepler_equ_hypb_R, sinh_0; ring).
    split.
    - destruct (right_step 0 e 0 He ltac:(lra) R0 y ltac:(lra)) as [_ [A B]].
      rewrite kepler_equ_hypb_R, Rminus_0_r in A. rewrite !kepler_equ_hypb_R, !Rminus_0_r in B. fold (fe (hypb_newton 0 e y)) in A, B. fold (fe y) in B.
      eapply Rle_trans; [apply (fe_le (- hypb_newton N e x) (hypb_newton 0 e y)); lra|].
      pose proof exp_1_low. assert (fe (hypb_newton 0 e y) * (64 / 25) <= fe (hypb_newton 0 e y) * exp 1) by (apply Rmult_le_compat_l; lra).
      lra.
    - rewrite E, E0 in Neg.
      assert (N' : (- (e * (y * cosh y - sinh y) / (e * cosh y - 1)) + N / (e * cosh y - 1)) * (e * cosh y - 1) < 0) by nra.
      replace ((- (e * (y * cosh y - sinh y) / (e * cosh y - 1)) + N / (e * cosh y - 1)) * (e * cosh y - 1))
        with (- (e * (y * cosh y - sinh y)) + N) in N' by (field; lra).
      pose proof (sinh_ratio y ltac:(lra)) as SR. replace (2 - x) with (2 + y) by (unfold y; ring).
      assert (e * (y * cosh y - sinh y) <= e * ((2 + y) * (sinh y - y))) by (apply Rmult_le_compat_l; lra).
      assert (e * (sinh y - y) <= fe y) by (unfold fe; nra).
      assert ((2 + y) * (e * (sinh y - y)) <= (2 + y) * fe y) by (apply Rmult_le_compat_l; lra). lra.
  Qed.

  Variable x0 : R.
  Hypothesis Hx0 : Rabs x0 <= X.
  Let xs k := iterate (hypb_newton N e) k x0.
  Let A := fe X.
  Let A0 : 0 <= A.
  Proof. pose proof (fe_low X X0). unfold A. assert (0 <= (e - 1) * X) by (apply Rmult_le_pos; lra). lra. Qed.

  Lemma h_phase j :
    (forall i, (i <= j)%nat -> - X <= xs i < 0 /\ fe (- xs i) <= (25 / 64) ^ i * A /\
       ((S i <= j)%nat -> N <= (2 - xs i) * fe (- xs i))) \/
    exists i, (i <= j)%nat /\ 0 <= xs i /\ (i = 0%nat \/ xs i <= Z) /\
       ((2 <= i)%nat -> N <= (2 + X) * ((25 / 64) ^ (i - 2) * A)).
  Proof using He HN HX Hx0.
    induction j as [|j IH].
    - destruct (Rle_lt_dec 0 x0) as [P|P].
      + right. exists 0%nat. repeat split; auto; lia.
      + left. intros i Hi. assert (i = 0%nat) by lia. subst i. unfold xs. cbn [iterate pow].
        rewrite Rabs_left in Hx0 by exact P. split; [lra|]. split; [|lia]. unfold A.
        pose proof (fe_le (- x0) X ltac:(lra)). lra.
    - destruct IH as [IH|[i [Hi [Pi [Qi Ri]]]]].
      2:{ right. exists i. repeat split; auto. }
      destruct (IH j ltac:(lia)) as [N1 [F _]]. destruct (h_neg (xs j) ltac:(lra)) as [U V].
      change (hypb_newton N e (xs j)) with (xs (S j)) in U, V.
      destruct (Rle_lt_dec 0 (xs (S j))) as [P|P].
      + right. exists (S j). split; [lia|]. split; [exact P|]. split; [now right|].
        intros J. destruct j as [|j]; [lia|]. replace (S (S j) - 2)%nat with j by lia.
        destruct (IH j ltac:(lia)) as [N' [F' C]]. specialize (C ltac:(lia)).
        pose proof (fe_low (- xs j) ltac:(lra)) as FL.
        assert (0 <= fe (- xs j)) by (assert (0 <= (e - 1) * (- xs j)) by (apply Rmult_le_pos; lra); lra).
        eapply Rle_trans; [exact C|]. apply Rmult_le_compat; lra.
      + left. destruct (V P) as [V1 V2]. intros i Hi.
        destruct (Nat.eq_dec i (S j)) as [->|Ne].
        * split.
          { split; [|exact P]. destruct (Rle_lt_dec (- X) (xs (S j))) as [L|L]; [exact L|]. exfalso.
            assert (fe (- xs j) <= fe (- xs (S j))) by (apply fe_le; lra).
            pose proof (fe_low (- xs j) ltac:(lra)).
            assert (0 < (e - 1) * (- xs j)) by (apply Rmult_lt_0_compat; lra). lra. }
          split; [|lia]. cbn [pow]. lra.
        * destruct (IH i ltac:(lia)) as [N' [F' C]]. split; [exact N'|]. split; [exact F'|]. intros _.
          destruct (Nat.eq_dec i j) as [->|Ne']; [exact V2|]. apply C. lia.
  Qed.

  Variable c : R.
  Hypothesis Hc : 0 <= c.

  (** start and root on the same side of periapsis *)
  Lemma h_same : 0 <= x0 -> c * (e * sinh X) <= 10 ^ 13 ->
    Rabs (c * kepler_equ_hypb (xs 50) e N) <= / 1000000.
  Proof using He HN HX Hx0 Hc.
    intros P0 HB. rewrite Rabs_pos_eq in Hx0 by exact P0. rewrite fe_eq.
    assert (FX : fe X <= e * sinh X) by (unfold fe; lra).
    assert (CX : c * fe X <= 10 ^ 13) by (eapply Rle_trans; [apply Rmult_le_compat_l; [exact Hc|exact FX]|exact HB]).
    assert (CA : 0 <= c * fe X) by (apply Rmult_le_pos; [exact Hc|exact A0]).
    assert (Fin : forall u m, (47 <= m)%nat -> 0 <= u <= (25 / 64) ^ m * fe X -> Rabs (c * u) <= / 1000000).
    { intros u m Hm Hu. rewrite Rabs_pos_eq by (apply Rmult_le_pos; lra).
      apply Rle_trans with ((25 / 64) ^ m * ((25 / 64) ^ 0 * (c * fe X))).
      - apply Rle_trans with (c * ((25 / 64) ^ m * fe X)); [apply Rmult_le_compat_l; lra|]. right. simpl ((25 / 64) ^ 0). ring.
      - apply pow_budget; try lra. lia. }
    destruct (Rle_lt_dec x0 Z) as [L|L].
    - destruct (h_entry x0 ltac:(lra) 49) as [B C]. fold (xs 50) in B, C. apply (Fin _ 49%nat); [lia|]. split; [exact B|].
      eapply Rle_trans; [exact C|]. apply Rmult_le_compat_l; [apply pow_le; lra|]. now apply fe_le.
    - destruct (hypb_unique e N He) as [H [Hr _]].
      assert (HZ : H <= x0).
      { apply Rle_trans with Z; [|lra]. destruct (Rle_lt_dec H Z) as [Q|Q]; [exact Q|]. exfalso.
        pose proof (hypb_residual_incr e N Z H He Q) as I. rewrite Hr, fe_eq in I.
        pose proof (fe_low Z Z0). lra. }
      destruct (h_right H x0 Hr HZ 50) as [B C]. fold (xs 50) in B, C. apply (Fin _ 50%nat); [lia|]. split; [exact B|].
      eapply Rle_trans; [exact C|]. apply Rmult_le_compat_l; [apply pow_le; lra|]. now apply fe_le.
  Qed.

  Lemma h_converges : c * ((2 + X) * (e * sinh X) * ((e * cosh X - 1) / (e - 1))) <= 10 ^ 13 ->
    exists k, (k <= 50)%nat /\ Rabs (c * kepler_equ_hypb (xs k) e N) <= / 1000000.
  Proof using He HN HX Hx0 Hc.
    intros HB. set (G := (e * cosh X - 1) / (e - 1)) in *.
    assert (G1 : 1 <= G).
    { unfold G. apply (Rmult_le_reg_r (e - 1)); [lra|]. pose proof (cosh_ge_1 X).
      replace ((e * cosh X - 1) / (e - 1) * (e - 1)) with (e * cosh X - 1) by (field; lra). nra. }
    assert (FX : A <= e * sinh X) by (unfold A, fe; lra).
    set (Q := (2 + X) * A * G).
    assert (Q0 : 0 <= (2 + X) * A) by (apply Rmult_le_pos; lra).
    assert (Q1 : 0 <= Q) by (apply Rmult_le_pos; lra).
    assert (CQ : c * Q <= 10 ^ 13).
    { eapply Rle_trans; [|exact HB]. apply Rmult_le_compat_l; [exact Hc|]. unfold Q. apply Rmult_le_compat_r; [lra|].
      apply Rmult_le_compat_l; lra. }
    assert (CQ0 : 0 <= c * Q) by (apply Rmult_le_pos; lra).
    destruct (Rle_lt_dec 0 x0) as [P0|P0].
    { exists 50%nat. split; [lia|]. apply h_same; [exact P0|]. eapply Rle_trans; [|exact HB].
      apply Rmult_le_compat_l; [exact Hc|]. assert (0 <= e * sinh X) by lra.
      apply Rle_trans with (1 * (e * sinh X) * 1); [lra|]. apply Rmult_le_compat; try lra.
      apply Rmult_le_compat_r; lra. }
    destruct (h_phase 49) as [Ng|[i [Hi [Pi [Qi Ri]]]]].
    - exists 48%nat. split; [lia|]. destruct (Ng 48%nat ltac:(lia)) as [Y [F C]]. specialize (C ltac:(lia)).
      set (y := xs 48) in *. rewrite fe_eq.
      assert (Fy : 0 <= fe (- y)).
      { pose proof (fe_low (- y) ltac:(lra)). assert (0 <= (e - 1) * (- y)) by (apply Rmult_le_pos; lra). lra. }
      replace (fe y) with (- fe (- y)) by (rewrite fe_opp; ring).
      assert (C2 : N <= (2 + X) * fe (- y)).
      { eapply Rle_trans; [exact C|]. apply Rmult_le_compat_r; lra. }
      rewrite Rabs_left1.
      2:{ assert (0 <= c * (fe (- y) + N)) by (apply Rmult_le_pos; lra). lra. }
      apply Rle_trans with ((25 / 64) ^ 47 * ((25 / 64) ^ 0 * (c * Q))).
      + apply Rle_trans with (c * ((25 / 64) ^ 47 * Q)); [|right; simpl ((25 / 64) ^ 0); ring].
        replace (- (c * (- fe (- y) - N))) with (c * (fe (- y) + N)) by ring.
        apply Rmult_le_compat_l; [exact Hc|].
        apply Rle_trans with (2 * (2 + X) * fe (- y)).
        { assert (fe (- y) <= (2 + X) * fe (- y)) by nra. lra. }
        apply Rle_trans with (2 * (2 + X) * ((25 / 64) ^ 48 * A)); [apply Rmult_le_compat_l; lra|].
        replace ((25 / 64) ^ 48) with (25 / 64 * (25 / 64) ^ 47) by reflexivity.
        assert (QA : (2 + X) * A <= Q) by (unfold Q; nra).
        pose proof (pow_le (25 / 64) 47 ltac:(lra)) as Pw. set (z := (25 / 64) ^ 47) in *. clearbody z.
        assert (z * ((2 + X) * A) <= z * Q) by (apply Rmult_le_compat_l; lra).
        assert (0 <= z * ((2 + X) * A)) by (apply Rmult_le_pos; lra). lra.
      + apply pow_budget; try lra. lia.
    - exists 50%nat. split; [lia|]. rewrite fe_eq.
      assert (iZ : 0 <= xs i <= Z).
      { destruct Qi as [Qi|Qi]; [|lra]. subst i. unfold xs in Pi. cbn [iterate] in Pi. lra. }
      replace (xs 50) with (iterate (hypb_newton N e) (S (49 - i)) (xs i)).
      2:{ unfold xs. rewrite <- iterate_add. f_equal. lia. }
      destruct (h_entry (xs i) iZ (49 - i)) as [B C]. set (u := fe _ - N) in *.
      rewrite Rabs_pos_eq by (apply Rmult_le_pos; lra).
      destruct (le_lt_dec 2 i) as [L|L].
      + specialize (Ri L).
        assert (FZ : fe Z <= N * G).
        { unfold fe. pose proof (sinh_le_cosh Z Z0) as S. pose proof (cosh_incr Z X Z0 HX) as CC.
          apply Rle_trans with (Z * (e * cosh Z - 1)); [nra|]. rewrite NZ at 1.
          unfold G. replace ((e - 1) * Z * ((e * cosh X - 1) / (e - 1))) with (Z * (e * cosh X - 1)) by (field; lra).
          apply Rmult_le_compat_l; [exact Z0|]. nra. }
        apply Rle_trans with ((25 / 64) ^ (49 - i) * ((25 / 64) ^ (i - 2) * (c * Q))).
        * apply Rle_trans with (c * ((25 / 64) ^ (49 - i) * ((25 / 64) ^ (i - 2) * Q))); [|right; ring].
          apply Rmult_le_compat_l; [exact Hc|]. eapply Rle_trans; [exact C|].
          apply Rmult_le_compat_l; [apply pow_le; lra|]. eapply Rle_trans; [exact FZ|].
          replace ((25 / 64) ^ (i - 2) * Q) with ((2 + X) * ((25 / 64) ^ (i - 2) * A) * G) by (unfold Q; ring).
          apply Rmult_le_compat_r; lra.
        * apply pow_budget; try lra. lia.
      + apply Rle_trans with ((25 / 64) ^ (49 - i) * ((25 / 64) ^ 0 * (c * Q))).
        * apply Rle_trans with (c * ((25 / 64) ^ (49 - i) * Q)); [|right; simpl ((25 / 64) ^ 0); ring].
          apply Rmult_le_compat_l; [exact Hc|]. eapply Rle_trans; [exact C|].
          apply Rmult_le_compat_l; [apply pow_le; lra|]. pose proof (fe_le Z X HX) as FZ. fold A in FZ.
          assert (A <= (2 + X) * A) by nra. assert ((2 + X) * A <= Q) by (unfold Q; nra). lra.
        * apply pow_budget; try lra. lia.
  Qed.
End Moderate.

Lemma uni_hyperbolic_converges r0 v0 mu t H0 X : 0 < mu -> cross r0 v0 <> vzero -> 0 < energy mu r0 v0 ->
  let a := semimajor_axis (vnorm r0) (vnorm v0) mu in
  let e := vnorm (eccentricity_vector r0 v0 mu) in
  let alpha := alpha_of (vnorm r0) (vnorm v0) mu in
  let sigma0 := sigma_fn r0 v0 mu in
  let dm := sqrt (mu / - a ^ 3) * t in
  let M := e * sinh H0 - H0 + dm in
  hyperbolic_anomaly mu a e r0 v0 H0 ->
  Rabs (H0 + dm) <= X -> Rabs M <= X * (e - 1) ->
  (0 <= (H0 + dm) * M /\ sqrt (- a) ^ 3 * (e * sinh X) <= 10 ^ 13) \/
  sqrt (- a) ^ 3 * ((2 + X) * (e * sinh X) * ((e * cosh X - 1) / (e - 1))) <= 10 ^ 13 ->
  exists i chi prev, (i <= 50)%Z /\
    uni_run t alpha (vnorm r0) sigma0 mu default_tol uni_max_iter = Some (i, chi, prev) /\
    Rabs (kepler_equ_uni chi alpha (vnorm r0) sigma0 t mu) <= / 1000000.
Proof.
  intros Hmu Hh HE. cbv zeta. set (a := semimajor_axis _ _ _). set (e := vnorm (eccentricity_vector r0 v0 mu)).
  set (al := alpha_of _ _ _). set (sg := sigma_fn _ _ _). intros HH.
  pose proof (mean_anomaly_hypb_R a t mu) as EM. rewrite <- EM. set (dm := mean_anomaly_hypb a t mu) in *.
  set (M := e * sinh H0 - H0 + dm). intros HX HM HB.
  pose proof (e_hypb r0 v0 mu Hmu Hh HE) as Pe. fold e in Pe.
  pose proof (hs_pos r0 v0 mu Hmu Hh HE) as Ps. fold a in Ps. set (s := sqrt (- a)) in *.
  assert (Ps3 : 0 <= s ^ 3) by (apply pow_le; lra).
  assert (HM' : Rabs M / (e - 1) <= X).
  { apply (Rmult_le_reg_r (e - 1)); [lra|]. replace (Rabs M / (e - 1) * (e - 1)) with (Rabs M) by (field; lra). exact HM. }
  assert (C : exists k, (k <= 50)%nat /\
    Rabs (s ^ 3 * kepler_equ_hypb (iterate (hypb_newton M e) k (H0 + dm)) e M) <= / 1000000).
  { destruct (Rle_lt_dec 0 M) as [L|L].
    - rewrite (Rabs_pos_eq M) in HM' by exact L. destruct HB as [[S HB]|HB].
      + destruct (Rle_lt_dec 0 (H0 + dm)) as [P|P].
        * exists 50%nat. split; [lia|]. now apply (h_same e M X Pe L HM' (H0 + dm) HX (s ^ 3) Ps3).
        * assert (M0 : M = 0) by nra.
          assert (Q : Rabs (s ^ 3 * kepler_equ_hypb (iterate (hypb_newton (- M) e) 50 (- (H0 + dm))) e (- M)) <= / 1000000).
          { apply (h_same e (- M) X Pe ltac:(lra)); auto; try lra.
            - rewrite M0, Ropp_0. rewrite M0 in HM'. exact HM'.
            - now rewrite Rabs_Ropp. }
          exists 50%nat. split; [lia|].
          rewrite <- (iterate_conj (hypb_newton M e) (hypb_newton (- M) e) Ropp) in Q
            by (intros y; symmetry; apply hypb_neg_newton).
          rewrite hypb_equ_neg in Q. rewrite <- Rabs_Ropp. rewrite <- Ropp_mult_distr_r in Q. exact Q.
      + exact (h_converges e M X Pe L HM' (H0 + dm) HX (s ^ 3) Ps3 HB).
    - rewrite (Rabs_left M) in HM' by exact L.
      assert (T : exists k, (k <= 50)%nat /\
        Rabs (s ^ 3 * kepler_equ_hypb (iterate (hypb_newton (- M) e) k (- (H0 + dm))) e (- M)) <= / 1000000).
      { assert (HX' : Rabs (- (H0 + dm)) <= X) by now rewrite Rabs_Ropp.
        destruct HB as [[S HB]|HB].
        - exists 50%nat. split; [lia|].
          apply (h_same e (- M) X Pe ltac:(lra) HM' (- (H0 + dm)) HX' (s ^ 3) Ps3); [nra|exact HB].
        - exact (h_converges e (- M) X Pe ltac:(lra) HM' (- (H0 + dm)) HX' (s ^ 3) Ps3 HB). }
      destruct T as [k [Hk Q]]. exists k. split; [exact Hk|].
      rewrite <- (iterate_conj (hypb_newton M e) (hypb_newton (- M) e) Ropp) in Q.
      2:{ intros y. symmetry. apply hypb_neg_newton. }
      rewrite hypb_equ_neg in Q. rewrite <- Rabs_Ropp. rewrite <- Ropp_mult_distr_r in Q. exact Q. }
  destruct C as [k [Hk Q]].
  assert (Res : forall j, kepler_equ_uni (iterate (uni_newton t al (vnorm r0) sg mu) j (uni_guess t al mu)) al (vnorm r0) sg t mu
    = s ^ 3 * kepler_equ_hypb (iterate (hypb_newton M e) j (H0 + dm)) e M).
  { intros j. pose proof (hyp_residual r0 v0 mu Hmu Hh HE H0 HH t
      (iterate (uni_newton t al (vnorm r0) sg mu) j (uni_guess t al mu))) as R. fold al sg a e in R. fold s in R.
    fold dm in R. fold M in R. rewrite R. do 2 f_equal.
    pose proof (iterate_conj (uni_newton t al (vnorm r0) sg mu) (hypb_newton M e) (fun chi => H0 + chi / s) j (uni_guess t al mu)
      (fun y => hyp_step r0 v0 mu Hmu Hh HE H0 HH t y)) as I. cbv beta in I. rewrite I. f_equal.
    exact (hyp_guess r0 v0 mu Hmu Hh HE H0 t). }
  destruct (uni_run_char t al (vnorm r0) sg mu default_tol uni_max_iter) as [m [Hm [Hrun [Hl Hx]]]].
  change (Z.to_nat uni_max_iter) with 50%nat in Hm, Hx.
  do 3 eexists. split; [|split; [exact Hrun|]]; [lia|]. rewrite Res.
  assert (MK : (m <= k)%nat).
  { destruct (le_lt_dec m k) as [MK|MK]; [exact MK|]. specialize (Hl k MK). apply exceeds_R in Hl.
    rewrite Res, default_tol_R in Hl. lra. }
  destruct Hx as [Hx|Hx].
  - assert (k = m) by lia. subst k. exact Q.
  - apply exceeds_R_false in Hx. rewrite Res, default_tol_R in Hx. lra.
Qed.


(** A hyperbola at periapsis: r0 = (1,0,0), v0 = (0,3/2,0), mu = 1, so a = -4 and e = 5/4. *)
Definition hr : vec := mk3 1 0 0.
Definition hv : vec := mk3 0 (3 / 2) 0.
Lemma hr_norm : vnorm hr = 1.
Proof. apply vnorm_unique; [lra|]. unfold dot, hr; cbn [c0 c1 c2]. lra. Qed.
Lemma hv_norm : vnorm hv = 3 / 2.
Proof. apply vnorm_unique; [lra|]. unfold dot, hv; cbn [c0 c1 c2]. lra. Qed.
Lemma hq_axis : semimajor_axis (vnorm hr) (vnorm hv) 1 = -4.
Proof. rewrite semimajor_axis_R, hr_norm, hv_norm. field. Qed.
Lemma hq_alpha : alpha_of (vnorm hr) (vnorm hv) 1 = - (1 / 4).
Proof. rewrite alpha_of_R, hr_norm, hv_norm. field. Qed.
Lemma hq_ecc : vnorm (eccentricity_vector hr hv 1) = 5 / 4.
Proof.
  rewrite eccentricity_vector_R, hr_norm. apply vnorm_unique; [lra|].
  unfold hr, hv, vminus, smul, cross, dot; cbn [c0 c1 c2]. field.
Qed.
Lemma hq_sigma : sigma_fn hr hv 1 = 0.
Proof. rewrite sigma_fn_R, sqrt_1. unfold dot, hr, hv; cbn [c0 c1 c2]. field. Qed.
Lemma hq_cross : cross hr hv <> vzero.
Proof. intros H. apply (f_equal c2) in H. unfold cross, hr, hv, vzero in H; cbn [c0 c1 c2] in H. lra. Qed.
Lemma hq_energy : energy 1 hr hv = 1 / 8.
Proof. unfold energy. rewrite hr_norm. unfold dot, hv; cbn [c0 c1 c2]. lra. Qed.
Lemma hq_converges : exists i chi prev, (i <= 50)%Z /\
  uni_run 8 (- (1 / 4)) 1 0 1 default_tol uni_max_iter = Some (i, chi, prev) /\
  Rabs (kepler_equ_uni chi (- (1 / 4)) 1 0 8 1) <= / 1000000.
Proof.
  pose proof (uni_hyperbolic_converges hr hv 1 8 0 4 ltac:(lra) hq_cross ltac:(rewrite hq_energy; lra)) as H. cbv zeta in H.
  rewrite hq_axis, hq_ecc, hq_sigma, hq_alpha, hr_norm, sinh_0 in H.
  assert (S8 : sqrt (1 / - (-4) ^ 3) = 1 / 8).
  { replace (1 / - (-4) ^ 3) with ((1 / 8) * (1 / 8)) by field. apply sqrt_square. lra. }
  rewrite S8 in H.
  assert (S2 : sqrt (- -4) = 2) by (replace (- -4) with (2 * 2) by ring; apply sqrt_square; lra).
  rewrite S2 in H. apply H; clear H.
  - split; [rewrite hr_norm, cosh_0; field|]. rewrite sinh_0. unfold dot, hr, hv; cbn [c0 c1 c2]. ring.
  - rewrite Rabs_pos_eq; lra.
  - rewrite Rabs_pos_eq; lra.
  - left. split; [lra|]. unfold sinh. pose proof (exp_pos (- (4))) as P.
    assert (E : exp 4 <= 81).
    { replace 4 with (INR 4) by (simpl; lra). rewrite exp_nat. replace 81 with (3 ^ 4) by ring.
      apply pow_incr. pose proof exp_le_3. pose proof (exp_pos 1). lra. }
    lra.
Qed.
