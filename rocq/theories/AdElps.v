(** * AdElps: forward-mode differentiation of [solve_kepler_elps] (proofs for C88) *)
From Coq Require Import Reals ZArith Lia Lra Psatz List Bool.
From Coquelicot Require Import Coquelicot.
From Verif Require Import Num NumR NumD Spec SpecAd OrbIntegrals KepEqu RLib Ana Atan2 LoopFacts KepRows SolveFacts NewtonConvex SolveElps AdOps AdKep.
Local Open Scope R_scope.

(** ** The tangents of the iterates *)
Section Tangents.
  Variables (e M dM de : R).
  Definition ex (j : nat) : R := iterate (elps_newton M e) j (elps_guess M e).
  Definition estep (x k : R) : R :=
    (dM + de * sin x) / dE x e + kepler_equ_elps x e M * (e * sin x * k - de * cos x) / dE x e ^ 2.
  Definition ek0 : R := dM * (1 + e * cos M + e ^ 2 * cos (2 * M)) + de * (sin M + e * sin (2 * M)).
  Fixpoint ek (j : nat) : R := match j with O => ek0 | S i => estep (ex i) (ek i) end.
  Definition eslope (x : R) : R := (dM + de * sin x) / dE x e.

  Lemma ex_S j : ex (S j) = elps_newton M e (ex j). Proof. reflexivity. Qed.
End Tangents.

Lemma dE_low x e : 0 <= e < 1 -> 1 - e <= dE x e <= 2.
Proof. intro H. rewrite dE_R. pose proof (COS_bound x). nra. Qed.

(** Newton's map contracts slopes by 3/4 above the root. *)
Lemma elps_log34 M e y : 0 <= e -> 0 <= M -> 0 <= y <= PI -> kepler_equ_elps y e M * (e * sin y) <= 3 / 4 * dE y e ^ 2.
Proof.
  intros He HM Hy. rewrite kepler_equ_elps_R, dE_R.
  pose proof (sin_ge_0 y ltac:(lra) ltac:(lra)) as S.
  assert (Q : sin y ^ 2 + cos y ^ 2 = 1) by (rewrite <- !Rsqr_pow2; apply sin2_cos2).
  assert (G : 0 <= (1 - y ^ 2 / 3) * sin y - y * cos y).
  { assert (S2 : forall t, 0 <= t <= PI -> 0 <= sin t - t * cos t).
    { intros t Ht. destruct (mvt_on (fun u => sin u - u * cos u) (fun u => u * sin u) 0 t ltac:(lra)) as [u [Hu Eu]].
      { intros u _. eapply der_eq; [apply der_minus; [apply is_derive_sin|apply der_mult; [apply der_id|apply is_derive_cos]]|cbv beta; ring]. }
      cbv beta in Eu. rewrite sin_0 in Eu. pose proof (sin_ge_0 u ltac:(lra) ltac:(lra)).
      assert (0 <= u * sin u) by (apply Rmult_le_pos; lra). assert (0 <= u * sin u * (t - 0)) by (apply Rmult_le_pos; lra). lra. }
    destruct (mvt_on (fun u => (1 - u ^ 2 / 3) * sin u - u * cos u) (fun u => u / 3 * (sin u - u * cos u)) 0 y ltac:(lra)) as [u [Hu Eu]].
    { intros u _. auto_derive; [trivial|field]. }
    cbv beta in Eu. rewrite sin_0 in Eu. specialize (S2 u ltac:(lra)).
    assert (0 <= u / 3 * (sin u - u * cos u)) by (apply Rmult_le_pos; lra).
    assert (0 <= u / 3 * (sin u - u * cos u) * (y - 0)) by (apply Rmult_le_pos; lra). lra. }
  assert (0 <= M * (e * sin y)) by (apply Rmult_le_pos; [lra|apply Rmult_le_pos; lra]).
  assert (K : 0 <= 3 * (1 - e * cos y) ^ 2 - 4 * (y - e * sin y) * (e * sin y)); [|nra].
  set (s := sin y) in *. set (c := cos y) in *.
  assert (A : 0 < 3 * c ^ 2 + 4 * s ^ 2) by nra.
  apply Rmult_le_reg_l with (4 * (3 * c ^ 2 + 4 * s ^ 2)); [lra|]. rewrite Rmult_0_r.
  replace (4 * (3 * c ^ 2 + 4 * s ^ 2) * (3 * (1 - e * c) ^ 2 - 4 * (y - e * s) * (e * s)))
    with ((2 * e * (3 * c ^ 2 + 4 * s ^ 2) - (6 * c + 4 * s * y)) ^ 2 + 16 * s * (3 * ((1 - y ^ 2 / 3) * s - y * c))) by field.
  assert (0 <= s * (3 * ((1 - y ^ 2 / 3) * s - y * c))) by (apply Rmult_le_pos; lra).
  pose proof (pow2_ge_0 (2 * e * (3 * c ^ 2 + 4 * s ^ 2) - (6 * c + 4 * s * y))). lra.
Qed.

Local Lemma abs_inv a b : Rabs a <= b -> - b <= a <= b.
Proof. intro H. unfold Rabs in H. destruct (Rcase_abs a); lra. Qed.

Section Bound.
  Variables (e M E dM de : R).
  Hypothesis He : 0 <= e <= 249 / 250.
  Hypothesis HM : 0 <= M <= PI.
  Hypothesis Hroot : kepler_equ_elps E e M = 0.
  Let D : R := Rabs dM + Rabs de.
  Let q : R := 1 - e.
  Let He1 : 0 <= e < 1. Proof using He. lra. Qed.
  Let x := ex e M.
  Let k := ek e M dM de.
  Let f (t : R) : R := kepler_equ_elps t e M.
  Let d (t : R) : R := dE t e.

  Lemma D_pos : 0 <= D. Proof using. unfold D. pose proof (Rabs_pos dM). pose proof (Rabs_pos de). lra. Qed.
  Lemma q_pos : 1 / 250 <= q <= 1. Proof using He. unfold q. lra. Qed.
  Lemma Dq : D <= D / q.
  Proof using He. pose proof D_pos. pose proof q_pos. unfold Rdiv. rewrite <- (Rmult_1_r D) at 1. apply Rmult_le_compat_l; [assumption|]. rewrite <- Rinv_1. apply Rinv_le_contravar; lra. Qed.
  Lemma over_d t a : 0 <= a -> a / d t <= a / q.
  Proof using He. intro A. pose proof (dE_low t e He1) as B. fold (d t) q in B. pose proof q_pos. unfold Rdiv. apply Rmult_le_compat_l; [assumption|]. apply Rinv_le_contravar; lra. Qed.
  Lemma newton_f t : t - elps_newton M e t = f t / d t.
  Proof using. rewrite elps_newton_R. unfold f, d. ring. Qed.
  Lemma num_D t : Rabs (dM + de * sin t) <= D.
  Proof using.
    unfold D. apply Rle_trans with (1 := Rabs_triang _ _). rewrite Rabs_mult. pose proof (SIN_bound t).
    assert (Rabs (sin t) <= 1) by (apply Rabs_le; lra). pose proof (Rabs_pos de). nra.
  Qed.
  Lemma step_size t y : Rabs (estep e M dM de t y) <= D / q + Rabs (f t * (e * sin t) / d t ^ 2) * Rabs y + Rabs (f t / d t) * (D / q).
  Proof using He.
    pose proof (dE_pos t e He1) as P. fold (d t) in P. pose proof q_pos as Q.
    replace (estep e M dM de t y) with ((dM + de * sin t) / d t + f t * (e * sin t) / d t ^ 2 * y + - (f t / d t * (de * cos t / d t))) by (unfold estep, f, d in *; field; lra).
    apply Rle_trans with (1 := Rabs_triang _ _). apply Rplus_le_compat; [apply Rle_trans with (1 := Rabs_triang _ _); apply Rplus_le_compat|].
    - unfold Rdiv at 1. rewrite Rabs_mult, Rabs_inv, (Rabs_pos_eq (d t)) by lra. fold (Rdiv (Rabs (dM + de * sin t)) (d t)).
      apply Rle_trans with (D / d t); [apply Rmult_le_compat_r; [apply Rlt_le, Rinv_0_lt_compat, P|apply num_D]|apply over_d, D_pos].
    - rewrite Rabs_mult. lra.
    - rewrite Rabs_Ropp, Rabs_mult. apply Rmult_le_compat_l; [apply Rabs_pos|]. unfold Rdiv at 1. rewrite Rabs_mult, Rabs_inv, (Rabs_pos_eq (d t)) by lra.
      fold (Rdiv (Rabs (de * cos t)) (d t)). apply Rle_trans with (Rabs (de * cos t) / q); [apply over_d, Rabs_pos|].
      apply Rmult_le_compat_r; [apply Rlt_le, Rinv_0_lt_compat; lra|]. rewrite Rabs_mult. pose proof (COS_bound t).
      assert (Rabs (cos t) <= 1) by (apply Rabs_le; lra). unfold D. pose proof (Rabs_pos de). pose proof (Rabs_pos dM). pose proof (Rabs_pos (cos t)). nra.
  Qed.
  Lemma above_slope t : E <= t <= PI -> Rabs (f t * (e * sin t) / d t ^ 2) <= 3 / 4.
  Proof using He HM Hroot.
    intros T. pose proof (root_in e M E He1 HM Hroot) as R0. pose proof (dE_pos t e He1) as P. fold (d t) in P.
    pose proof (elps_log34 M e t ltac:(lra) ltac:(lra) ltac:(lra)) as L. fold (f t) (d t) in L.
    pose proof (residual_nonneg e M E He1 Hroot t ltac:(lra)) as F. fold (f t) in F.
    pose proof (sin_ge_0 t ltac:(lra) ltac:(lra)) as S.
    assert (D2 : 0 < d t ^ 2) by (apply pow_lt; exact P).
    rewrite Rabs_pos_eq by (apply Rmult_le_pos; [apply Rmult_le_pos; [exact F|apply Rmult_le_pos; lra]|apply Rlt_le, Rinv_0_lt_compat, D2]).
    apply Rmult_le_reg_r with (d t ^ 2); [exact D2|]. unfold Rdiv at 1. rewrite Rmult_assoc, Rinv_l by lra. lra.
  Qed.
  Lemma x_facts : 0 <= x 0 <= PI /\ E <= x 1 <= 4 /\ (x 1 <= PI \/ M <= 1 / 4 /\ PI < x 1) /\ forall j, (2 <= j)%nat -> E <= x j <= PI.
  Proof using He HM Hroot.
    pose proof (root_in e M E He1 HM Hroot) as R0. destruct (start_ok e M He HM) as [A B]. pose proof PI_4 as P4.
    fold (ex e M 0) in A. change (elps_newton M e (elps_guess M e)) with (x 1) in B.
    split; [exact A|]. split; [split; [apply newton_above; auto; lra|]; lra|]. split.
    - destruct (Rle_dec (x 1) PI) as [Q|Q]; [left; exact Q|right]. destruct B as [B|[B1 B2]]; [lra|].
      destruct (small_root e M He HM E Hroot B1) as [C1 C2]. split; lra.
    - pose proof (second_in e M E He HM Hroot) as S. intros j Hj.
      assert (J : x j = iterate (elps_newton M e) (j - 2) (x 2)).
      { unfold x, ex. replace j with ((j - 2) + 2)%nat at 1 by lia. exact (iterate_add (elps_newton M e) (j - 2) 2 (elps_guess M e)). }
      rewrite J. apply (inside_iter e M E He1 HM Hroot). exact S.
  Qed.
  Lemma first_slope : PI < x 1 -> M <= 1 / 4 -> Rabs (f (x 1) * (e * sin (x 1)) / d (x 1) ^ 2) <= 2 /\ 1 <= f (x 1) / d (x 1).
  Proof using He HM Hroot.
    intros L HM4. destruct x_facts as [_ [[_ U] _]]. set (y := x 1) in *. pose proof PI_low as P.
    set (u := y - PI). assert (Hu : 0 < u <= 86 / 100) by (unfold u; lra). assert (Y : y = u + PI) by (unfold u; ring).
    assert (Sy : sin y = - sin u) by (rewrite Y; apply neg_sin). assert (Cy : cos y = - cos u) by (rewrite Y; apply neg_cos).
    pose proof (sin_ge_0 u ltac:(lra) ltac:(lra)) as S0. pose proof (sin_le_id u ltac:(lra)) as S1. pose proof (cos_ge_quad u ltac:(lra)) as C0. pose proof (COS_bound u) as [_ C1].
    assert (Fy : f y = y + e * sin u - M) by (unfold f; rewrite kepler_equ_elps_R, Sy; ring).
    assert (Dy : d y = 1 + e * cos u) by (unfold d; rewrite dE_R, Cy; ring).
    assert (Cu : 63 / 100 <= cos u) by nra. assert (Es : 0 <= e * sin u <= 86 / 100 * e) by nra.
    assert (Dl : 1 + 63 / 100 * e <= d y <= 2) by (rewrite Dy; nra).
    assert (Fb : 28 / 10 <= f y <= 486 / 100) by (rewrite Fy; lra).
    split.
    - rewrite Sy. replace (f y * (e * - sin u) / d y ^ 2) with (- (f y * (e * sin u) / d y ^ 2)) by (field; lra). rewrite Rabs_Ropp.
      assert (D2 : 0 < d y ^ 2) by (apply pow_lt; lra).
      rewrite Rabs_pos_eq by (apply Rmult_le_pos; [apply Rmult_le_pos; lra|apply Rlt_le, Rinv_0_lt_compat, D2]).
      apply Rmult_le_reg_r with (d y ^ 2); [exact D2|]. unfold Rdiv at 1. rewrite Rmult_assoc, Rinv_l by lra. rewrite Rmult_1_r.
      assert (f y * (e * sin u) <= 486 / 100 * (86 / 100 * e)) by (apply Rmult_le_compat; lra).
      assert ((1 + 63 / 100 * e) ^ 2 <= d y ^ 2) by (apply pow_incr; lra). nra.
    - apply Rmult_le_reg_r with (d y); [lra|]. unfold Rdiv. rewrite Rmult_assoc, Rinv_l by lra. lra.
  Qed.

  Lemma k0_size : Rabs (k 0) <= 3 * D.
  Proof using He.
    change (k 0) with (ek0 e M dM de). unfold ek0, D. apply Rle_trans with (1 := Rabs_triang _ _). rewrite !Rabs_mult.
    pose proof (COS_bound M). pose proof (COS_bound (2 * M)). pose proof (SIN_bound M). pose proof (SIN_bound (2 * M)).
    assert (e2 : 0 <= e ^ 2 <= 1) by nra.
    assert (Rabs (1 + e * cos M + e ^ 2 * cos (2 * M)) <= 3) by (apply Rabs_le; nra).
    assert (Rabs (sin M + e * sin (2 * M)) <= 3) by (apply Rabs_le; nra).
    pose proof (Rabs_pos dM). pose proof (Rabs_pos de). nra.
  Qed.
  Lemma k1_size : Rabs (k 1) <= 17 * (D / q).
  Proof using He HM Hroot.
    change (k 1) with (estep e M dM de (x 0) (k 0)). apply Rle_trans with (1 := step_size (x 0) (k 0)).
    destruct x_facts as [A [B _]]. pose proof (root_in e M E He1 HM Hroot) as R0. pose proof q_pos as Q. pose proof D_pos as D0. pose proof PI_4 as P4.
    assert (Nf : Rabs (f (x 0) / d (x 0)) <= 4) by (rewrite <- newton_f; change (elps_newton M e (x 0)) with (x 1); apply Rabs_le; lra).
    pose proof (dE_pos (x 0) e He1) as P. fold (d (x 0)) in P.
    assert (Ns : Rabs (f (x 0) * (e * sin (x 0)) / d (x 0) ^ 2) <= 4 / q).
    { replace (f (x 0) * (e * sin (x 0)) / d (x 0) ^ 2) with (f (x 0) / d (x 0) * (e * sin (x 0) / d (x 0))) by (field; lra). rewrite Rabs_mult.
      unfold Rdiv at 3. apply Rmult_le_compat; try apply Rabs_pos; [exact Nf|]. unfold Rdiv. rewrite Rabs_mult, Rabs_inv, (Rabs_pos_eq (d (x 0))) by lra.
      apply Rle_trans with (1 * / d (x 0)).
      - apply Rmult_le_compat_r; [apply Rlt_le, Rinv_0_lt_compat, P|]. pose proof (SIN_bound (x 0)). apply Rabs_le. nra.
      - pose proof (over_d (x 0) 1 ltac:(lra)) as O. unfold Rdiv in O. lra. }
    assert (D3 : 4 / q * (3 * D) = 12 * (D / q)) by (unfold Rdiv; ring).
    assert (Rabs (f (x 0) * (e * sin (x 0)) / d (x 0) ^ 2) * Rabs (k 0) <= 4 / q * (3 * D)) by (apply Rmult_le_compat; try apply Rabs_pos; [exact Ns|apply k0_size]).
    assert (0 <= D / q) by (apply Rmult_le_pos; [exact D0|apply Rlt_le, Rinv_0_lt_compat; lra]).
    assert (Rabs (f (x 0) / d (x 0)) * (D / q) <= 4 * (D / q)) by (apply Rmult_le_compat_r; assumption). lra.
  Qed.
  Lemma k_size j : Rabs (k j) <= 39 * (D / q).
  Proof using He HM Hroot.
    pose proof q_pos as Q. pose proof D_pos as D0. pose proof Dq as Dq0. destruct x_facts as [A [B [C F]]]. pose proof (root_in e M E He1 HM Hroot) as R0. pose proof PI_4 as P4.
    assert (H0 : 0 <= D / q) by lra.
    destruct j as [|[|j]]; [pose proof k0_size; lra|pose proof k1_size; lra|].
    induction j as [|j IH].
    - change (k 2) with (estep e M dM de (x 1) (k 1)). apply Rle_trans with (1 := step_size (x 1) (k 1)). pose proof (F 2%nat ltac:(lia)) as X2.
      assert (Nf : Rabs (f (x 1) / d (x 1)) <= 4) by (rewrite <- newton_f; change (elps_newton M e (x 1)) with (x 2); apply Rabs_le; lra).
      assert (Ns : Rabs (f (x 1) * (e * sin (x 1)) / d (x 1) ^ 2) <= 2).
      { destruct C as [C|[C1 C2]]; [pose proof (above_slope (x 1) ltac:(lra)); lra|apply (first_slope C2 C1)]. }
      assert (Rabs (f (x 1) * (e * sin (x 1)) / d (x 1) ^ 2) * Rabs (k 1) <= 2 * (17 * (D / q))) by (apply Rmult_le_compat; try apply Rabs_pos; [exact Ns|apply k1_size]).
      assert (Rabs (f (x 1) / d (x 1)) * (D / q) <= 4 * (D / q)) by (apply Rmult_le_compat_r; assumption). lra.
    - set (i := S (S j)) in *. change (k (S i)) with (estep e M dM de (x i) (k i)). apply Rle_trans with (1 := step_size (x i) (k i)).
      pose proof (F i ltac:(lia)) as X2. pose proof (F (S i) ltac:(lia)) as X3.
      assert (Nf : Rabs (f (x i) / d (x i)) <= 4) by (rewrite <- newton_f; change (elps_newton M e (x i)) with (x (S i)); apply Rabs_le; lra).
      pose proof (above_slope (x i) X2) as Ns.
      assert (Rabs (f (x i) * (e * sin (x i)) / d (x i) ^ 2) * Rabs (k i) <= 3 / 4 * (39 * (D / q))) by (apply Rmult_le_compat; try apply Rabs_pos; [exact Ns|exact IH]).
      assert (Rabs (f (x i) / d (x i)) * (D / q) <= 4 * (D / q)) by (apply Rmult_le_compat_r; assumption). lra.
  Qed.

  Lemma x_S j : x (S j) = elps_newton M e (x j).
  Proof using. reflexivity. Qed.
  Lemma exp_15_big : 2900000 <= exp 15.
  Proof using.
    assert (A : 65 / 64 <= exp (1 / 64)) by (pose proof (exp_ineq1_le (1 / 64)); lra).
    assert (B : exp 15 = exp (1 / 64) ^ 960).
    { rewrite <- Rpower_pow by apply exp_pos. unfold Rpower. rewrite ln_exp. f_equal. rewrite INR_IZR_INZ. simpl Z.of_nat. lra. }
    assert (C : 2697 / 1000 <= (65 / 64) ^ 64) by (simpl; lra).
    assert (F : (2697 / 1000) ^ 15 <= (65 / 64) ^ 960).
    { replace 960%nat with (64 * 15)%nat by reflexivity. rewrite pow_mult. apply pow_incr. lra. }
    assert (G : (65 / 64) ^ 960 <= exp (1 / 64) ^ 960) by (apply pow_incr; lra).
    assert (H : 2900000 <= (2697 / 1000) ^ 15) by (simpl; lra). rewrite B. lra.
  Qed.
  Lemma quad_bound a b t : 0 <= a -> E <= t <= E + a -> 249 / 2 * a ^ 2 <= b -> elps_newton M e t <= E + b.
  Proof using He HM Hroot.
    intros A T B. pose proof (root_in e M E He1 HM Hroot) as R0. pose proof (newton_quadratic e M E He1 Hroot t) as N. apply abs_inv in N.
    assert (G : e / (2 * (1 - e)) <= 249 / 2).
    { apply Rmult_le_reg_r with (2 * (1 - e)); [lra|]. unfold Rdiv at 1. rewrite Rmult_assoc, Rinv_l by lra. lra. }
    assert ((t - E) ^ 2 <= a ^ 2) by (apply pow_incr; lra). pose proof (pow2_ge_0 (t - E)). nra.
  Qed.
  Lemma late_close : x 19 <= E + / 1000000.
  Proof using He HM Hroot.
    pose proof (root_in e M E He1 HM Hroot) as R0. destruct x_facts as [_ [_ [_ F]]]. pose proof (F 2%nat ltac:(lia)) as X2.
    destruct (inside_iter e M E He1 HM Hroot (x 2) 15 X2) as [I [P C]].
    assert (Q : iterate (elps_newton M e) 15 (x 2) = x 17) by exact (eq_sym (iterate_add (elps_newton M e) 15 2 (elps_guess M e))).
    rewrite Q in I, P, C. replace (INR 15) with 15 in C by (rewrite INR_IZR_INZ; reflexivity).
    assert (V : kepler_equ_elps (x 2) e M <= 31416 / 10000).
    { rewrite kepler_equ_elps_R. pose proof (sin_ge_0 (x 2) ltac:(lra) ltac:(lra)). pose proof PI_tight. assert (0 <= e * sin (x 2)) by (apply Rmult_le_pos; lra). lra. }
    pose proof exp_15_big as X15. set (ff := kepler_equ_elps (x 17) e M) in *. set (E15 := exp 15) in *. clearbody E15.
    assert (Fb : ff <= 31416 / 10000 / 2900000) by (apply Rmult_le_reg_r with 2900000; [lra|]; unfold Rdiv; rewrite Rmult_assoc, Rinv_l by lra; nra).
    assert (X17 : x 17 <= E + 82 / 100000).
    { destruct (Rle_dec (x 17) E) as [L|L]; [lra|]. pose proof (residual_third e M E He1 ltac:(lra) Hroot (x 17) ltac:(lra) ltac:(lra) ltac:(lra)) as T. fold ff in T.
      pose proof (dE_low (x 17) e He1) as [DL _]. nra. }
    pose proof (F 18%nat ltac:(lia)) as Y18. pose proof (F 19%nat ltac:(lia)) as Y19.
    pose proof (x_S 17) as E18. pose proof (x_S 18) as E19.
    clear F C P V Q X2 Fb. clearbody ff. revert I X17 Y18 Y19 E18 E19. generalize (x 17) (x 18) (x 19). intros x17 x18 x19 I X17 Y18 Y19 E18 E19.
    pose proof (quad_bound (82 / 100000) (84 / 1000000) x17 ltac:(lra) ltac:(lra) ltac:(lra)) as X18. rewrite <- E18 in X18.
    pose proof (quad_bound (84 / 1000000) (/ 1000000) x18 ltac:(lra) ltac:(lra) ltac:(lra)) as X19. rewrite <- E19 in X19. exact X19.
  Qed.
  (** a step that is small brings the iterate close *)
  Lemma small_step m : Rabs (x (S m) - x m) <= / 1000000 -> Rabs (x m - E) <= 3 / 1000000.
  Proof using He HM Hroot.
    intro Hs. pose proof (root_in e M E He1 HM Hroot) as R0. destruct x_facts as [X0 [X1 [C F]]]. apply abs_inv in Hs.
    assert (T : E <= x m -> x m <= PI -> Rabs (x m - E) <= 3 / 1000000).
    { intros L U. destruct (Req_dec (x m) 0) as [Z|Z]; [rewrite Rabs_pos_eq; lra|].
      pose proof (residual_third e M E He1 ltac:(lra) Hroot (x m) L ltac:(lra) U) as T. pose proof (dE_pos (x m) e He1) as P.
      pose proof (newton_f (x m)) as N. change (elps_newton M e (x m)) with (x (S m)) in N. unfold f, d in N.
      assert ((x m - E) / 3 <= x m - x (S m)).
      { rewrite N. apply Rmult_le_reg_r with (dE (x m) e); [exact P|]. unfold Rdiv at 2. rewrite Rmult_assoc, Rinv_l by lra. lra. }
      rewrite Rabs_pos_eq; lra. }
    destruct m as [|[|m]].
    - destruct (Rle_dec E (x 0)) as [L|L]; [apply T; lra|]. rewrite Rabs_left by lra. lra.
    - destruct C as [C|[C1 C2]]; [apply T; lra|]. exfalso. destruct (first_slope C2 C1) as [_ G]. rewrite <- newton_f in G. change (elps_newton M e (x 1)) with (x 2) in G. lra.
    - pose proof (F (S (S m)) ltac:(lia)). apply T; lra.
  Qed.
  Lemma last_step m : (m <= 19)%nat -> Rabs (x (S m) - x m) <= / 1000000 \/ m = 19%nat -> Rabs (x (S m) - x m) <= / 1000000.
  Proof using He HM Hroot.
    intros L [S| ->]; [exact S|]. destruct x_facts as [_ [_ [_ F]]]. pose proof (F 19%nat ltac:(lia)) as A. pose proof (F 20%nat ltac:(lia)) as B. pose proof late_close as C.
    pose proof (x_S 19) as E20. clear F L. revert A B C E20. generalize (x 19) (x 20). intros x19 x20 A B C E20.
    pose proof (newton_f x19) as N. rewrite <- E20 in N. pose proof (residual_nonneg e M E He1 Hroot x19 ltac:(lra)) as G.
    assert (0 <= f x19 / d x19) by (apply Rmult_le_pos; [exact G|apply Rlt_le, Rinv_0_lt_compat, dE_pos, He1]).
    rewrite Rabs_left1; lra.
  Qed.
  Lemma slope_diff t : Rabs (eslope e dM de t - eslope e dM de E) <= 2 * D * Rabs (t - E) / q ^ 2.
  Proof using He.
    pose proof (dE_pos t e He1) as P. pose proof (dE_pos E e He1) as PE. fold (d t) in P. fold (d E) in PE. pose proof q_pos as Q.
    assert (Sd : Rabs (sin t - sin E) <= Rabs (t - E)) by apply sin_lip.
    assert (Cd : Rabs (cos t - cos E) <= Rabs (t - E)) by apply cos_lip.
    assert (Sx : Rabs (sin (t - E)) <= Rabs (t - E)). { pose proof (sin_lip (t - E) 0) as L. rewrite sin_0, !Rminus_0_r in L. exact L. }
    replace (eslope e dM de t - eslope e dM de E) with ((dM * (e * (cos t - cos E)) + de * (sin t - sin E - e * sin (t - E))) * / (d t * d E)).
    2:{ unfold eslope. fold (d t) (d E). rewrite sin_minus. apply Rmult_eq_reg_r with (d t * d E); [|nra]. rewrite Rmult_assoc, Rinv_l by nra.
        field_simplify; [|lra]. unfold d. rewrite !dE_R. ring. }
    rewrite Rabs_mult. pose proof (dE_low t e He1) as LT. pose proof (dE_low E e He1) as LE. fold (d t) q in LT. fold (d E) q in LE.
    unfold Rdiv. apply Rmult_le_compat; try apply Rabs_pos.
    - apply Rle_trans with (1 := Rabs_triang _ _). rewrite !Rabs_mult. unfold D.
      assert (A1 : Rabs (sin t - sin E - e * sin (t - E)) <= 2 * Rabs (t - E)).
      { unfold Rminus at 1. apply Rle_trans with (1 := Rabs_triang _ _). rewrite Rabs_Ropp, Rabs_mult, (Rabs_pos_eq e) by lra. pose proof (Rabs_pos (sin (t - E))). nra. }
      assert (A2 : Rabs e * Rabs (cos t - cos E) <= 2 * Rabs (t - E)) by (rewrite (Rabs_pos_eq e) by lra; pose proof (Rabs_pos (cos t - cos E)); nra).
      pose proof (Rabs_pos dM). pose proof (Rabs_pos de). nra.
    - rewrite Rabs_inv, Rabs_pos_eq by nra. apply Rinv_le_contravar; [apply pow_lt; lra|]. simpl. rewrite Rmult_1_r. apply Rmult_le_compat; lra.
  Qed.
  Lemma tangent_err m : (m <= 19)%nat -> Rabs (x (S m) - x m) <= / 1000000 \/ m = 19%nat ->
    Rabs (k (S m) - eslope e dM de E) <= 46 / 1000000 * D / q ^ 2.
  Proof using He HM Hroot.
    intros L S. pose proof (last_step m L S) as St. pose proof (small_step m St) as Sm. pose proof q_pos as Q. pose proof D_pos as D0.
    pose proof (slope_diff (x m)) as SD. pose proof (dE_pos (x m) e He1) as P. fold (d (x m)) in P.
    replace (k (Datatypes.S m) - eslope e dM de E) with (f (x m) / d (x m) * ((e * sin (x m) * k m - de * cos (x m)) / d (x m)) + (eslope e dM de (x m) - eslope e dM de E)).
    2:{ change (k (Datatypes.S m)) with (estep e M dM de (x m) (k m)). unfold estep, eslope, f, d in *. field. pose proof (dE_pos E e He1). lra. }
    apply Rle_trans with (1 := Rabs_triang _ _).
    assert (B : 2 * D * Rabs (x m - E) / q ^ 2 <= 6 / 1000000 * D / q ^ 2).
    { unfold Rdiv. apply Rmult_le_compat_r; [apply Rlt_le, Rinv_0_lt_compat, pow_lt; lra|]. nra. }
    assert (A : Rabs (f (x m) / d (x m) * ((e * sin (x m) * k m - de * cos (x m)) / d (x m))) <= 40 / 1000000 * D / q ^ 2).
    { rewrite Rabs_mult. rewrite <- newton_f. change (elps_newton M e (x m)) with (x (Datatypes.S m)). rewrite Rabs_minus_sym in St.
      apply Rle_trans with (/ 1000000 * (40 * (D / q) / q)); [|right; field; lra].
      apply Rmult_le_compat; try apply Rabs_pos; [exact St|]. unfold Rdiv at 1. rewrite Rabs_mult, Rabs_inv, (Rabs_pos_eq (d (x m))) by lra.
      fold (Rdiv (Rabs (e * sin (x m) * k m - de * cos (x m))) (d (x m))). apply Rle_trans with (1 := over_d (x m) _ (Rabs_pos _)).
      unfold Rdiv at 1 2. apply Rmult_le_compat_r; [apply Rlt_le, Rinv_0_lt_compat; lra|].
      unfold Rminus. apply Rle_trans with (1 := Rabs_triang _ _). rewrite Rabs_Ropp, !Rabs_mult, (Rabs_pos_eq e) by lra.
      pose proof (SIN_bound (x m)). pose proof (COS_bound (x m)). assert (S1 : Rabs (sin (x m)) <= 1) by (apply Rabs_le; lra). assert (C1 : Rabs (cos (x m)) <= 1) by (apply Rabs_le; lra).
      pose proof (k_size m) as K. pose proof Dq as DQ. pose proof (Rabs_pos (sin (x m))). pose proof (Rabs_pos (k m)). pose proof (Rabs_pos de). pose proof (Rabs_pos dM). pose proof (Rabs_pos (cos (x m))).
      assert (ES : e * Rabs (sin (x m)) <= 1) by nra.
      assert (e * Rabs (sin (x m)) * Rabs (k m) <= Rabs (k m)) by nra.
      assert (Rabs de * Rabs (cos (x m)) <= D) by (unfold D; nra). lra. }
    replace (46 / 1000000 * D / q ^ 2) with (40 / 1000000 * D / q ^ 2 + 6 / 1000000 * D / q ^ 2) by (field; lra). lra.
  Qed.
End Bound.

(** ** All mean anomalies *)
Section Sym.
  Variables (e dM de c sg : R).
  Hypothesis Hsg : sg = 1 \/ sg = -1.
  Variables (M M' : R).
  Hypothesis HM : M' = sg * M + c.
  Hypothesis Hsin : forall t, sin (sg * t + c) = sg * sin t.
  Hypothesis Hcos : forall t, cos (sg * t + c) = cos t.
  Lemma sq : sg * sg = 1. Proof using Hsg. clear - Hsg. destruct Hsg as [-> | ->]; lra. Qed.
  Lemma s2 : sin (2 * M') = sg * sin (2 * M).
  Proof using Hsin Hcos HM. rewrite !sin_2a, HM, Hsin, Hcos. ring. Qed.
  Lemma co2 : cos (2 * M') = cos (2 * M).
  Proof using Hsin Hcos HM Hsg. rewrite !cos_2a, HM, Hsin, Hcos. transitivity (cos M * cos M - sg * sg * (sin M * sin M)); [ring|rewrite sq; ring]. Qed.
  Lemma dE_sym t : dE (sg * t + c) e = dE t e. Proof using Hcos. now rewrite !dE_R, Hcos. Qed.
  Lemma equ_sym t : kepler_equ_elps (sg * t + c) e M' = sg * kepler_equ_elps t e M.
  Proof using Hsin HM. rewrite !kepler_equ_elps_R, Hsin, HM. ring. Qed.
  Lemma ex_sym j : ex e M' j = sg * ex e M j + c.
  Proof using Hsin Hcos HM Hsg.
    unfold ex. apply (iterate_conj sg c M e M' e).
    - rewrite !elps_guess_R, s2. rewrite HM at 2. rewrite Hsin, HM. field.
    - intro t. rewrite !elps_newton_R, equ_sym, dE_sym. unfold Rdiv. ring.
  Qed.
  Lemma estep_sym t y : estep e M' dM de (sg * t + c) y = sg * estep e M (sg * dM) de t (sg * y).
  Proof using Hsin Hcos HM Hsg.
    unfold estep. rewrite equ_sym, dE_sym, Hsin, Hcos. set (d := dE t e). set (ff := kepler_equ_elps t e M).
    unfold Rdiv. transitivity (dM * / d + de * (sg * sin t) * / d + sg * ff * (e * (sg * sin t) * y - de * cos t) * / d ^ 2); [ring|].
    transitivity ((sg * sg) * (dM * / d) + de * (sg * sin t) * / d + sg * ff * (e * (sg * sin t) * y - de * cos t) * / d ^ 2); [rewrite sq; ring|ring].
  Qed.
  Lemma ek_sym j : ek e M' dM de j = sg * ek e M (sg * dM) de j.
  Proof using Hsin Hcos HM Hsg.
    induction j as [|j IH].
    - change (ek0 e M' dM de = sg * ek0 e M (sg * dM) de). unfold ek0. rewrite s2, co2. rewrite !HM, Hsin, Hcos.
      transitivity ((sg * sg) * dM * (1 + e * cos M + e ^ 2 * cos (2 * M)) + de * (sg * sin M + e * (sg * sin (2 * M)))); [rewrite sq; ring|ring].
    - change (estep e M' dM de (ex e M' j) (ek e M' dM de j) = sg * estep e M (sg * dM) de (ex e M j) (ek e M (sg * dM) de j)).
      rewrite ex_sym, IH, estep_sym. f_equal. f_equal. rewrite <- Rmult_assoc, sq. ring.
  Qed.
  Lemma eslope_sym t : eslope e dM de (sg * t + c) = sg * eslope e (sg * dM) de t.
  Proof using Hsin Hcos Hsg.
    unfold eslope. rewrite dE_sym, Hsin. set (d := dE t e). unfold Rdiv. transitivity ((sg * sg) * (dM * / d) + de * (sg * sin t) * / d); [rewrite sq; ring|ring].
  Qed.
  Lemma sg_abs a : Rabs (sg * a) = Rabs a.
  Proof using Hsg. clear - Hsg. rewrite Rabs_mult. destruct Hsg as [-> | ->]; [rewrite Rabs_R1|rewrite Rabs_m1]; ring. Qed.
End Sym.

Definition good (e M : R) : Prop := forall dM de E m, kepler_equ_elps E e M = 0 -> (m <= 19)%nat -> Rabs (ex e M (S m) - ex e M m) <= / 1000000 \/ m = 19%nat ->
  Rabs (ek e M dM de (S m) - eslope e dM de E) <= 46 / 1000000 * (Rabs dM + Rabs de) / (1 - e) ^ 2.
Lemma good_sym e M M' c sg : sg = 1 \/ sg = -1 -> M' = sg * M + c -> (forall t, sin (sg * t + c) = sg * sin t) -> (forall t, cos (sg * t + c) = cos t) ->
  good e M -> good e M'.
Proof.
  intros Hsg HM Hs Hc G dM de E m HE Hm Hst. assert (sq : sg * sg = 1) by (destruct Hsg as [-> | ->]; lra).
  assert (EE : E = sg * (sg * (E - c)) + c) by (rewrite <- Rmult_assoc, sq; ring). set (E0 := sg * (E - c)) in *.
  rewrite EE in HE |- *. rewrite (equ_sym e c sg M M' HM Hs) in HE.
  assert (HE0 : kepler_equ_elps E0 e M = 0) by (destruct Hsg as [-> | ->]; lra).
  rewrite !(ex_sym e c sg Hsg M M' HM Hs Hc) in Hst. rewrite (ek_sym e dM de c sg Hsg M M' HM Hs Hc), (eslope_sym e dM de c sg Hsg Hs Hc).
  replace (sg * ex e M (S m) + c - (sg * ex e M m + c)) with (sg * (ex e M (S m) - ex e M m)) in Hst by ring. rewrite (sg_abs sg Hsg) in Hst.
  rewrite <- Rmult_minus_distr_l, (sg_abs sg Hsg). pose proof (G (sg * dM) de E0 m HE0 Hm Hst) as B. rewrite (sg_abs sg Hsg) in B. exact B.
Qed.
Lemma good_all e M : 0 <= e <= 249 / 250 -> good e M.
Proof.
  intro He. destruct (mod_2PI M) as [k Hk]. set (M1 := M + 2 * PI * IZR k) in *.
  assert (G : forall M, 0 <= M <= PI -> good e M) by (intros M2 H2 dM de E m HE Hm Hst; exact (tangent_err e M2 E dM de He H2 HE m Hm Hst)).
  assert (G1 : good e M1).
  { destruct (Rle_dec 0 M1) as [P|P]; [apply G; lra|]. apply (good_sym e (- M1) M1 0 (-1)); [now right|ring| | |apply G; lra]; intro t; rewrite Rplus_0_r; replace (-1 * t) with (- t) by ring.
    - rewrite sin_neg. ring.
    - apply cos_neg. }
  apply (good_sym e M1 M (2 * PI * IZR (- k)) 1); [now left|unfold M1; rewrite opp_IZR; ring| | |exact G1]; intro t; rewrite Rmult_1_l.
  - rewrite sin_2kPI. ring.
  - apply cos_2kPI.
Qed.

(** ** The solver on dual numbers *)
Lemma guess_D (m a : dual) : @elps_guess _ Num_D m a = mkD (elps_guess (val m) (val a)) (ek0 (val a) (val m) (tang m) (tang a)).
Proof. unfold elps_guess, ek0. cbn. apply D_eq; [reflexivity|]. rewrite !sin_2a, !cos_2a. pose proof (sin2_cos2 (val m)) as Q. unfold Rsqr in Q. field_simplify. nra. Qed.
Lemma newton_elps_D (m a X : dual) : 0 <= val a < 1 ->
  @elps_newton _ Num_D m a X = mkD (elps_newton (val m) (val a) (val X)) (estep (val a) (val m) (tang m) (tang a) (val X) (tang X)).
Proof.
  intro He. pose proof (dE_pos (val X) (val a) He) as P. unfold estep. rewrite dE_R, kepler_equ_elps_R in *. unfold elps_newton, dE. cbn. apply D_eq; [reflexivity|].
  field. lra.
Qed.
Lemma iterate_D (m a : dual) j : 0 <= val a < 1 ->
  iterate (@elps_newton _ Num_D m a) j (@elps_guess _ Num_D m a) = mkD (ex (val a) (val m) j) (ek (val a) (val m) (tang m) (tang a) j).
Proof.
  intro He. induction j as [|j IH]; [apply guess_D|]. cbn [iterate]. rewrite IH, newton_elps_D by exact He. reflexivity.
Qed.
Lemma elps_D (m a : dual) : 0 <= val a < 1 -> exists n, (n <= 19)%nat /\
  @solve_kepler_elps _ Num_D m a (@default_tol _ Num_D) elps_max_iter = mkD (ex (val a) (val m) (S n)) (ek (val a) (val m) (tang m) (tang a) (S n)) /\
  solve_kepler_elps (val m) (val a) default_tol elps_max_iter = ex (val a) (val m) (S n) /\
  (Rabs (ex (val a) (val m) (S n) - ex (val a) (val m) n) <= / 1000000 \/ n = 19%nat).
Proof.
  intro He. destruct (@elps_char _ Num_D m a (@default_tol _ Num_D) elps_max_iter) as [n [Hn [S1 [S2 S3]]]]. cbv zeta in *.
  change (Z.to_nat elps_max_iter) with 20%nat in *. rewrite iterate_D in S1 by exact He.
  assert (HX : forall b c, @exceeds _ Num_D b c = @exceeds R Num_R (val b) (val c)) by reflexivity.
  assert (T0 : @exceeds _ Num_D (@n_sub _ Num_D (@elps_guess _ Num_D m a) (@n_add _ Num_D (@elps_guess _ Num_D m a) (@n_mul _ Num_D (@n_Z _ Num_D 2) (@default_tol _ Num_D)))) (@default_tol _ Num_D) = true).
  { rewrite HX. apply exceeds_R. change (val (@default_tol _ Num_D)) with (@default_tol _ Num_R). cbn [val n_sub n_add n_mul n_Z Num_D konst].
    change (val (@default_tol _ Num_D)) with (@default_tol _ Num_R). rewrite default_tol_R. set (g := val _). replace (g - (g + 2 * / 1000000)) with (- (2 / 1000000)) by lra. rewrite Rabs_Ropp, Rabs_pos_eq; lra. }
  destruct n as [|n]; [exfalso; destruct S3 as [S3|S3]; [discriminate|]; cbn [iterate] in S3; rewrite T0 in S3; discriminate|].
  exists n. split; [lia|]. split; [exact S1|]. split.
  - destruct (elps_char (val m) (val a) default_tol elps_max_iter) as [k [Hk [R1 [R2 R3]]]]. cbv zeta in *. change (Z.to_nat elps_max_iter) with 20%nat in *.
    assert (HJ : forall j, @exceeds _ Num_D (@n_sub _ Num_D (iterate (@elps_newton _ Num_D m a) j (@elps_guess _ Num_D m a))
         match j with O => @n_add _ Num_D (@elps_guess _ Num_D m a) (@n_mul _ Num_D (@n_Z _ Num_D 2) (@default_tol _ Num_D)) | S j' => iterate (@elps_newton _ Num_D m a) j' (@elps_guess _ Num_D m a) end) (@default_tol _ Num_D)
       = exceeds (iterate (elps_newton (val m) (val a)) j (elps_guess (val m) (val a)) -
         match j with O => @n_add R Num_R (elps_guess (val m) (val a)) (@n_mul R Num_R (@n_Z R Num_R 2) default_tol) | S j' => iterate (elps_newton (val m) (val a)) j' (elps_guess (val m) (val a)) end) default_tol).
    { intro j. rewrite HX. destruct j as [|j]; [reflexivity|]. rewrite !iterate_D by exact He. reflexivity. }
    assert (k = S n) as ->; [|exact R1]. change (@n_sub R Num_R) with Rminus in *.
    destruct (lt_eq_lt_dec k (S n)) as [[L|L]|L]; auto; exfalso.
    + specialize (S2 _ L). rewrite HJ in S2. destruct R3 as [R3|R3]; [lia|]. congruence.
    + specialize (R2 _ L). rewrite <- HJ in R2. destruct S3 as [S3|S3]; [lia|]. congruence.
  - destruct S3 as [S3|S3]; [right; lia|left]. cbn [iterate] in S3. rewrite HX in S3. apply exceeds_R_false in S3.
    change (val (@default_tol _ Num_D)) with (@default_tol _ Num_R) in S3. rewrite default_tol_R in S3.
    fold (@iterate dual) in S3. change (@elps_newton _ Num_D m a (iterate (@elps_newton _ Num_D m a) n (@elps_guess _ Num_D m a))) with (iterate (@elps_newton _ Num_D m a) (S n) (@elps_guess _ Num_D m a)) in S3.
    rewrite !iterate_D in S3 by exact He. exact S3.
Qed.

(** ** The derivative of the solution of Kepler's equation *)
Lemma implicit_der (M e root : R -> R) (s dM de : R) : 0 <= e s < 1 -> is_derive M s dM -> is_derive e s de ->
  locally s (fun u => root u - e u * sin (root u) = M u) ->
  is_derive root s ((dM + de * sin (root s)) / (1 - e s * cos (root s))).
Proof.
  intros He HM Hd [d0 HR]. apply is_derive_Reals in HM. apply is_derive_Reals in Hd. apply is_derive_Reals. intros eps Heps.
  set (E := root s) in *. set (q := 1 - e s). assert (Q : 0 < q) by (unfold q; lra).
  set (K := 2 * (Rabs dM + Rabs de + 2) / q). set (W := (Rabs de + 1) * K + K * K).
  pose proof (Rabs_pos dM) as P1. pose proof (Rabs_pos de) as P2.
  assert (K0 : 0 <= K) by (apply Rmult_le_pos; [lra|apply Rlt_le, Rinv_0_lt_compat, Q]).
  assert (W0 : 0 <= W) by (unfold W; nra).
  set (eta := Rmin 1 (eps * q / 4)). assert (Eq : 0 < eps * q / 4) by (apply Rmult_lt_0_compat; [apply Rmult_lt_0_compat; assumption|lra]).
  assert (eta0 : 0 < eta) by (unfold eta; apply Rmin_pos; lra). assert (eta1 : eta <= 1) by apply Rmin_l. assert (eta2 : eta <= eps * q / 4) by apply Rmin_r.
  destruct (HM eta eta0) as [d1 H1]. destruct (Hd eta eta0) as [d2 H2].
  assert (Z3 : 0 < eps * q / 4 / (W + 1)) by (apply Rmult_lt_0_compat; [exact Eq|apply Rinv_0_lt_compat; lra]).
  assert (Z4 : 0 < q / 2 / (Rabs de + 1)) by (apply Rmult_lt_0_compat; [lra|apply Rinv_0_lt_compat; lra]).
  set (d3 := Rmin (eps * q / 4 / (W + 1)) (q / 2 / (Rabs de + 1))). assert (D3 : 0 < d3) by (apply Rmin_pos; assumption).
  set (del := Rmin d0 (Rmin d1 (Rmin d2 d3))).
  assert (Dp : 0 < del) by (unfold del; repeat apply Rmin_pos; first [apply cond_pos|assumption]).
  exists (mkposreal del Dp). intros h Hh Hl. cbn [pos] in Hl.
  assert (L0 : Rabs h < d0) by (eapply Rlt_le_trans; [exact Hl|apply Rmin_l]).
  assert (L' : Rabs h < Rmin d1 (Rmin d2 d3)) by (eapply Rlt_le_trans; [exact Hl|apply Rmin_r]).
  assert (L1 : Rabs h < d1) by (eapply Rlt_le_trans; [exact L'|apply Rmin_l]).
  assert (L'' : Rabs h < Rmin d2 d3) by (eapply Rlt_le_trans; [exact L'|apply Rmin_r]).
  assert (L2 : Rabs h < d2) by (eapply Rlt_le_trans; [exact L''|apply Rmin_l]).
  assert (L3 : Rabs h < d3) by (eapply Rlt_le_trans; [exact L''|apply Rmin_r]).
  assert (L4 : Rabs h * (W + 1) <= eps * q / 4).
  { apply Rle_trans with (eps * q / 4 / (W + 1) * (W + 1)); [|right; field; lra]. apply Rmult_le_compat_r; [lra|]. apply Rlt_le, Rlt_le_trans with (1 := L3), Rmin_l. }
  assert (L5 : Rabs h * (Rabs de + 1) <= q / 2).
  { apply Rle_trans with (q / 2 / (Rabs de + 1) * (Rabs de + 1)); [|right; field; lra]. apply Rmult_le_compat_r; [lra|]. apply Rlt_le, Rlt_le_trans with (1 := L3), Rmin_r. }
  specialize (H1 h Hh L1). specialize (H2 h Hh L2).
  assert (R0 : root s - e s * sin (root s) = M s) by (apply HR; apply ball_center). fold E in R0.
  assert (Rh : root (s + h) - e (s + h) * sin (root (s + h)) = M (s + h)).
  { apply HR. change (Rabs (s + h - s) < d0). now replace (s + h - s) with h by ring. }
  set (A := (M (s + h) - M s) / h) in *. set (B := (e (s + h) - e s) / h) in *. set (X := (root (s + h) - E) / h).
  assert (EA : M (s + h) = M s + h * A) by (unfold A; field; assumption).
  assert (EB : e (s + h) = e s + h * B) by (unfold B; field; assumption).
  assert (EX : root (s + h) = E + h * X) by (unfold X; field; assumption).
  rewrite EA, EB, EX in Rh.
  assert (Ab : Rabs A <= Rabs dM + 1) by (pose proof (Rabs_triang_inv A dM); lra).
  assert (Bb : Rabs B <= Rabs de + 1) by (pose proof (Rabs_triang_inv B de); lra).
  pose proof (Rabs_pos h) as Ph. pose proof (Rabs_pos B) as PB. pose proof (Rabs_pos X) as PX.
  assert (Eb : Rabs (e s + h * B) <= 1 - q / 2).
  { apply Rle_trans with (1 := Rabs_triang _ _). rewrite Rabs_mult, (Rabs_pos_eq (e s)) by lra. assert (Rabs h * Rabs B <= q / 2) by nra. unfold q in *. lra. }
  set (e' := e s + h * B) in *. assert (Hp : 0 < Rabs h) by (apply Rabs_pos_lt; assumption).
  assert (M1 : h * X - e' * (sin (E + h * X) - sin E) = h * (A + B * sin E)) by (unfold e' in *; lra).
  assert (SE : Rabs (sin E) <= 1) by (pose proof (SIN_bound E); apply Rabs_le; lra).
  assert (CE : Rabs (cos E) <= 1) by (pose proof (COS_bound E); apply Rabs_le; lra).
  assert (ABb : Rabs (A + B * sin E) <= Rabs dM + Rabs de + 2).
  { apply Rle_trans with (1 := Rabs_triang _ _). rewrite Rabs_mult. pose proof (Rabs_pos (sin E)). nra. }
  assert (XK : Rabs X <= K).
  { assert (T : Rabs (h * X) - Rabs (e' * (sin (E + h * X) - sin E)) <= Rabs (h * (A + B * sin E))) by (rewrite <- M1; apply Rabs_triang_inv).
    rewrite !Rabs_mult in T. pose proof (sin_lip (E + h * X) E) as SL. replace (E + h * X - E) with (h * X) in SL by ring. rewrite Rabs_mult in SL.
    assert (Rabs e' * Rabs (sin (E + h * X) - sin E) <= (1 - q / 2) * (Rabs h * Rabs X)) by (apply Rmult_le_compat; try apply Rabs_pos; assumption).
    assert (T2 : Rabs h * (q / 2 * Rabs X) <= Rabs h * (Rabs dM + Rabs de + 2)) by nra.
    apply Rmult_le_reg_l in T2; [|exact Hp]. unfold K. apply Rmult_le_reg_l with (q / 2); [lra|]. apply Rle_trans with (1 := T2). right. field. lra. }
  pose proof (sin_taylor E (h * X)) as ST. set (rr := sin (E + h * X) - sin E - h * X * cos E) in *.
  assert (dl : q <= 1 - e s * cos E) by (pose proof (COS_bound E); unfold q; nra).
  assert (ID : h * (X * (1 - e s * cos E) - (dM + de * sin E)) = h * ((A - dM) + (B - de) * sin E + h * (B * X * cos E)) + e' * rr).
  { unfold rr. transitivity (h * X - e' * (sin (E + h * X) - sin E) + e' * (sin (E + h * X) - sin E) - h * X * (e s * cos E) - h * (dM + de * sin E)); [ring|]. rewrite M1. unfold e'. ring. }
  assert (RB : Rabs (e' * rr) <= Rabs h * (Rabs h * (K * K))).
  { rewrite Rabs_mult. apply Rle_trans with (1 * ((h * X) ^ 2 / 2)); [apply Rmult_le_compat; try apply Rabs_pos; lra|].
    rewrite <- pow2_abs, Rabs_mult. assert (Rabs X * Rabs X <= K * K) by (apply Rmult_le_compat; lra). assert (0 <= Rabs h * Rabs h) by nra.
    assert (Rabs h * Rabs h * (Rabs X * Rabs X) <= Rabs h * Rabs h * (K * K)) by (apply Rmult_le_compat_l; assumption). nra. }
  assert (FB : Rabs (X * (1 - e s * cos E) - (dM + de * sin E)) <= 2 * eta + Rabs h * W).
  { apply Rmult_le_reg_l with (Rabs h); [exact Hp|]. rewrite <- Rabs_mult, ID. apply Rle_trans with (1 := Rabs_triang _ _). rewrite (Rabs_mult h).
    assert (Rabs (A - dM + (B - de) * sin E + h * (B * X * cos E)) <= 2 * eta + Rabs h * ((Rabs de + 1) * K)).
    { apply Rle_trans with (1 := Rabs_triang _ _). apply Rplus_le_compat.
      - apply Rle_trans with (1 := Rabs_triang _ _). rewrite Rabs_mult. pose proof (Rabs_pos (sin E)). pose proof (Rabs_pos (B - de)). nra.
      - rewrite !Rabs_mult. apply Rmult_le_compat_l; [lra|]. assert (Rabs B * Rabs X <= (Rabs de + 1) * K) by (apply Rmult_le_compat; assumption). pose proof (Rabs_pos (cos E)).
        assert (0 <= Rabs B * Rabs X) by nra. nra. }
    unfold W. nra. }
  apply Rmult_lt_reg_r with (1 - e s * cos E); [lra|].
  rewrite <- (Rabs_pos_eq (1 - e s * cos E)) at 2 by lra. rewrite <- Rabs_mult.
  replace ((X - (dM + de * sin E) / (1 - e s * cos E)) * (1 - e s * cos E)) with (X * (1 - e s * cos E) - (dM + de * sin E)) by (field; lra).
  apply Rle_lt_trans with (1 := FB). apply Rlt_le_trans with (eps * q); [|apply Rmult_le_compat_l; lra]. lra.
Qed.

Theorem elps_jvp : forall (M e root : R -> R) (s : R) (dM de : dual), 0 <= e s <= 249 / 250 -> carries M s dM -> carries e s de ->
  locally s (fun u => root u - e u * sin (root u) = M u) ->
  let o := @solve_kepler_elps _ Num_D dM de (@default_tol _ Num_D) elps_max_iter in
  val o = solve_kepler_elps (M s) (e s) default_tol elps_max_iter /\
  exists root', is_derive root s root' /\
    Rabs (tang o - root') <= 46 / 1000000 * (Rabs (tang dM) + Rabs (tang de)) / (1 - e s) ^ 2.
Proof.
  intros M e root s dM de He [M0 M1] [e0 e1] HR o. assert (Ha : 0 <= val de < 1) by (rewrite <- e0; lra).
  destruct (elps_D dM de Ha) as [n [Hn [O1 [O2 O3]]]]. unfold o. rewrite O1. cbn [val tang]. rewrite M0, e0. split; [symmetry; exact O2|].
  exists ((tang dM + tang de * sin (root s)) / (1 - val de * cos (root s))). split.
  - rewrite <- e0. apply (implicit_der M e root s); [lra|assumption|assumption|assumption].
  - pose proof (good_all (val de) (val dM) ltac:(rewrite <- e0; lra) (tang dM) (tang de) (root s) n) as G. unfold eslope in G. rewrite dE_R in G. apply G; [|exact Hn|exact O3].
    rewrite kepler_equ_elps_R, <- M0, <- e0. assert (root s - e s * sin (root s) = M s) by (destruct HR as [d0 HR]; apply HR, ball_center). lra.
Qed.
(** At the periapsis of an ellipse of eccentricity 1/2 the guess says 7/4 and one step makes it 2. *)
Lemma elps_jvp_ex : @elps_guess _ Num_D (mkD 0 1) (konst (1 / 2)) = mkD 0 (7 / 4) /\
  @solve_kepler_elps _ Num_D (mkD 0 1) (konst (1 / 2)) (@default_tol _ Num_D) elps_max_iter = mkD 0 2.
Proof.
  assert (G : @elps_guess _ Num_D (mkD 0 1) (konst (1 / 2)) = mkD 0 (7 / 4)).
  { rewrite guess_D. unfold konst. cbn [val tang]. rewrite elps_guess_R. unfold ek0. rewrite Rmult_0_r, sin_0, cos_0. apply D_eq; field. }
  split; [exact G|]. assert (Ha : 0 <= val (konst (1 / 2)) < 1) by (cbn [val konst]; lra).
  destruct (elps_D (mkD 0 1) (konst (1 / 2)) Ha) as [n [_ [O1 _]]]. rewrite O1. unfold konst. cbn [val tang]. clear.
  assert (X : forall j, ex (1 / 2) 0 j = 0).
  { induction j as [|j IH]; [change (elps_guess 0 (1 / 2) = 0); rewrite elps_guess_R, Rmult_0_r, sin_0; field|].
    rewrite ex_S, IH, elps_newton_R, kepler_equ_elps_R, dE_R, sin_0, cos_0. field. }
  rewrite X. apply D_eq; [reflexivity|]. change (estep (1 / 2) 0 1 0 (ex (1 / 2) 0 n) (ek (1 / 2) 0 1 0 n) = 2). rewrite X. unfold estep.
  rewrite kepler_equ_elps_R, dE_R, sin_0, cos_0. field.
Qed.
