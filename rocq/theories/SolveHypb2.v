(** * Convergence of [solve_kepler_hypb] close to the parabola (C27) *)
From Coq Require Import Reals ZArith Lia Lra List Bool.
From Coquelicot Require Import Coquelicot.
From Verif Require Import Num NumR Spec OrbIntegrals KepEqu RLib Ana LoopFacts KepRows SolveFacts SolveHypb NewtonConvex.
Local Open Scope R_scope.

(** The residual is log-concave right of 0. *)
Lemma hypb_log Nm e y : 1 <= e -> 0 <= Nm -> 0 <= y ->
  kepler_equ_hypb y e Nm * (e * sinh y) <= dH y e ^ 2.
Proof.
  intros He HN Hy. rewrite kepler_equ_hypb_R, dH_R.
  pose proof (cosh_sinh_sq y) as Q. pose proof (sinh_nonneg y Hy) as S.
  assert (G : 2 * cosh y - y * sinh y <= 2).
  { pose proof (der_nonneg_from (fun t => t * sinh t - 2 * cosh t) (fun t => t * cosh t - sinh t) 0) as P.
    specialize (P ltac:(intros t; eapply der_eq; [apply der_minus; [apply der_mult; [apply der_id|apply der_sinh]|apply der_scal, der_cosh]|cbv beta; ring])
      ltac:(intros t Ht; pose proof (sinh_le_cosh t Ht); lra) 0 y ltac:(lra) Hy). cbv beta in P.
    rewrite cosh_0, sinh_0 in P. lra. }
  assert (0 <= Nm * (e * sinh y)) by (apply Rmult_le_pos; [lra|apply Rmult_le_pos; lra]).
  assert (e * (2 * cosh y - y * sinh y) <= e * 2) by (apply Rmult_le_compat_l; lra).
  assert (0 <= (e - 1) ^ 2) by apply pow2_ge_0.
  assert (e ^ 2 * (cosh y ^ 2) = e ^ 2 * (1 + sinh y ^ 2)) by now rewrite Q.
  nra.
Qed.

Section Right.
  Variables (Nm e H : R).
  Hypothesis He : 1 < e.
  Hypothesis HN : 0 <= Nm.
  Hypothesis Hroot : kepler_equ_hypb H e Nm = 0.

  Lemma hypb_der2 (t : R) : is_derive (fun u : R => dH u e) t (e * sinh t).
  Proof.
    apply is_derive_ext with (fun u => e * cosh u - 1); [intros; now rewrite dH_R|].
    eapply der_eq; [apply der_minus; [apply der_scal, der_cosh|apply der_const]|ring].
  Qed.
  Lemma right_step y : H <= y -> H <= hypb_newton Nm e y /\
    0 <= kepler_equ_hypb (hypb_newton Nm e y) e Nm /\
    kepler_equ_hypb (hypb_newton Nm e y) e Nm * exp 1 <= kepler_equ_hypb y e Nm.
  Proof using He HN Hroot.
    intros L. pose proof (good_root_nonneg Nm e H He HN Hroot) as R0. rewrite hypb_newton_R.
    assert (A1 : forall t, H <= t <= y -> 0 < dH t e) by (intros; apply good_dpos; auto).
    assert (A2 : forall t, H <= t <= y -> 0 <= e * sinh t).
    { intros t Ht. pose proof (sinh_nonneg t ltac:(lra)). nra. }
    assert (A3 : forall t, H <= t <= y -> kepler_equ_hypb t e Nm * (e * sinh t) <= dH t e ^ 2).
    { intros t Ht. apply hypb_log; lra. }
    assert (D1 : forall t : R, is_derive (fun u : R => kepler_equ_hypb u e Nm) t (dH t e)) by (intros; apply hypb_deriv).
    pose proof (drop_between _ _ _ H y D1 hypb_der2 L Hroot A1 A2) as B.
    pose proof (drop_value _ _ _ H y D1 hypb_der2 L Hroot A1 A2 A3) as V. cbv beta in *.
    split; [lra|exact V].
  Qed.
  Lemma right_iter y k : H <= y -> H <= iterate (hypb_newton Nm e) k y /\
    0 <= kepler_equ_hypb (iterate (hypb_newton Nm e) k y) e Nm /\
    kepler_equ_hypb (iterate (hypb_newton Nm e) k y) e Nm * exp (INR k) <= kepler_equ_hypb y e Nm.
  Proof using He HN Hroot.
    intros L. induction k as [|k IH].
    - cbn [iterate]. simpl INR. rewrite exp_0. split; [exact L|]. split; [|lra].
      destruct L as [L|<-]; [|lra]. pose proof (hypb_residual_incr e Nm H y He L). lra.
    - cbn [iterate]. destruct IH as [A [B C]]. destruct (right_step _ A) as [A' [B' C']].
      split; [exact A'|]. split; [exact B'|]. rewrite S_INR, exp_plus.
      eapply Rle_trans; [|exact C]. rewrite (Rmult_comm (exp (INR k))), <- Rmult_assoc.
      apply Rmult_le_compat_r; [apply Rlt_le, exp_pos|exact C'].
  Qed.
  (** One step from anywhere right of 0 lands right of the root. *)
  Lemma any_step y : 0 <= y -> H <= hypb_newton Nm e y.
  Proof using He HN Hroot.
    intros L. destruct (Rle_dec H y) as [A|A]; [apply right_step, A|].
    pose proof (good_dpos e He y) as D. rewrite hypb_newton_R.
    destruct (mvt_on (fun t => kepler_equ_hypb t e Nm) (fun t => dH t e) y H ltac:(lra)
      ltac:(intros; apply hypb_deriv)) as [c [Hc Ec]]. cbv beta in Ec. rewrite Hroot in Ec.
    assert (C : dH y e <= dH c e). { rewrite !dH_R. pose proof (cosh_incr y c ltac:(lra) ltac:(lra)). nra. }
    apply (Rmult_le_reg_r (dH y e)); [exact D|].
    replace ((y - kepler_equ_hypb y e Nm / dH y e) * dH y e) with (y * dH y e - kepler_equ_hypb y e Nm) by (field; lra).
    nra.
  Qed.
  Lemma root_residual_size y : 0 <= y -> e <= 2 -> kepler_equ_hypb y e Nm <= exp y.
  Proof using He HN.
    intros L E2. rewrite kepler_equ_hypb_R. pose proof (sinh_nonneg y L).
    assert (e * sinh y <= 2 * sinh y) by nra.
    assert (2 * sinh y <= exp y); [|lra]. unfold sinh. pose proof (exp_pos (- y)). lra.
  Qed.

  Let w := hypb_guess Nm e.
  (** How far the first step goes. *)
  Lemma first_step_size : e < 2 -> Nm < 8 ->
    8001 / 8000 <= e \/ 1 / 33 <= Nm \/ Nm <= 33 * (e - 1) ->
    0 <= w /\ hypb_newton Nm e w <= 34.
  Proof using He HN Hroot.
    intros E2 N8 HC.
    assert (Sw : e * sinh w = 2 * Nm) by (unfold w; rewrite hypb_guess_arcsinh, sinh_arcsinh; field; lra).
    assert (W0 : 0 <= w).
    { apply Rnot_lt_le. intros L. pose proof (der_pos_incr sinh cosh der_sinh
        ltac:(intros t; pose proof (cosh_ge_1 t); lra) w 0 L) as I. rewrite sinh_0 in I. nra. }
    split; [exact W0|]. pose proof (sinh_ge_id w W0) as S1. pose proof (good_dpos e He w) as D.
    pose proof (cosh_ge_quad w W0) as C1. pose proof (sinh_ge_cube w W0) as S3.
    assert (Dl : (e - 1) + w ^ 2 / 2 <= dH w e) by (rewrite dH_R; nra).
    rewrite hypb_newton_R, kepler_equ_hypb_R, Sw.
    replace (w - (2 * Nm - w - Nm) / dH w e) with (w + (w - Nm) / dH w e) by (field; lra).
    destruct (Rle_dec Nm w) as [P|P].
    2:{ assert ((w - Nm) / dH w e <= 0); [|nra].
        apply (Rmult_le_reg_r (dH w e)); [exact D|].
        replace ((w - Nm) / dH w e * dH w e) with (w - Nm) by (field; lra). lra. }
    assert (HW : w <= 2 * Nm) by nra.
    assert (W3 : w <= 5 / 2).
    { apply Rnot_lt_le. intros L. assert (6 * w < w ^ 3) by (assert (6 < w ^ 2) by nra; nra). nra. }
    assert (G : forall K, w / 2 <= K * ((e - 1) + w ^ 2 / 2) -> 0 <= K -> (w - Nm) / dH w e <= K).
    { intros K HK K0. apply (Rmult_le_reg_r (dH w e)); [exact D|].
      replace ((w - Nm) / dH w e * dH w e) with (w - Nm) by (field; lra). nra. }
    destruct (Rle_dec w 1) as [W1|W1].
    - assert ((w - Nm) / dH w e <= 33); [|lra]. 
      destruct HC as [HC|[HC|HC]].
      + apply G; [|lra]. assert (0 <= (w - 1 / 66) ^ 2) by apply pow2_ge_0. nra.
      + apply G; [|lra]. assert (0 <= (w - 1 / 33) * w) by (apply Rmult_le_pos; lra). nra.
      + apply G; [|lra]. assert (0 <= w ^ 2) by apply pow2_ge_0. lra.
    - assert ((w - Nm) / dH w e <= 1); [|lra]. apply G; [|lra]. nra.
  Qed.
End Right.

Lemma hypb_near_pos Nm e : 1 < e < 2 -> 0 <= Nm < 8 ->
  8001 / 8000 <= e \/ 1 / 33 <= Nm \/ Nm <= 33 * (e - 1) ->
  Rabs (kepler_equ_hypb (solve_kepler_hypb Nm e default_tol hypb_max_iter) e Nm) <= / 1000000.
Proof.
  intros [He He2] [HN HN8] HC. destruct (hypb_unique e Nm He) as [H [HR _]].
  destruct (hypb_run_char Nm e default_tol hypb_max_iter) as [k [Hk [Hr [Hj Hx]]]]. cbv zeta in *.
  assert (S : solve_kepler_hypb Nm e default_tol hypb_max_iter = iterate (hypb_newton Nm e) k (hypb_guess Nm e))
    by (unfold solve_kepler_hypb; now rewrite Hr).
  destruct Hx as [Hx|Hx].
  2:{ rewrite S. apply exceeds_R_false in Hx. now rewrite default_tol_R in Hx. }
  rewrite S, Hx. change (Z.to_nat hypb_max_iter) with 50%nat.
  destruct (first_step_size Nm e H He HN HR He2 HN8 HC) as [W0 X1].
  pose proof (any_step Nm e H He HN HR _ W0) as L. pose proof (good_root_nonneg Nm e H He HN HR) as R0.
  set (x1 := hypb_newton Nm e (hypb_guess Nm e)) in *.
  destruct (right_iter Nm e H He HN HR x1 49 L) as [_ [B C]].
  assert (E : iterate (hypb_newton Nm e) 50 (hypb_guess Nm e) = iterate (hypb_newton Nm e) 49 x1).
  { exact (iterate_first (hypb_newton Nm e) 49 (hypb_guess Nm e)). }
  rewrite E. set (z := kepler_equ_hypb (iterate (hypb_newton Nm e) 49 x1) e Nm) in *. clearbody z.
  rewrite Rabs_pos_eq by exact B.
  pose proof (root_residual_size Nm e He HN x1 ltac:(lra) ltac:(lra)) as Q.
  assert (Q2 : exp x1 <= exp 34). { destruct X1 as [X1| ->]; [left; now apply exp_increasing|lra]. }
  assert (Z : z * exp (INR 49) <= exp 34) by lra.
  replace (exp 34) with (exp (- 15) * exp (INR 49)) in Z.
  2:{ rewrite <- exp_plus. f_equal. rewrite INR_IZR_INZ. simpl Z.of_nat. lra. }
  apply Rmult_le_reg_r in Z; [|apply exp_pos]. pose proof exp_m15. lra.
Qed.
Lemma hypb_converges Nm e : 1 < e ->
  8001 / 8000 <= e \/ 1 / 33 <= Rabs Nm \/ Rabs Nm <= 33 * (e - 1) ->
  e + 2 * Rabs Nm <= 10 ^ 308 ->
  Rabs (kepler_equ_hypb (solve_kepler_hypb Nm e default_tol hypb_max_iter) e Nm) <= / 1000000.
Proof.
  intros He HC HB. destruct (Rle_dec 2 e) as [E2|E2]; [apply hypb_good; auto|].
  destruct (Rle_dec 8 (Rabs Nm)) as [N8|N8]; [apply hypb_good; auto|].
  destruct (Rle_dec 0 Nm) as [P|P].
  - rewrite Rabs_pos_eq in HC, N8 by lra. apply hypb_near_pos; lra.
  - rewrite Rabs_left in HC, N8 by lra.
    assert (B := hypb_near_pos (- Nm) e ltac:(lra) ltac:(lra) HC).
    rewrite solve_hypb_neg, hypb_equ_neg, Rabs_Ropp in B. exact B.
Qed.
