(** * SolveExamples: concrete instances for the solver properties *)
From Coq Require Import Reals Lra Lia Psatz ZArith List.
From Coquelicot Require Import Coquelicot.
From Verif Require Import Num NumR Spec SpecAnom RLib Uniformulas OrbIntegrals KepEqu StateTrans PropKepler
  SeriesU UFacts Atan2 OrbFacts KepState LoopFacts KepRows SolveFacts SolveElps SolveElpsBad SolveElpsBad2 SolveHypb
  Classical SolveUni SolveUni5 Witness.
Import ListNotations.
Local Open Scope R_scope.

(** The elliptic solver at M = pi, e = 1/2 makes one step and stops at pi. *)
Lemma elps_at_pi : elps_run PI (1 / 2) (/ 1000000) 20 = Some (1%Z, PI, PI).
Proof.
  assert (G : elps_guess PI (1 / 2) = PI).
  { rewrite elps_guess_R, sin_PI, sin_2PI. field. }
  assert (S : elps_newton PI (1 / 2) PI = PI).
  { rewrite elps_newton_R, kepler_equ_elps_R, dE_R, sin_PI, cos_PI. field. }
  assert (X : forall k, iterate (elps_newton PI (1 / 2)) k PI = PI).
  { induction k as [|k IH]; cbn [iterate]; [reflexivity|]. now rewrite IH. }
  destruct (elps_run_char PI (1 / 2) (/ 1000000) 20) as [k [Hk [H [L D]]]]. rewrite G in H, L, D.
  assert (K : k = 1%nat).
  { destruct k as [|[|k]]; [|reflexivity|].
    - exfalso. destruct D as [D|D]; [discriminate|]. apply exceeds_R_false in D.
      cbn [iterate] in D. change (Rabs (PI - (PI + 2 * / 1000000)) <= / 1000000) in D.
      rewrite Rabs_left in D by lra. lra.
    - exfalso. specialize (L 1%nat ltac:(lia)). apply exceeds_R in L. rewrite !X in L.
      rewrite Rminus_eq_0, Rabs_R0 in L. lra. }
  subst k. rewrite H. rewrite !X. reflexivity.
Qed.

Lemma sinh_ln2 : sinh (ln 2) = 3 / 4 /\ cosh (ln 2) = 5 / 4.
Proof. unfold sinh, cosh. rewrite exp_Ropp, exp_ln by lra. split; field. Qed.

Lemma hypb_root_example : kepler_equ_hypb (ln 2) 2 (3 / 2 - ln 2) = 0.
Proof. rewrite kepler_equ_hypb_R. destruct sinh_ln2 as [-> _]. lra. Qed.
Lemma elps_root_example : kepler_equ_elps (PI / 2) (1 / 2) (PI / 2 - 1 / 2) = 0.
Proof. rewrite kepler_equ_elps_R, sin_PI2. lra. Qed.

(** The hyperbolic solver with its own root as start. *)
Lemma hypb_run_example : hypb_run 0 2 (/ 1000000) 50 = Some (0%Z, 0, 2 * / 1000000).
Proof.
  assert (G : hypb_guess 0 2 = 0).
  { rewrite hypb_guess_R. replace (2 * 0 / 2) with 0 by field. replace (0 ^ 2 + 1) with 1 by ring.
    rewrite sqrt_1, Rplus_0_l. apply ln_1. }
  destruct (hypb_run_char 0 2 (/ 1000000) 50) as [k [Hk [H [L D]]]]. rewrite G in H, L, D.
  assert (K : k = 0%nat).
  { destruct k as [|k]; [reflexivity|]. exfalso. specialize (L 0%nat ltac:(lia)). apply exceeds_R in L.
    cbn [iterate] in L. rewrite kepler_equ_hypb_R, sinh_0 in L.
    replace (2 * 0 - 0 - 0) with 0 in L by ring. rewrite Rabs_R0 in L. lra. }
  subst k. rewrite H. cbn [iterate]. apply f_equal. apply f_equal. change (0 + 2 * / 1000000 = 2 * / 1000000). ring.
Qed.

Lemma w_axis : semimajor_axis (vnorm wr) (vnorm wv) 1 = 4 / 3.
Proof. rewrite semimajor_axis_R, w_alpha. field. Qed.
(** The witness ellipse starts at periapsis. *)
Lemma w_anomaly : eccentric_anomaly 1 (4 / 3) (1 / 4) wr wv 0.
Proof.
  split; [rewrite wr_norm, cos_0; field|]. rewrite sin_0. unfold dot, wr, wv; simpl. ring.
Qed.
Lemma w_converges : exists i chi prev, (i <= 13)%Z /\
  uni_run 5 (alpha_of (vnorm wr) (vnorm wv) 1) (vnorm wr) (sigma_fn wr wv 1) 1 default_tol uni_max_iter
  = Some (i, chi, prev) /\
  Rabs (kepler_equ_uni chi (alpha_of (vnorm wr) (vnorm wv) 1) (vnorm wr) (sigma_fn wr wv 1) 5 1) <= / 1000000.
Proof.
  apply (uni_elliptic_converges wr wv 1 5); [lra|exact wh_neq|rewrite we_norm; lra|].
  rewrite w_axis. apply Rle_trans with (10 ^ 1); [lra|]. apply Rle_pow; [lra|lia].
Qed.

(** A launch at periapsis with eccentricity 301/324. *)
Lemma apsis_converges t : exists i chi prev, (i <= 35)%Z /\
  uni_run t (alpha_of (vnorm wr) (vnorm (mk3 0 (25 / 18) 0)) 1) (vnorm wr) (sigma_fn wr (mk3 0 (25 / 18) 0) 1) 1 default_tol uni_max_iter
  = Some (i, chi, prev) /\
  Rabs (kepler_equ_uni chi (alpha_of (vnorm wr) (vnorm (mk3 0 (25 / 18) 0)) 1) (vnorm wr) (sigma_fn wr (mk3 0 (25 / 18) 0) 1) t 1) <= / 1000000.
Proof.
  set (v := mk3 0 (25 / 18) 0).
  assert (V : vnorm v = 25 / 18) by (apply vnorm_unique; [lra|unfold dot, v; simpl; lra]).
  assert (A : semimajor_axis (vnorm wr) (vnorm v) 1 = 324 / 23) by (rewrite semimajor_axis_R, wr_norm, V; field).
  assert (En : vnorm (eccentricity_vector wr v 1) = 301 / 324).
  { assert (H : eccentricity_vector wr v 1 = mk3 (301 / 324) 0 0).
    { rewrite eccentricity_vector_R, wr_norm. unfold wr, v, vminus, smul, cross; simpl. apply mk3_eq; field. }
    rewrite H. apply vnorm_unique; [lra|]. unfold dot; simpl. lra. }
  apply (uni_elliptic_converges2 wr v 1 t); [lra| | | |].
  - unfold wr, v, vzero, cross; simpl. intros H. injection H. lra.
  - right. rewrite En, A.
    assert (S : sigma_fn wr v 1 = 0) by (rewrite sigma_fn_R; unfold dot, wr, v; simpl; unfold Rdiv; ring).
    rewrite S, Rabs_R0. apply Rmult_le_pos; [lra|apply sqrt_pos].
  - rewrite A. apply Rle_trans with (10 ^ 2); [lra|]. apply Rle_pow; [lra|lia].
  - unfold energy. rewrite wr_norm. unfold dot, v; simpl. lra.
Qed.
Lemma u_energy : energy 1 ur uv = 1 / 2.
Proof. unfold energy. rewrite ur_norm. unfold dot, uv; simpl. lra. Qed.

Lemma hypb_bad_default : forall e, 1 < e <= 1 + (1 / 186) ^ 2 ->
  let Nm := 1 / 186 in
  (exists prev, hypb_run Nm e default_tol hypb_max_iter
     = Some (hypb_max_iter, solve_kepler_hypb Nm e default_tol hypb_max_iter, prev)) /\
  100 < kepler_equ_hypb (solve_kepler_hypb Nm e default_tol hypb_max_iter) e Nm.
Proof.
  pose proof (hypb_bad_residual default_tol hypb_max_iter) as H. cbv zeta in H.
  change (IZR hypb_max_iter) with 50 in H. replace (10 / (31 * (50 + 10))) with (1 / 186) in H by field.
  apply H; [rewrite default_tol_R; lra|unfold hypb_max_iter; lia|rewrite default_tol_R; lra].
Qed.
Lemma elps_bad_default : exists M, 0 <= M <= 1 / 20 /\
  (exists prev, elps_run M (9972 / 10000) default_tol elps_max_iter
     = Some (elps_max_iter, solve_kepler_elps M (9972 / 10000) default_tol elps_max_iter, prev)) /\
  2 < Rabs (kepler_equ_elps (solve_kepler_elps M (9972 / 10000) default_tol elps_max_iter) (9972 / 10000) M).
Proof.
  apply elps_bad2_residual; [lra|rewrite default_tol_R; lra|unfold elps_max_iter; lia].
Qed.
