(** * Shapes of rectilinear and parabolic states, apoapsis attained only at f = pi, and slopes in alpha *)
From Coq Require Import Reals Lra Lia.
From Coquelicot Require Import Coquelicot.
From Verif Require Import Num NumR Spec RLib OrbIntegrals Uniformulas KepEqu OrbFacts SeriesU UFacts.
Local Open Scope R_scope.

Lemma rectilinear_ecc r v mu : r <> vzero -> 0 < mu -> cross r v = vzero -> vnorm (eccentricity_vector r v mu) = 1.
Proof.
  intros Hr Hm Hh. pose proof (ecc_norm_sq r v mu Hr Hm) as E.
  assert (Z : semiparameter (vnorm (cross r v)) mu = 0).
  { rewrite Hh, semiparameter_R, vnorm_sq2. unfold dot, vzero; cbn. field. lra. }
  rewrite Z, Rmult_0_l, Rminus_0_r in E.
  pose proof (vnorm_nonneg (eccentricity_vector r v mu)) as P. set (e := vnorm (eccentricity_vector r v mu)) in *. nra.
Qed.

Lemma zero_energy_ecc r v mu : r <> vzero -> 0 < mu -> energy mu r v = 0 -> vnorm (eccentricity_vector r v mu) = 1.
Proof.
  intros Hr Hm HE. pose proof (ecc_norm_sq r v mu Hr Hm) as E. rewrite axis_energy, HE in E by auto.
  unfold Rdiv in E. rewrite Rmult_0_r, Rmult_0_l, Rmult_0_r, Rminus_0_r in E.
  pose proof (vnorm_nonneg (eccentricity_vector r v mu)) as P. set (e := vnorm (eccentricity_vector r v mu)) in *. nra.
Qed.

Lemma axis_of_shape r v mu : r <> vzero -> 0 < mu -> vnorm (eccentricity_vector r v mu) <> 1 ->
  a_from_pe (semiparameter (vnorm (angular_momentum r v)) mu) (vnorm (eccentricity_vector r v mu))
  = semimajor_axis (vnorm r) (vnorm v) mu.
Proof.
  intros Hr Hm He. rewrite angular_momentum_R. apply axis_of_state; auto.
  - apply alpha_neq; auto. intro H. apply He. now apply zero_energy_ecc.
  - intro H. apply He. now apply rectilinear_ecc.
Qed.

Lemma conic_apo_only p e f : 0 < p -> 0 < e < 1 ->
  (equ_of_orbit p e f = radius_apoapsis p e <-> cos f = -1).
Proof.
  intros Hp He. pose proof (COS_bound f) as B. assert (Hf : 0 < 1 + e * cos f) by nra.
  rewrite equ_of_orbit_R. rewrite !radius_apoapsis_R. split.
  - intros H. assert (K : 1 + e * cos f = 1 - e).
    { apply (Rmult_eq_reg_l p); [|lra].
      apply (f_equal (fun x => x * ((1 - e) * (1 + e * cos f)))) in H.
      field_simplify in H; lra. }
    apply (Rmult_eq_reg_l e); lra.
  - intros ->. f_equal; ring.
Qed.

Lemma ufunc_smooth (chi alpha : R) :
  let D (n : nat) := (INR n * universal (n + 2) chi alpha - chi * universal (n + 1) chi alpha) / 2 in
  is_derive (fun a : R => ufunc0 chi a) alpha (D 0%nat) /\ is_derive (fun a : R => ufunc1 chi a) alpha (D 1%nat) /\
  is_derive (fun a : R => ufunc2 chi a) alpha (D 2%nat) /\ is_derive (fun a : R => ufunc3 chi a) alpha (D 3%nat) /\
  is_derive (fun a : R => ufunc4 chi a) alpha (D 4%nat) /\ is_derive (fun a : R => ufunc5 chi a) alpha (D 5%nat).
Proof.
  intro D.
  assert (H : forall n, is_derive (fun a : R => U n chi a) alpha (D n)).
  { intro n. unfold D. rewrite !U_universal. eapply der_val; [|apply U_dalpha]. field. }
  split; [|split; [|split; [|split; [|split]]]].
  - apply (is_derive_ext (fun a : R => U 0 chi a)); [intro; now rewrite ufunc0_U|apply H].
  - apply (is_derive_ext (fun a : R => U 1 chi a)); [intro; now rewrite ufunc1_U|apply H].
  - apply (is_derive_ext (fun a : R => U 2 chi a)); [intro; now rewrite ufunc2_U|apply H].
  - apply (is_derive_ext (fun a : R => U 3 chi a)); [intro; now rewrite ufunc3_U|apply H].
  - apply (is_derive_ext (fun a : R => U 4 chi a)); [intro; now rewrite ufunc4_U|apply H].
  - apply (is_derive_ext (fun a : R => U 5 chi a)); [intro; now rewrite ufunc5_U|apply H].
Qed.
