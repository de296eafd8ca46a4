(** * RevPulls: the statements of C84 *)
From Coq Require Import Reals Lra ZArith List Bool String.
From Coquelicot Require Import Coquelicot.
Import ListNotations.
From Verif Require Import Num NumR NumD NumV Spec SpecAd SpecRev Gravity.
From Verif Require Import OrbIntegrals Uniformulas Lagrange KepEqu RotMat OrbElements StateTrans PropKepler Trace.
From Verif Require Import AdOps AdFacts AdKep AdMore RevOps RevFacts.
Local Open Scope R_scope.

Lemma ok_inj {A : Type} (x y : A) : Ok x = Ok y -> x = y. Proof. now intros [= ->]. Qed.
Ltac both := repeat match goal with
  | H : pulls ?n ?w ?x ?s ?r |- _ => pose proof (pulls_carries n w x s r H); pose proof (pulls_mir n w x s r H); clear H
  | H : vpulls ?n ?w ?x ?s ?r |- _ => pose proof (vpulls_carries n w x s r H); pose proof (vpulls_mir n w x s r H); clear H
  end.

Lemma rev_orb_period : forall (nin : nat) (speed : nat -> R) (s : R) a mu da dm,
  pulls nin speed a s da -> pulls nin speed mu s dm -> 0 < a s -> 0 < mu s ->
  pulls nin speed (fun u => orb_period (a u) (mu u)) s (@orb_period _ Num_V da dm).
Proof.
  intros; both. eapply pulls_of; [eapply ad_orb_period; eassumption | eapply m_orb_period; eassumption].
Qed.

Lemma rev_a_from_period : forall (nin : nat) (speed : nat -> R) (s : R) P mu dP dm,
  pulls nin speed P s dP -> pulls nin speed mu s dm -> P s <> 0 -> 0 < mu s ->
  pulls nin speed (fun u => a_from_period (P u) (mu u)) s (@a_from_period _ Num_V dP dm).
Proof.
  intros; both. eapply pulls_of; [eapply ad_a_from_period; eassumption | eapply m_a_from_period; eassumption].
Qed.

Lemma rev_semimajor_axis : forall (nin : nat) (speed : nat -> R) (s : R) r v mu dr dv dm,
  pulls nin speed r s dr -> pulls nin speed v s dv -> pulls nin speed mu s dm ->
  r s <> 0 -> mu s <> 0 -> 2 / r s - v s ^ 2 / mu s <> 0 ->
  pulls nin speed (fun u => semimajor_axis (r u) (v u) (mu u)) s (@semimajor_axis _ Num_V dr dv dm).
Proof.
  intros; both. eapply pulls_of; [eapply ad_semimajor_axis; eassumption | eapply m_semimajor_axis; eassumption].
Qed.

Lemma rev_semiparameter : forall (nin : nat) (speed : nat -> R) (s : R) h mu dh dm,
  pulls nin speed h s dh -> pulls nin speed mu s dm -> mu s <> 0 ->
  pulls nin speed (fun u => semiparameter (h u) (mu u)) s (@semiparameter _ Num_V dh dm).
Proof.
  intros; both. eapply pulls_of; [eapply ad_semiparameter; eassumption | eapply m_semiparameter; eassumption].
Qed.

Lemma rev_mean_motion : forall (nin : nat) (speed : nat -> R) (s : R) P dP,
  pulls nin speed P s dP -> P s <> 0 -> pulls nin speed (fun u => mean_motion (P u)) s (@mean_motion _ Num_V dP).
Proof.
  intros; both. eapply pulls_of; [eapply ad_mean_motion; eassumption | eapply m_mean_motion; eassumption].
Qed.

Lemma rev_equ_of_orbit : forall (nin : nat) (speed : nat -> R) (s : R) p e f dp de df,
  pulls nin speed p s dp -> pulls nin speed e s de -> pulls nin speed f s df -> 1 + e s * cos (f s) <> 0 ->
  pulls nin speed (fun u => equ_of_orbit (p u) (e u) (f u)) s (@equ_of_orbit _ Num_V dp de df).
Proof.
  intros; both. eapply pulls_of; [eapply ad_equ_of_orbit; eassumption | eapply m_equ_of_orbit; eassumption].
Qed.

Lemma rev_equ_of_orb_uvi : forall (nin : nat) (speed : nat -> R) (s : R) u0 u1 u2 r0 s0 d0 d1 d2 dr ds,
  pulls nin speed u0 s d0 -> pulls nin speed u1 s d1 -> pulls nin speed u2 s d2 -> pulls nin speed r0 s dr -> pulls nin speed s0 s ds ->
  pulls nin speed (fun u => equ_of_orb_uvi (u0 u) (u1 u) (u2 u) (r0 u) (s0 u)) s (@equ_of_orb_uvi _ Num_V d0 d1 d2 dr ds).
Proof.
  intros; both. eapply pulls_of; [eapply ad_equ_of_orb_uvi; eassumption | eapply m_equ_of_orb_uvi; eassumption].
Qed.

Lemma rev_radius_periapsis : forall (nin : nat) (speed : nat -> R) (s : R) p e dp de,
  pulls nin speed p s dp -> pulls nin speed e s de -> 1 + e s <> 0 ->
  pulls nin speed (fun u => radius_periapsis (p u) (e u)) s (@radius_periapsis _ Num_V dp de).
Proof.
  intros; both. eapply pulls_of; [eapply ad_radius_periapsis; eassumption | eapply m_radius_periapsis; eassumption].
Qed.

Lemma rev_radius_apoapsis : forall (nin : nat) (speed : nat -> R) (s : R) p e dp de,
  pulls nin speed p s dp -> pulls nin speed e s de -> 1 - e s <> 0 ->
  pulls nin speed (fun u => radius_apoapsis (p u) (e u)) s (@radius_apoapsis _ Num_V dp de).
Proof.
  intros; both. eapply pulls_of; [eapply ad_radius_apoapsis; eassumption | eapply m_radius_apoapsis; eassumption].
Qed.

Lemma rev_semipara_from_ae : forall (nin : nat) (speed : nat -> R) (s : R) a e da de,
  pulls nin speed a s da -> pulls nin speed e s de ->
  pulls nin speed (fun u => semipara_from_ae (a u) (e u)) s (@semipara_from_ae _ Num_V da de).
Proof.
  intros; both. eapply pulls_of; [eapply ad_semipara_from_ae; eassumption | eapply m_semipara_from_ae; eassumption].
Qed.

Lemma rev_a_from_pe : forall (nin : nat) (speed : nat -> R) (s : R) p e dp de,
  pulls nin speed p s dp -> pulls nin speed e s de -> e s ^ 2 <> 1 ->
  pulls nin speed (fun u => a_from_pe (p u) (e u)) s (@a_from_pe _ Num_V dp de).
Proof.
  intros; both. eapply pulls_of; [eapply ad_a_from_pe; eassumption | eapply m_a_from_pe; eassumption].
Qed.

Lemma rev_angular_momentum : forall (nin : nat) (speed : nat -> R) (s : R) r v dr dv,
  vpulls nin speed r s dr -> vpulls nin speed v s dv ->
  vpulls nin speed (fun u => angular_momentum (r u) (v u)) s (@angular_momentum _ Num_V dr dv).
Proof.
  intros; both. eapply vpulls_of; [eapply ad_angular_momentum; eassumption | eapply m_angular_momentum; eassumption].
Qed.

Lemma rev_eccentricity_vector : forall (nin : nat) (speed : nat -> R) (s : R) r v mu dr dv dm,
  vpulls nin speed r s dr -> vpulls nin speed v s dv -> pulls nin speed mu s dm -> r s <> vzero -> mu s <> 0 ->
  vpulls nin speed (fun u => eccentricity_vector (r u) (v u) (mu u)) s (@eccentricity_vector _ Num_V dr dv dm).
Proof.
  intros; both. eapply vpulls_of; [eapply ad_eccentricity_vector; eassumption | eapply m_eccentricity_vector; eassumption].
Qed.

Lemma rev_sigma_fn : forall (nin : nat) (speed : nat -> R) (s : R) r v mu dr dv dm,
  vpulls nin speed r s dr -> vpulls nin speed v s dv -> pulls nin speed mu s dm -> 0 < mu s ->
  pulls nin speed (fun u => sigma_fn (r u) (v u) (mu u)) s (@sigma_fn _ Num_V dr dv dm).
Proof.
  intros; both. eapply pulls_of; [eapply ad_sigma_fn; eassumption | eapply m_sigma_fn; eassumption].
Qed.

Lemma rev_ufunc0 : forall (nin : nat) (speed : nat -> R) (s : R) (chi al : R -> R) (dc da : node),
  pulls nin speed chi s dc -> pulls nin speed al s da -> al s <> 0 ->
  pulls nin speed (fun u => ufunc0 (chi u) (al u)) s (@ufunc0 _ Num_V dc da).
Proof.
  intros; both. eapply pulls_of; [eapply ad_ufunc0; eassumption | eapply m_ufunc0; eassumption].
Qed.

Lemma rev_ufunc1 : forall (nin : nat) (speed : nat -> R) (s : R) (chi al : R -> R) (dc da : node),
  pulls nin speed chi s dc -> pulls nin speed al s da -> al s <> 0 ->
  pulls nin speed (fun u => ufunc1 (chi u) (al u)) s (@ufunc1 _ Num_V dc da).
Proof.
  intros; both. eapply pulls_of; [eapply ad_ufunc1; eassumption | eapply m_ufunc1; eassumption].
Qed.

Lemma rev_ufunc2 : forall (nin : nat) (speed : nat -> R) (s : R) (chi al : R -> R) (dc da : node),
  pulls nin speed chi s dc -> pulls nin speed al s da -> al s <> 0 ->
  pulls nin speed (fun u => ufunc2 (chi u) (al u)) s (@ufunc2 _ Num_V dc da).
Proof.
  intros; both. eapply pulls_of; [eapply ad_ufunc2; eassumption | eapply m_ufunc2; eassumption].
Qed.

Lemma rev_ufunc3 : forall (nin : nat) (speed : nat -> R) (s : R) (chi al : R -> R) (dc da : node),
  pulls nin speed chi s dc -> pulls nin speed al s da -> al s <> 0 ->
  pulls nin speed (fun u => ufunc3 (chi u) (al u)) s (@ufunc3 _ Num_V dc da).
Proof.
  intros; both. eapply pulls_of; [eapply ad_ufunc3; eassumption | eapply m_ufunc3; eassumption].
Qed.

Lemma rev_ufunc4 : forall (nin : nat) (speed : nat -> R) (s : R) (chi al : R -> R) (dc da : node),
  pulls nin speed chi s dc -> pulls nin speed al s da -> al s <> 0 ->
  pulls nin speed (fun u => ufunc4 (chi u) (al u)) s (@ufunc4 _ Num_V dc da).
Proof.
  intros; both. eapply pulls_of; [eapply ad_ufunc4; eassumption | eapply m_ufunc4; eassumption].
Qed.

Lemma rev_ufunc5 : forall (nin : nat) (speed : nat -> R) (s : R) (chi al : R -> R) (dc da : node),
  pulls nin speed chi s dc -> pulls nin speed al s da -> al s <> 0 ->
  pulls nin speed (fun u => ufunc5 (chi u) (al u)) s (@ufunc5 _ Num_V dc da).
Proof.
  intros; both. eapply pulls_of; [eapply ad_ufunc5; eassumption | eapply m_ufunc5; eassumption].
Qed.

Lemma rev_lagrange_F : forall (nin : nat) (speed : nat -> R) (s : R) u2 r0 d2 dr,
  pulls nin speed u2 s d2 -> pulls nin speed r0 s dr -> r0 s <> 0 ->
  pulls nin speed (fun u => lagrange_F (u2 u) (r0 u)) s (@lagrange_F _ Num_V d2 dr).
Proof.
  intros; both. eapply pulls_of; [eapply ad_lagrange_F; eassumption | eapply m_lagrange_F; eassumption].
Qed.

Lemma rev_lagrange_G : forall (nin : nat) (speed : nat -> R) (s : R) u1 u2 s0 r0 mu d1 d2 ds dr dm,
  pulls nin speed u1 s d1 -> pulls nin speed u2 s d2 -> pulls nin speed s0 s ds -> pulls nin speed r0 s dr -> pulls nin speed mu s dm -> 0 < mu s ->
  pulls nin speed (fun u => lagrange_G (u1 u) (u2 u) (s0 u) (r0 u) (mu u)) s (@lagrange_G _ Num_V d1 d2 ds dr dm).
Proof.
  intros; both. eapply pulls_of; [eapply ad_lagrange_G; eassumption | eapply m_lagrange_G; eassumption].
Qed.

Lemma rev_lagrange_Ft : forall (nin : nat) (speed : nat -> R) (s : R) u1 r r0 mu d1 d dr dm,
  pulls nin speed u1 s d1 -> pulls nin speed r s d -> pulls nin speed r0 s dr -> pulls nin speed mu s dm -> r s <> 0 -> r0 s <> 0 -> 0 < mu s ->
  pulls nin speed (fun u => lagrange_Ft (u1 u) (r u) (r0 u) (mu u)) s (@lagrange_Ft _ Num_V d1 d dr dm).
Proof.
  intros; both. eapply pulls_of; [eapply ad_lagrange_Ft; eassumption | eapply m_lagrange_Ft; eassumption].
Qed.

Lemma rev_lagrange_Gt : forall (nin : nat) (speed : nat -> R) (s : R) u2 r d2 d,
  pulls nin speed u2 s d2 -> pulls nin speed r s d -> r s <> 0 ->
  pulls nin speed (fun u => lagrange_Gt (u2 u) (r u)) s (@lagrange_Gt _ Num_V d2 d).
Proof.
  intros; both. eapply pulls_of; [eapply ad_lagrange_Gt; eassumption | eapply m_lagrange_Gt; eassumption].
Qed.

Lemma rev_kepler_equ_elps : forall (nin : nat) (speed : nat -> R) (s : R) E e M dE_ de dM,
  pulls nin speed E s dE_ -> pulls nin speed e s de -> pulls nin speed M s dM ->
  pulls nin speed (fun u => kepler_equ_elps (E u) (e u) (M u)) s (@kepler_equ_elps _ Num_V dE_ de dM).
Proof.
  intros; both. eapply pulls_of; [eapply ad_kepler_equ_elps; eassumption | eapply m_kepler_equ_elps; eassumption].
Qed.

Lemma rev_kepler_equ_hypb : forall (nin : nat) (speed : nat -> R) (s : R) H e M dH_ de dM,
  pulls nin speed H s dH_ -> pulls nin speed e s de -> pulls nin speed M s dM ->
  pulls nin speed (fun u => kepler_equ_hypb (H u) (e u) (M u)) s (@kepler_equ_hypb _ Num_V dH_ de dM).
Proof.
  intros; both. eapply pulls_of; [eapply ad_kepler_equ_hypb; eassumption | eapply m_kepler_equ_hypb; eassumption].
Qed.

Lemma rev_mean_anomaly_elps : forall (nin : nat) (speed : nat -> R) (s : R) a t mu da dt dm,
  pulls nin speed a s da -> pulls nin speed t s dt -> pulls nin speed mu s dm -> 0 < a s -> 0 < mu s ->
  pulls nin speed (fun u => mean_anomaly_elps (a u) (t u) (mu u)) s (@mean_anomaly_elps _ Num_V da dt dm).
Proof.
  intros; both. eapply pulls_of; [eapply ad_mean_anomaly_elps; eassumption | eapply m_mean_anomaly_elps; eassumption].
Qed.

Lemma rev_mean_anomaly_hypb : forall (nin : nat) (speed : nat -> R) (s : R) a t mu da dt dm,
  pulls nin speed a s da -> pulls nin speed t s dt -> pulls nin speed mu s dm -> a s < 0 -> 0 < mu s ->
  pulls nin speed (fun u => mean_anomaly_hypb (a u) (t u) (mu u)) s (@mean_anomaly_hypb _ Num_V da dt dm).
Proof.
  intros; both. eapply pulls_of; [eapply ad_mean_anomaly_hypb; eassumption | eapply m_mean_anomaly_hypb; eassumption].
Qed.

Lemma rev_generalized_anomaly : forall (nin : nat) (speed : nat -> R) (s : R) al sg s0 t mu d1 d2 d3 d4 d5,
  pulls nin speed al s d1 -> pulls nin speed sg s d2 -> pulls nin speed s0 s d3 -> pulls nin speed t s d4 -> pulls nin speed mu s d5 -> 0 < mu s ->
  pulls nin speed (fun u => generalized_anomaly (al u) (sg u) (s0 u) (t u) (mu u)) s (@generalized_anomaly _ Num_V d1 d2 d3 d4 d5).
Proof.
  intros; both. eapply pulls_of; [eapply ad_generalized_anomaly; eassumption | eapply m_generalized_anomaly; eassumption].
Qed.

Lemma rev_kepler_equ_uni : forall (nin : nat) (speed : nat -> R) (s : R) chi al r0 s0 t mu d1 d2 d3 d4 d5 d6,
  pulls nin speed chi s d1 -> pulls nin speed al s d2 -> pulls nin speed r0 s d3 -> pulls nin speed s0 s d4 -> pulls nin speed t s d5 -> pulls nin speed mu s d6 ->
  al s <> 0 -> 0 < mu s ->
  pulls nin speed (fun u => kepler_equ_uni (chi u) (al u) (r0 u) (s0 u) (t u) (mu u)) s (@kepler_equ_uni _ Num_V d1 d2 d3 d4 d5 d6).
Proof.
  intros; both. eapply pulls_of; [eapply ad_kepler_equ_uni; eassumption | eapply m_kepler_equ_uni; eassumption].
Qed.

Lemma rev_dchi : forall (nin : nat) (speed : nat -> R) (s : R) chi al r0 s0 d1 d2 d3 d4,
  pulls nin speed chi s d1 -> pulls nin speed al s d2 -> pulls nin speed r0 s d3 -> pulls nin speed s0 s d4 -> al s <> 0 ->
  pulls nin speed (fun u => dchi (chi u) (al u) (r0 u) (s0 u)) s (@dchi _ Num_V d1 d2 d3 d4).
Proof.
  intros; both. eapply pulls_of; [eapply ad_dchi; eassumption | eapply m_dchi; eassumption].
Qed.

Lemma rev_C_func : forall (nin : nat) (speed : nat -> R) (s : R) chi u2 u4 u5 t mu d1 d2 d3 d4 d5 d6,
  pulls nin speed chi s d1 -> pulls nin speed u2 s d2 -> pulls nin speed u4 s d3 -> pulls nin speed u5 s d4 -> pulls nin speed t s d5 -> pulls nin speed mu s d6 -> 0 < mu s ->
  pulls nin speed (fun u => C_func (chi u) (u2 u) (u4 u) (u5 u) (t u) (mu u)) s (@C_func _ Num_V d1 d2 d3 d4 d5 d6).
Proof.
  intros; both. eapply pulls_of; [eapply ad_C_func; eassumption | eapply m_C_func; eassumption].
Qed.

Lemma rev_state_at_chi : forall (nin : nat) (speed : nat -> R) (s : R) chi al s0 r0 (rv vv : R -> vec) mu d1 d2 d3 d4 dr dv d5,
  pulls nin speed chi s d1 -> pulls nin speed al s d2 -> pulls nin speed s0 s d3 -> pulls nin speed r0 s d4 -> vpulls nin speed rv s dr -> vpulls nin speed vv s dv -> pulls nin speed mu s d5 ->
  al s <> 0 -> r0 s <> 0 -> 0 < mu s -> dchi (chi s) (al s) (r0 s) (s0 s) <> 0 ->
  vpulls nin speed (fun u => fst (state_at_chi (chi u) (al u) (s0 u) (r0 u) (rv u) (vv u) (mu u))) s (fst (@state_at_chi _ Num_V d1 d2 d3 d4 dr dv d5)) /\
  vpulls nin speed (fun u => snd (state_at_chi (chi u) (al u) (s0 u) (r0 u) (rv u) (vv u) (mu u))) s (snd (@state_at_chi _ Num_V d1 d2 d3 d4 dr dv d5)).
Proof.
  intros; both. edestruct ad_state_at_chi as [K0 K1]; cycle -1; [edestruct (m_state_at_chi nin speed) as [L0 L1]; cycle -1;
    [split; [exact (vpulls_of _ _ _ _ _ _ K0 L0) | exact (vpulls_of _ _ _ _ _ _ K1 L1)] | eassumption ..] | eassumption ..].
Qed.

Lemma rev_rotmat3dx : forall (nin : nat) (speed : nat -> R) (s : R) a da,
  pulls nin speed a s da -> mpulls nin speed (fun u => rotmat3dx (a u)) s (@rotmat3dx _ Num_V da).
Proof.
  intros; both. eapply mpulls_of; [eapply ad_rotmat3dx; eassumption | eapply m_rotmat3dx; eassumption].
Qed.

Lemma rev_rotmat3dy : forall (nin : nat) (speed : nat -> R) (s : R) a da,
  pulls nin speed a s da -> mpulls nin speed (fun u => rotmat3dy (a u)) s (@rotmat3dy _ Num_V da).
Proof.
  intros; both. eapply mpulls_of; [eapply ad_rotmat3dy; eassumption | eapply m_rotmat3dy; eassumption].
Qed.

Lemma rev_rotmat3dz : forall (nin : nat) (speed : nat -> R) (s : R) a da,
  pulls nin speed a s da -> mpulls nin speed (fun u => rotmat3dz (a u)) s (@rotmat3dz _ Num_V da).
Proof.
  intros; both. eapply mpulls_of; [eapply ad_rotmat3dz; eassumption | eapply m_rotmat3dz; eassumption].
Qed.

Lemma rev_coe2rv : forall (nin : nat) (speed : nat -> R) (s : R) p e i O w f mu d1 d2 d3 d4 d5 d6 d7,
  pulls nin speed p s d1 -> pulls nin speed e s d2 -> pulls nin speed i s d3 -> pulls nin speed O s d4 -> pulls nin speed w s d5 -> pulls nin speed f s d6 -> pulls nin speed mu s d7 ->
  0 < p s -> 0 < mu s -> 1 + e s * cos (f s) <> 0 ->
  vpulls nin speed (fun u => fst (coe2rv (p u) (e u) (i u) (O u) (w u) (f u) (mu u))) s (fst (@coe2rv _ Num_V d1 d2 d3 d4 d5 d6 d7)) /\
  vpulls nin speed (fun u => snd (coe2rv (p u) (e u) (i u) (O u) (w u) (f u) (mu u))) s (snd (@coe2rv _ Num_V d1 d2 d3 d4 d5 d6 d7)).
Proof.
  intros; both. edestruct ad_coe2rv as [K0 K1]; cycle -1; [edestruct (m_coe2rv nin speed) as [L0 L1]; cycle -1;
    [split; [exact (vpulls_of _ _ _ _ _ _ K0 L0) | exact (vpulls_of _ _ _ _ _ _ K1 L1)] | eassumption ..] | eassumption ..].
Qed.

Lemma rev_inclination : forall (nin : nat) (speed : nat -> R) (s : R) h dh,
  vpulls nin speed h s dh -> (c0 (h s) <> 0 \/ c1 (h s) <> 0) ->
  pulls nin speed (fun u => inclination (h u)) s (@inclination _ Num_V dh).
Proof.
  intros; both. eapply pulls_of; [eapply ad_inclination; eassumption | eapply m_inclination; eassumption].
Qed.

Lemma rev_right_ascension : forall (nin : nat) (speed : nat -> R) (s : R) n dn,
  vpulls nin speed n s dn -> c1 (n s) <> 0 \/ c0 (n s) < 0 ->
  pulls nin speed (fun u => right_ascension (n u)) s (@right_ascension _ Num_V dn).
Proof.
  intros; both. eapply pulls_of; [eapply ad_right_ascension; eassumption | eapply m_right_ascension; eassumption].
Qed.

Lemma rev_node_vec : forall (nin : nat) (speed : nat -> R) (s : R) h dh,
  vpulls nin speed h s dh -> vpulls nin speed (fun u => node_vec (h u)) s (@node_vec _ Num_V dh).
Proof.
  intros; both. eapply vpulls_of; [eapply ad_node_vec; eassumption | eapply m_node_vec; eassumption].
Qed.

Lemma rev_true_anomaly : forall (nin : nat) (speed : nat -> R) (s : R) r e dr de,
  vpulls nin speed r s dr -> vpulls nin speed e s de -> vcross (e s) (r s) <> vzero ->
  pulls nin speed (fun u => true_anomaly (r u) (e u)) s (@true_anomaly _ Num_V dr de).
Proof.
  intros; both. eapply pulls_of; [eapply ad_true_anomaly; eassumption | eapply m_true_anomaly; eassumption].
Qed.

Lemma rev_argument_of_periapsis : forall (nin : nat) (speed : nat -> R) (s : R) n e dn de,
  vpulls nin speed n s dn -> vpulls nin speed e s de -> vcross (n s) (e s) <> vzero ->
  pulls nin speed (fun u => argument_of_periapsis (n u) (e u)) s (@argument_of_periapsis _ Num_V dn de).
Proof.
  intros; both. eapply pulls_of; [eapply ad_argument_of_periapsis; eassumption | eapply m_argument_of_periapsis; eassumption].
Qed.

Lemma rev_rv2coe : forall (nin : nat) (speed : nat -> R) (s : R) (r v : R -> vec) mu dr dv dm,
  vpulls nin speed r s dr -> vpulls nin speed v s dv -> pulls nin speed mu s dm ->
  let h := cross (r s) (v s) in let e := eccentricity_vector (r s) (v s) (mu s) in
  0 < mu s -> c0 h <> 0 \/ c1 h <> 0 -> c0 h <> 0 \/ 0 < c1 h -> cross (mk3 0 0 1) h <> vzero ->
  cross (cross (mk3 0 0 1) h) e <> vzero -> cross e (r s) <> vzero ->
  let k := fun u => rv2coe (r u) (v u) (mu u) in let d := @rv2coe _ Num_V dr dv dm in
  pulls nin speed (fun u => coe_p (k u)) s (coe_p d) /\ pulls nin speed (fun u => coe_e (k u)) s (coe_e d) /\
  pulls nin speed (fun u => coe_incl (k u)) s (coe_incl d) /\ pulls nin speed (fun u => coe_raan (k u)) s (coe_raan d) /\
  pulls nin speed (fun u => coe_argp (k u)) s (coe_argp d) /\ pulls nin speed (fun u => coe_f (k u)) s (coe_f d).
Proof.
  intros nin speed s r v mu dr dv dm Hr Hv Hm h e A1 A2 A3 A4 A5 A6 k d.
  pose proof (ad_rv2coe s r v mu _ _ _ (vpulls_carries _ _ _ _ _ Hr) (vpulls_carries _ _ _ _ _ Hv) (pulls_carries _ _ _ _ _ Hm) A1 A2 A3 A4 A5 A6) as K.
  pose proof (m_rv2coe nin speed dr dv dm _ _ _ (vpulls_mir _ _ _ _ _ Hr) (vpulls_mir _ _ _ _ _ Hv) (pulls_mir _ _ _ _ _ Hm)) as L.
  cbv zeta in K, L. destruct K as [K0 [K1 [K2 [K3 [K4 K5]]]]]. destruct L as [L0 [L1 [L2 [L3 [L4 L5]]]]].
  split; [exact (pulls_of _ _ _ _ _ _ K0 L0) |]. split; [exact (pulls_of _ _ _ _ _ _ K1 L1) |]. split; [exact (pulls_of _ _ _ _ _ _ K2 L2) |].
  split; [exact (pulls_of _ _ _ _ _ _ K3 L3) |]. split; [exact (pulls_of _ _ _ _ _ _ K4 L4) | exact (pulls_of _ _ _ _ _ _ K5 L5)].
Qed.

Lemma rev_point_mass : forall (nin : nat) (speed : nat -> R) (s : R) (x0 x1 x2 : R -> R) (d0 d1 d2 : node) (rest : R -> list R) (rrest : list node)
    (t : R -> R) (dt : node) (args : R -> dict) (rargs : dict) (mu : R -> R) (dm : node),
  pulls nin speed x0 s d0 -> pulls nin speed x1 s d1 -> pulls nin speed x2 s d2 -> mk3 (x0 s) (x1 s) (x2 s) <> vzero ->
  pulled nin speed s "mu" args rargs mu dm ->
  exists acc racc, (forall u, point_mass_grav (t u) (x0 u :: x1 u :: x2 u :: rest u) (args u) = Ok (acc u)) /\
    @point_mass_grav _ Num_V dt (d0 :: d1 :: d2 :: rrest) rargs = Ok racc /\ vpulls nin speed acc s racc.
Proof.
  intros nin speed s x0 x1 x2 d0 d1 d2 rest rrest t dt args rargs mu dm H0 H1 H2 Hz [A1 [B1 P1]].
  destruct (ad_point_mass s x0 x1 x2 _ _ _ rest []
    (pulls_carries _ _ _ _ _ H0) (pulls_carries _ _ _ _ _ H1) (pulls_carries _ _ _ _ _ H2) Hz t (konst 0) args [("mu"%string, the_dual nin speed dm)] mu _
    (conj A1 (conj eq_refl (pulls_carries _ _ _ _ _ P1)))) as [acc [dacc [E [D C]]]].
  exists acc, (@pm_form _ Num_V d0 d1 d2 (@norm_first3 _ Num_V (d0 :: d1 :: d2 :: rrest)) dm).
  split; [exact E |]. split; [now apply pm_is |].
  rewrite (pm_is (N := Num_D) (konst 0) _ _ _ [] [("mu"%string, the_dual nin speed dm)] (the_dual nin speed dm) eq_refl) in D. apply ok_inj in D. rewrite <- D in C.
  eapply vpulls_of; [exact C |]. apply m_pm_form; [| | | apply m_norm_first3 |]; eapply pulls_mir; eassumption.
Qed.

Lemma rev_j2 : forall (nin : nat) (speed : nat -> R) (s : R) (x0 x1 x2 : R -> R) (d0 d1 d2 : node) (rest : R -> list R) (rrest : list node)
    (t : R -> R) (dt : node) (args : R -> dict) (rargs : dict) (mu J Q : R -> R) (dm dJ dQ : node),
  pulls nin speed x0 s d0 -> pulls nin speed x1 s d1 -> pulls nin speed x2 s d2 -> mk3 (x0 s) (x1 s) (x2 s) <> vzero ->
  pulled nin speed s "mu" args rargs mu dm ->
  pulled nin speed s "R_eq" args rargs Q dQ -> pulled nin speed s "J2" args rargs J dJ ->
  exists acc racc, (forall u, j2_acc (t u) (x0 u :: x1 u :: x2 u :: rest u) (args u) = Ok (acc u)) /\
    @j2_acc _ Num_V dt (d0 :: d1 :: d2 :: rrest) rargs = Ok racc /\ vpulls nin speed acc s racc.
Proof.
  intros nin speed s x0 x1 x2 d0 d1 d2 rest rrest t dt args rargs mu J Q dm dJ dQ H0 H1 H2 Hz [A1 [B1 P1]] [A2 [B2 P2]] [A3 [B3 P3]].
  destruct (ad_j2 s x0 x1 x2 _ _ _ rest []
    (pulls_carries _ _ _ _ _ H0) (pulls_carries _ _ _ _ _ H1) (pulls_carries _ _ _ _ _ H2) Hz t (konst 0) args [("mu"%string, the_dual nin speed dm); ("R_eq"%string, the_dual nin speed dQ); ("J2"%string, the_dual nin speed dJ)] mu J Q _ _ _
    (conj A1 (conj eq_refl (pulls_carries _ _ _ _ _ P1))) (conj A2 (conj eq_refl (pulls_carries _ _ _ _ _ P2)))
    (conj A3 (conj eq_refl (pulls_carries _ _ _ _ _ P3)))) as [acc [dacc [E [D C]]]].
  exists acc, (@j2_form _ Num_V d0 d1 d2 (@norm_first3 _ Num_V (d0 :: d1 :: d2 :: rrest)) dm dJ dQ).
  split; [exact E |]. split; [now apply j2_is |].
  rewrite (j2_is (N := Num_D) (konst 0) _ _ _ [] [("mu"%string, the_dual nin speed dm); ("R_eq"%string, the_dual nin speed dQ); ("J2"%string, the_dual nin speed dJ)] (the_dual nin speed dm) (the_dual nin speed dJ) (the_dual nin speed dQ) eq_refl eq_refl eq_refl) in D. apply ok_inj in D. rewrite <- D in C.
  eapply vpulls_of; [exact C |]. apply m_j2_form; [| | | apply m_norm_first3 | | |]; eapply pulls_mir; eassumption.
Qed.

Lemma rev_j3 : forall (nin : nat) (speed : nat -> R) (s : R) (x0 x1 x2 : R -> R) (d0 d1 d2 : node) (rest : R -> list R) (rrest : list node)
    (t : R -> R) (dt : node) (args : R -> dict) (rargs : dict) (mu J Q : R -> R) (dm dJ dQ : node),
  pulls nin speed x0 s d0 -> pulls nin speed x1 s d1 -> pulls nin speed x2 s d2 -> mk3 (x0 s) (x1 s) (x2 s) <> vzero ->
  pulled nin speed s "mu" args rargs mu dm ->
  pulled nin speed s "R_eq" args rargs Q dQ -> pulled nin speed s "J3" args rargs J dJ ->
  exists acc racc, (forall u, j3_acc (t u) (x0 u :: x1 u :: x2 u :: rest u) (args u) = Ok (acc u)) /\
    @j3_acc _ Num_V dt (d0 :: d1 :: d2 :: rrest) rargs = Ok racc /\ vpulls nin speed acc s racc.
Proof.
  intros nin speed s x0 x1 x2 d0 d1 d2 rest rrest t dt args rargs mu J Q dm dJ dQ H0 H1 H2 Hz [A1 [B1 P1]] [A2 [B2 P2]] [A3 [B3 P3]].
  destruct (ad_j3 s x0 x1 x2 _ _ _ rest []
    (pulls_carries _ _ _ _ _ H0) (pulls_carries _ _ _ _ _ H1) (pulls_carries _ _ _ _ _ H2) Hz t (konst 0) args [("mu"%string, the_dual nin speed dm); ("R_eq"%string, the_dual nin speed dQ); ("J3"%string, the_dual nin speed dJ)] mu J Q _ _ _
    (conj A1 (conj eq_refl (pulls_carries _ _ _ _ _ P1))) (conj A2 (conj eq_refl (pulls_carries _ _ _ _ _ P2)))
    (conj A3 (conj eq_refl (pulls_carries _ _ _ _ _ P3)))) as [acc [dacc [E [D C]]]].
  exists acc, (@j3_form _ Num_V d0 d1 d2 (@norm_first3 _ Num_V (d0 :: d1 :: d2 :: rrest)) dm dJ dQ).
  split; [exact E |]. split; [now apply j3_is |].
  rewrite (j3_is (N := Num_D) (konst 0) _ _ _ [] [("mu"%string, the_dual nin speed dm); ("R_eq"%string, the_dual nin speed dQ); ("J3"%string, the_dual nin speed dJ)] (the_dual nin speed dm) (the_dual nin speed dJ) (the_dual nin speed dQ) eq_refl eq_refl eq_refl) in D. apply ok_inj in D. rewrite <- D in C.
  eapply vpulls_of; [exact C |]. apply m_j3_form; [| | | apply m_norm_first3 | | |]; eapply pulls_mir; eassumption.
Qed.

Lemma rev_j4 : forall (nin : nat) (speed : nat -> R) (s : R) (x0 x1 x2 : R -> R) (d0 d1 d2 : node) (rest : R -> list R) (rrest : list node)
    (t : R -> R) (dt : node) (args : R -> dict) (rargs : dict) (mu J Q : R -> R) (dm dJ dQ : node),
  pulls nin speed x0 s d0 -> pulls nin speed x1 s d1 -> pulls nin speed x2 s d2 -> mk3 (x0 s) (x1 s) (x2 s) <> vzero ->
  pulled nin speed s "mu" args rargs mu dm ->
  pulled nin speed s "R_eq" args rargs Q dQ -> pulled nin speed s "J4" args rargs J dJ ->
  exists acc racc, (forall u, j4_acc (t u) (x0 u :: x1 u :: x2 u :: rest u) (args u) = Ok (acc u)) /\
    @j4_acc _ Num_V dt (d0 :: d1 :: d2 :: rrest) rargs = Ok racc /\ vpulls nin speed acc s racc.
Proof.
  intros nin speed s x0 x1 x2 d0 d1 d2 rest rrest t dt args rargs mu J Q dm dJ dQ H0 H1 H2 Hz [A1 [B1 P1]] [A2 [B2 P2]] [A3 [B3 P3]].
  destruct (ad_j4 s x0 x1 x2 _ _ _ rest []
    (pulls_carries _ _ _ _ _ H0) (pulls_carries _ _ _ _ _ H1) (pulls_carries _ _ _ _ _ H2) Hz t (konst 0) args [("mu"%string, the_dual nin speed dm); ("R_eq"%string, the_dual nin speed dQ); ("J4"%string, the_dual nin speed dJ)] mu J Q _ _ _
    (conj A1 (conj eq_refl (pulls_carries _ _ _ _ _ P1))) (conj A2 (conj eq_refl (pulls_carries _ _ _ _ _ P2)))
    (conj A3 (conj eq_refl (pulls_carries _ _ _ _ _ P3)))) as [acc [dacc [E [D C]]]].
  exists acc, (@j4_form _ Num_V d0 d1 d2 (@norm_first3 _ Num_V (d0 :: d1 :: d2 :: rrest)) dm dJ dQ).
  split; [exact E |]. split; [now apply j4_is |].
  rewrite (j4_is (N := Num_D) (konst 0) _ _ _ [] [("mu"%string, the_dual nin speed dm); ("R_eq"%string, the_dual nin speed dQ); ("J4"%string, the_dual nin speed dJ)] (the_dual nin speed dm) (the_dual nin speed dJ) (the_dual nin speed dQ) eq_refl eq_refl eq_refl) in D. apply ok_inj in D. rewrite <- D in C.
  eapply vpulls_of; [exact C |]. apply m_j4_form; [| | | apply m_norm_first3 | | |]; eapply pulls_mir; eassumption.
Qed.
