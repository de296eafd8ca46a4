(** * NdElem: the elementwise formulas broadcast (proofs for C53) *)
From Coq Require Import List Arith Lia ZArith Bool.
Import ListNotations.
From Verif Require Import Num Nd NdModel SpecNd NdLib OrbIntegrals Uniformulas Lagrange KepEqu StateTrans PathCheck.

Ltac unnd := cbn [n_Z n_dec n_pi n_add n_sub n_mul n_div n_neg n_abs n_sqrt n_cbrt n_sin n_cos n_sinh n_cosh n_log
  n_arccos n_arctan2 n_floor n_max Num_nd Num_arrays].
Ltac rels := cbv beta; unnd; repeat lazymatch goal with
  | |- rel _ (Some ?a) _ => apply rel_leaf
  | |- rel _ (scalar _) _ => apply rel_scalar
  | |- rel ?S (lift1 _ _) _ => apply (rel_lift1 S)
  | |- rel ?S (lift2 _ _ _) _ => apply (rel_lift2 S)
  | |- rel ?S (npow _ _) _ => apply (rel_pow S)
  end.
Ltac covs := unnd; repeat first
  [ apply cov_leaf | apply cov_lift1 | apply cov_pow
  | (apply cov_lift2l; solve [covs]) | (apply cov_lift2r; solve [covs]) ].
Ltac ewise := apply ew;
  [ let S := fresh "S" in let H := fresh "H" in intros S H; rels; apply H; cbn; tauto
  | let x := fresh "x" in let H := fresh "H" in intros x H; cbn in H;
    repeat (destruct H as [<-|H]; [solve [covs]|]); destruct H ].

Section Elem.
  Context {T : Type} {N : Num T}.
  Notation F := (@Num_nd T N).
  Variables a b c d e g : arr T.
  Lemma e_orb_period : elementwise [a; b] (@orb_period _ F (Some a) (Some b)) (fun x => orb_period (x a) (x b)).
  Proof using. unfold orb_period. ewise. Qed.
  Lemma e_a_from_period : elementwise [a; b] (@a_from_period _ F (Some a) (Some b)) (fun x => a_from_period (x a) (x b)).
  Proof using. unfold a_from_period. ewise. Qed.
  Lemma e_semimajor_axis : elementwise [a; b; c] (@semimajor_axis _ F (Some a) (Some b) (Some c)) (fun x => semimajor_axis (x a) (x b) (x c)).
  Proof using. unfold semimajor_axis. ewise. Qed.
  Lemma e_semiparameter : elementwise [a; b] (@semiparameter _ F (Some a) (Some b)) (fun x => semiparameter (x a) (x b)).
  Proof using. unfold semiparameter. ewise. Qed.
  Lemma e_mean_motion : elementwise [a] (@mean_motion _ F (Some a)) (fun x => mean_motion (x a)).
  Proof using. unfold mean_motion. ewise. Qed.
  Lemma e_equ_of_orbit : elementwise [a; b; c] (@equ_of_orbit _ F (Some a) (Some b) (Some c)) (fun x => equ_of_orbit (x a) (x b) (x c)).
  Proof using. unfold equ_of_orbit. ewise. Qed.
  Lemma e_equ_of_orb_uvi : elementwise [a; b; c; d; e] (@equ_of_orb_uvi _ F (Some a) (Some b) (Some c) (Some d) (Some e)) (fun x => equ_of_orb_uvi (x a) (x b) (x c) (x d) (x e)).
  Proof using. unfold equ_of_orb_uvi. ewise. Qed.
  Lemma e_radius_periapsis : elementwise [a; b] (@radius_periapsis _ F (Some a) (Some b)) (fun x => radius_periapsis (x a) (x b)).
  Proof using. unfold radius_periapsis. ewise. Qed.
  Lemma e_radius_apoapsis : elementwise [a; b] (@radius_apoapsis _ F (Some a) (Some b)) (fun x => radius_apoapsis (x a) (x b)).
  Proof using. unfold radius_apoapsis. ewise. Qed.
  Lemma e_semipara_from_ae : elementwise [a; b] (@semipara_from_ae _ F (Some a) (Some b)) (fun x => semipara_from_ae (x a) (x b)).
  Proof using. unfold semipara_from_ae. ewise. Qed.
  Lemma e_a_from_pe : elementwise [a; b] (@a_from_pe _ F (Some a) (Some b)) (fun x => a_from_pe (x a) (x b)).
  Proof using. unfold a_from_pe. ewise. Qed.
  Lemma e_lagrange_F : elementwise [a; b] (@lagrange_F _ F (Some a) (Some b)) (fun x => lagrange_F (x a) (x b)).
  Proof using. unfold lagrange_F. ewise. Qed.
  Lemma e_lagrange_G : elementwise [a; b; c; d; e] (@lagrange_G _ F (Some a) (Some b) (Some c) (Some d) (Some e)) (fun x => lagrange_G (x a) (x b) (x c) (x d) (x e)).
  Proof using. unfold lagrange_G. ewise. Qed.
  Lemma e_lagrange_Ft : elementwise [a; b; c; d] (@lagrange_Ft _ F (Some a) (Some b) (Some c) (Some d)) (fun x => lagrange_Ft (x a) (x b) (x c) (x d)).
  Proof using. unfold lagrange_Ft. ewise. Qed.
  Lemma e_lagrange_Gt : elementwise [a; b] (@lagrange_Gt _ F (Some a) (Some b)) (fun x => lagrange_Gt (x a) (x b)).
  Proof using. unfold lagrange_Gt. ewise. Qed.
  Lemma e_kepler_equ_elps : elementwise [a; b; c] (@kepler_equ_elps _ F (Some a) (Some b) (Some c)) (fun x => kepler_equ_elps (x a) (x b) (x c)).
  Proof using. unfold kepler_equ_elps. ewise. Qed.
  Lemma e_dE : elementwise [a; b] (@dE _ F (Some a) (Some b)) (fun x => dE (x a) (x b)).
  Proof using. unfold dE. ewise. Qed.
  Lemma e_kepler_equ_hypb : elementwise [a; b; c] (@kepler_equ_hypb _ F (Some a) (Some b) (Some c)) (fun x => kepler_equ_hypb (x a) (x b) (x c)).
  Proof using. unfold kepler_equ_hypb. ewise. Qed.
  Lemma e_dH : elementwise [a; b] (@dH _ F (Some a) (Some b)) (fun x => dH (x a) (x b)).
  Proof using. unfold dH. ewise. Qed.
  Lemma e_mean_anomaly_elps : elementwise [a; b; c] (@mean_anomaly_elps _ F (Some a) (Some b) (Some c)) (fun x => mean_anomaly_elps (x a) (x b) (x c)).
  Proof using. unfold mean_anomaly_elps. ewise. Qed.
  Lemma e_mean_anomaly_hypb : elementwise [a; b; c] (@mean_anomaly_hypb _ F (Some a) (Some b) (Some c)) (fun x => mean_anomaly_hypb (x a) (x b) (x c)).
  Proof using. unfold mean_anomaly_hypb. ewise. Qed.
  Lemma e_generalized_anomaly : elementwise [a; b; c; d; e] (@generalized_anomaly _ F (Some a) (Some b) (Some c) (Some d) (Some e)) (fun x => generalized_anomaly (x a) (x b) (x c) (x d) (x e)).
  Proof using. unfold generalized_anomaly. ewise. Qed.
  Lemma e_C_func : elementwise [a; b; c; d; e; g] (@C_func _ F (Some a) (Some b) (Some c) (Some d) (Some e) (Some g)) (fun x => C_func (x a) (x b) (x c) (x d) (x e) (x g)).
  Proof using. unfold C_func. ewise. Qed.
  Lemma e_nmax : elementwise [a; b; c; d; e] (@nmax_by_periapsis _ F (Some a) (Some b) (Some c) (Some d) (Some e)) (fun x => nmax_by_periapsis (x a) (x b) (x c) (x d) (x e)).
  Proof using. unfold nmax_by_periapsis. ewise. Qed.
End Elem.
