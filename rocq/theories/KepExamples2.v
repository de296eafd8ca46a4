(** * The unit circle as a concrete case of the propagation theorems *)
From Coq Require Import Reals Lra List ZArith.
From Coquelicot Require Import Coquelicot.
From Verif Require Import Num NumR Spec RLib OrbIntegrals Uniformulas Lagrange KepEqu StateTrans PropKepler SeriesU UFacts OrbFacts EquiExamples.
Import ListNotations.
Local Open Scope R_scope.

Lemma quarter : (mk3 (cos (PI / 2)) (sin (PI / 2)) 0, mk3 (- sin (PI / 2)) (cos (PI / 2)) 0) = (mk3 0 1 0, mk3 (-1) 0 0) :> vec * vec.
Proof. rewrite cos_PI2, sin_PI2. reflexivity. Qed.
Lemma circle_rows : kepler [5; PI / 2] (mk3 1 0 0) (mk3 0 1 0) 1 = [(mk3 (cos 5) (sin 5) 0, mk3 (- sin 5) (cos 5) 0); (mk3 0 1 0, mk3 (-1) 0 0)].
Proof. rewrite circ_kepler. cbn [map]. now rewrite quarter. Qed.
Lemma circle_row1 : nth_error (kepler [5; PI / 2] (mk3 1 0 0) (mk3 0 1 0) 1) 1 = Some (mk3 0 1 0, mk3 (-1) 0 0).
Proof. now rewrite circle_rows. Qed.
Lemma circle_momentum : In (mk3 0 1 0, mk3 (-1) 0 0) (kepler [5; PI / 2] (mk3 1 0 0) (mk3 0 1 0) 1) /\
  angular_momentum (mk3 0 1 0) (mk3 (-1) 0 0) = mk3 0 0 1 /\ angular_momentum (mk3 1 0 0) (mk3 0 1 0) = mk3 0 0 1.
Proof.
  rewrite circle_rows. split; [right; now left|].
  split; rewrite angular_momentum_R; unfold cross; cbn [c0 c1 c2]; apply mk3_eq; ring.
Qed.
Lemma circle_radius : equ_of_orb_uvi (ufunc0 2 1) (ufunc1 2 1) (ufunc2 2 1) 1 0 = 1.
Proof. rewrite equ_of_orb_uvi_R, ufunc0_U, ufunc1_U, ufunc2_U, U0_eq. ring. Qed.
Lemma circle_flow : flows_to 1 (PI / 2) (mk3 1 0 0, mk3 0 1 0) (mk3 0 1 0, mk3 (-1) 0 0).
Proof. rewrite <- quarter. apply circ_flow. Qed.
Lemma circle_root (t : R) : kepler_equ_uni t 1 1 0 t 1 = 0.
Proof.
  unfold kepler_equ_uni. rewrite ufunc1_U, ufunc2_U, ufunc3_U, U1_eq. cbn [n_sub n_add n_mul n_sqrt Num_R]. rewrite sqrt_1. ring.
Qed.
