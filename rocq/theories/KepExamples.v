(** * KepExamples: concrete cases for the propagation theorems *)
From Coq Require Import Reals Lra List ZArith.
From Verif Require Import Num NumR Spec RLib OrbIntegrals Uniformulas KepEqu StateTrans PropKepler OrbFacts
  KepState KepMotion LoopFacts KepRows Witness.
Import ListNotations.
Local Open Scope R_scope.

Lemma wh : cross wr wv = mk3 0 (- (1 / 2)) 1.
Proof. unfold cross, wr, wv; simpl. apply mk3_eq; lra. Qed.

Lemma kepler_example :
  0 < 1 /\ wr <> vzero /\ cross wr wv <> vzero /\ nth_error [5; 0; -7] 1 = Some 0 /\
  length (kepler [5; 0; -7] wr wv 1) = 3%nat /\
  nth_error (kepler [5; 0; -7] wr wv 1) 1 = Some (wr, wv) /\
  (exists r v, In (r, v) (kepler [5; 0; -7] wr wv 1) /\ energy 1 r v = - (3 / 8) /\ cross r v = mk3 0 (- (1 / 2)) 1).
Proof.
  split; [lra|]. split; [exact wr_neq|]. split; [exact wh_neq|]. split; [reflexivity|].
  split; [now rewrite (proj2 (kepler_rows _ _ _ _))|].
  split; [apply kepler_at_0; [exact wr_neq|lra|reflexivity]|].
  pose proof (kepler_row [5; 0; -7] wr wv 1 0 5 eq_refl) as K.
  eexists _, _. split; [exact (nth_error_In _ _ K)|].
  destruct (rows_conserve _ wr wv 1 _ _ Rlt_0_1 wh_neq (nth_error_In _ _ K)) as [A [_ [B _]]].
  rewrite !angular_momentum_R in A. rewrite A, B. split; [exact w_energy|exact wh].
Qed.

Lemma state_example : exists r v,
  (r, v) = state_at_chi 1 (alpha_of (vnorm wr) (vnorm wv) 1) (sigma_fn wr wv 1) (vnorm wr) wr wv 1 /\
  cross r v <> vzero.
Proof.
  rewrite state_at_chi_S. eexists _, _. split; [reflexivity|].
  rewrite h_conserved; [exact wh_neq|lra|exact wr_neq|]. apply rad_neq; [lra|exact wh_neq].
Qed.
