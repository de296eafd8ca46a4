(** * Witness: a concrete non-trivial orbit used by the examples

    An inclined ellipse: r = (1, 0, 0), v = (0, 1, 1/2), mu = 1, energy -3/8,
    angular momentum (0, -1/2, 1), eccentricity vector (1/4, 0, 0). *)
From Coq Require Import Reals Lra Psatz.
From Verif Require Import Num NumR Spec RLib OrbFacts OrbIntegrals.
Local Open Scope R_scope.

Definition wr : vec := mk3 1 0 0.
Definition wv : vec := mk3 0 1 (1 / 2).

Lemma wr_norm : vnorm wr = 1.
Proof. apply vnorm_unique; [lra|]. unfold dot, wr; simpl. ring. Qed.
Lemma wr_neq : wr <> vzero.
Proof. unfold wr, vzero. intros H. injection H. lra. Qed.
Lemma wh_neq : cross wr wv <> vzero.
Proof. unfold wr, wv, vzero, cross; simpl. intros H. injection H. lra. Qed.
Lemma wv_sq : dot wv wv = 5 / 4.
Proof. unfold dot, wv; simpl. lra. Qed.
Lemma w_energy : energy 1 wr wv = - (3 / 8).
Proof. unfold energy. rewrite wr_norm, wv_sq. lra. Qed.
Lemma w_alpha : 2 / vnorm wr - vnorm wv ^ 2 / 1 = 3 / 4.
Proof. rewrite wr_norm, vnorm_sq2, wv_sq. lra. Qed.
Lemma w_ecc : eccentricity_vector wr wv 1 = mk3 (1 / 4) 0 0.
Proof.
  rewrite eccentricity_vector_R, wr_norm. unfold wr, wv, vminus, smul, cross; simpl.
  apply mk3_eq; field.
Qed.
Lemma we_neq : eccentricity_vector wr wv 1 <> vzero.
Proof. rewrite w_ecc. unfold vzero. intros H. injection H. lra. Qed.
Lemma we_norm : vnorm (eccentricity_vector wr wv 1) = 1 / 4.
Proof. rewrite w_ecc. apply vnorm_unique; [lra|]. unfold dot; simpl. lra. Qed.
