(** * B32Odd: the elliptic Kepler solver at the opposite anomaly in single precision (proofs for C98) *)
From Coq Require Import ZArith Reals Lra Lia Bool.
From Coquelicot Require Import Coquelicot.
From Flocq Require Import Core IEEE754.BinarySingleNaN.
From Verif Require Import Num NumB32 B32Facts KepEqu SpecMirror SgnCalc SgnCalc2 SgnCalc4 SgnFloat B32Mirror.
Local Open Scope R_scope.

Section Odd.
  Variable L : libm.
  Let N : Num b32 := Num_B32 L.
  Let Lw := laws32 L.
  Hypothesis Osin : forall a, m_sin L (Bopp a) = Bopp (m_sin L a).
  Hypothesis Ocos : forall a, m_cos L (Bopp a) = m_cos L a.
  Hypothesis Zsin : forall s, m_sin L (B754_zero s) = B754_zero s.
  Lemma moving_opp (a b : b32) : FR 24 128 true a b -> Rabs (B2R a) <> 64 -> moving b = moving a.
  Proof using.
    intros [->|[[s ->] [t ->]]] H; [|reflexivity]. cbn [Flp]. unfold moving. rewrite is_finite_Bopp, B2R_Bopp.
    destruct (is_finite a); [|reflexivity]. cbn [andb].
    destruct (Rcase_abs (B2R a)) as [P|P]; [rewrite Rabs_left in H by exact P|rewrite Rabs_pos_eq in H by lra].
    - rewrite (Rle_bool_true (-64) (- B2R a)), (Rlt_bool_true (B2R a) 64) by lra.
      destruct (Rle_bool_spec (-64) (B2R a)); [rewrite Rlt_bool_true by lra; reflexivity|rewrite Rlt_bool_false by lra; reflexivity].
    - rewrite (Rlt_bool_true (- B2R a) 64), (Rle_bool_true (-64) (B2R a)), andb_true_r by lra. cbn [andb].
      destruct (Rlt_bool_spec (B2R a) 64); [rewrite Rle_bool_true by lra; reflexivity|rewrite Rle_bool_false by lra; reflexivity].
  Qed.
  Lemma elps_odd (M e : b32) (mi : Z) : Rabs (B2R (@elps_guess _ N M e)) <> 64 ->
    fsame (Bopp (@solve_kepler_elps _ N M e (@default_tol _ N) mi)) (@solve_kepler_elps _ N (Bopp M) e (@default_tol _ N) mi).
  Proof using Osin Ocos Zsin.
    intros H. apply (rel_same true).
    assert (Ys : forall a a', @Rl _ N (fz 24 128) true a a' -> @Rl _ N (fz 24 128) true (@n_sin _ N a) (@n_sin _ N a')).
    { intros a a' [->|[[s ->] [t ->]]]; [left; apply Osin|right; split; [exists s|exists t]; apply Zsin]. }
    assert (Yc : forall a a', @Rl _ N (fz 24 128) true a a' -> @n_cos _ N a' = @n_cos _ N a).
    { intros a a' [->|[[s ->] [t ->]]]; [apply Ocos|apply (even_zero _ Ocos)]. }
    assert (HM : @Rl _ N (fz 24 128) true M (Bopp M)) by (left; reflexivity).
    pose proof (guess_odd (fz 24 128) Lw Ys Yc M (Bopp M) e HM) as G.
    apply (solve_odd (fz 24 128) Lw Ys Yc M (Bopp M) e HM (@default_tol _ N) mi).
    refine (eq_trans (elps_test_B32 L (Bopp M) e mi) (eq_trans _ (eq_sym (elps_test_B32 L M e mi)))).
    exact (f_equal (fun b => andb b (Z.ltb 0 mi)) (moving_opp _ _ G H)).
  Qed.
End Odd.
