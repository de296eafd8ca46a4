(** * Fine32: a math library accurate to six units in the last place of 1, for the examples *)
From Coq Require Import ZArith Reals Lra Lia Psatz Bool List.
From Flocq Require Import Core IEEE754.BinarySingleNaN.
From Verif Require Import Num NumB32 SpecFlV RoundFn B32Lib B32Acc B32Rel B32Uf.
Local Open Scope R_scope.

(** every function rounded up from the exact one to 22 fractional bits *)
Definition fine32 (x : R) : b32 := binary_normalize 24 128 _ _ mode_NE (up (x * 4194304)) (-22) false.
Lemma fine32_err (x m : R) : Rabs x <= m -> 1 <= m <= IZR (2 ^ 60) -> is_finite (fine32 x) = true /\ Rabs (B2R (fine32 x) - x) <= INR 6 * / IZR (2 ^ 24) * m.
Proof.
  intros H Hm. apply Rabs_le_inv in H.
  set (n := up (x * 4194304)).
  destruct (archimed (x * 4194304)) as [A1 A2]. fold n in A1, A2.
  set (y := IZR n * / 4194304). assert (Y : x <= y <= x + / 4194304) by (unfold y; lra).
  pose proof (binary_normalize_correct 24 128 _ _ mode_NE n (-22) false) as K.
  assert (V : F2R (Float radix2 n (-22)) = y) by (unfold F2R; cbn [Fnum Fexp]; unfold y; f_equal; simpl; lra).
  cbv zeta in K. rewrite V in K.
  change (round radix2 (SpecFloat.fexp 24 128) (round_mode mode_NE) y) with (rnd y) in K.
  pose proof (rnd_abs y) as E. pose proof (Rabs_pos y) as Yp.
  assert (Ya : Rabs y <= m + / 4194304) by (apply Rabs_le; lra).
  set (eta := / IZR (2 ^ 149)) in E. assert (Et : eta <= / 16777216 * (1 / 100)).
  { unfold eta. apply Rle_trans with (/ IZR (2 ^ 60) ).
    - apply Rinv_le; [apply IZR_lt; lia | apply IZR_le; lia].
    - change (IZR (2 ^ 60)) with 1152921504606846976. lra. }
  unfold eps in E. apply Rabs_le_inv in E. clearbody eta.
  rewrite Rlt_bool_true in K.
  - destruct K as [K1 [K2 _]]. split; [exact K2 |]. unfold fine32. fold n. rewrite K1. change (IZR (2 ^ 24)) with 16777216.
    apply Rabs_le. simpl INR. lra.
  - rewrite max32. apply Rle_lt_trans with (4 * IZR (2 ^ 60)); [apply Rabs_le; lra |]. rewrite <- mult_IZR. apply IZR_lt. lia.
Qed.
Definition fine_libm32 : libm := {|
  m_cbrt := fun x => x;
  m_sin := fun x => fine32 (sin (B2R x));
  m_cos := fun x => fine32 (cos (B2R x));
  m_sinh := fun x => fine32 (sinh (B2R x));
  m_cosh := fun x => fine32 (cosh (B2R x));
  m_log := fun x => fine32 (ln (B2R x));
  m_arccos := fun x => fine32 (acos (B2R x));
  m_arctan2 := fun y x => fine32 (atan (B2R y / B2R x))
|}.
Lemma fine32_trig (x : b32) :
  (is_finite (m_sin fine_libm32 x) = true /\ Rabs (B2R (m_sin fine_libm32 x) - sin (B2R x)) <= INR 6 * / IZR (2 ^ 24)) /\
  (is_finite (m_cos fine_libm32 x) = true /\ Rabs (B2R (m_cos fine_libm32 x) - cos (B2R x)) <= INR 6 * / IZR (2 ^ 24)).
Proof.
  pose proof (SIN_bound (B2R x)) as S. pose proof (COS_bound (B2R x)) as C.
  rewrite <- (Rmult_1_r (INR 6 * _)).
  split; apply (fine32_err _ 1); try (apply Rabs_le; lra); (split; [lra | apply IZR_le; lia]).
Qed.
Lemma fine32_ok (t s : R) : s <= 36 -> trig32 fine_libm32 6 t s.
Proof.
  intro Hs. split; intros x F B.
  - destruct (fine32_trig x) as [[F1 E1] [F2 E2]]. split; (split; [assumption |]); rewrite Rmult_1_r; assumption.
  - destruct (cosh_ge_sinh (B2R x)) as [A1 [A2 A3]].
    assert (U : cosh (B2R x) <= IZR (2 ^ 60)).
    { apply Rabs_le_inv in B. assert (E : forall z, z <= 36 -> exp z <= IZR (2 ^ 60)).
      { intros z Hz. apply Rle_trans with (exp (INR 36)); [apply exp_le'; rewrite INR_IZR_INZ; exact Hz |].
        apply Rle_trans with (1 := exp_nat 36). rewrite pow_IZR. apply IZR_le. apply Z.leb_le. vm_compute. reflexivity. }
      pose proof (E (B2R x) ltac:(lra)). pose proof (E (- B2R x) ltac:(lra)). unfold cosh. lra. }
    split; (apply fine32_err; [assumption | split; assumption]).
Qed.
