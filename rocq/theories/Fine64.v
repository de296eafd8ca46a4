(** * Fine64: a math library accurate to six units in the last place of 1, for the examples *)
From Coq Require Import ZArith Reals Lra Lia Psatz Bool List.
From Flocq Require Import Core IEEE754.BinarySingleNaN.
From Verif Require Import Num NumB64 SpecFlV RoundFn B64Lib B64Acc B64Rel B64Uf.
Local Open Scope R_scope.

(** every function rounded up from the exact one to 51 fractional bits *)
Definition fine64 (x : R) : b64 := binary_normalize 53 1024 _ _ mode_NE (up (x * 2251799813685248)) (-51) false.
Lemma fine64_err (x m : R) : Rabs x <= m -> 1 <= m <= IZR (2 ^ 400) -> is_finite (fine64 x) = true /\ Rabs (B2R (fine64 x) - x) <= INR 6 * / IZR (2 ^ 53) * m.
Proof.
  intros H Hm. apply Rabs_le_inv in H.
  set (n := up (x * 2251799813685248)).
  destruct (archimed (x * 2251799813685248)) as [A1 A2]. fold n in A1, A2.
  set (y := IZR n * / 2251799813685248). assert (Y : x <= y <= x + / 2251799813685248) by (unfold y; lra).
  pose proof (binary_normalize_correct 53 1024 _ _ mode_NE n (-51) false) as K.
  assert (V : F2R (Float radix2 n (-51)) = y) by (unfold F2R; cbn [Fnum Fexp]; unfold y; f_equal; simpl; lra).
  cbv zeta in K. rewrite V in K.
  change (round radix2 (SpecFloat.fexp 53 1024) (round_mode mode_NE) y) with (rnd y) in K.
  pose proof (rnd_abs y) as E. pose proof (Rabs_pos y) as Yp.
  assert (Ya : Rabs y <= m + / 2251799813685248) by (apply Rabs_le; lra).
  set (eta := / IZR (2 ^ 1074)) in E. assert (Et : eta <= / 9007199254740992 * (1 / 100)).
  { unfold eta. apply Rle_trans with (/ IZR (2 ^ 60) ).
    - apply Rinv_le; [apply IZR_lt; lia | apply IZR_le; lia].
    - change (IZR (2 ^ 60)) with 1152921504606846976. lra. }
  unfold eps in E. apply Rabs_le_inv in E. clearbody eta.
  rewrite Rlt_bool_true in K.
  - destruct K as [K1 [K2 _]]. split; [exact K2 |]. unfold fine64. fold n. rewrite K1. change (IZR (2 ^ 53)) with 9007199254740992.
    apply Rabs_le. simpl INR. lra.
  - rewrite max64. apply Rle_lt_trans with (4 * IZR (2 ^ 400)); [apply Rabs_le; lra |]. rewrite <- mult_IZR. apply IZR_lt. lia.
Qed.
Definition fine_libm64 : libm64 := {|
  d_cbrt := fun x => x;
  d_sin := fun x => fine64 (sin (B2R x));
  d_cos := fun x => fine64 (cos (B2R x));
  d_sinh := fun x => fine64 (sinh (B2R x));
  d_cosh := fun x => fine64 (cosh (B2R x));
  d_log := fun x => fine64 (ln (B2R x));
  d_arccos := fun x => fine64 (acos (B2R x));
  d_arctan2 := fun y x => fine64 (atan (B2R y / B2R x))
|}.
Lemma fine64_trig (x : b64) :
  (is_finite (d_sin fine_libm64 x) = true /\ Rabs (B2R (d_sin fine_libm64 x) - sin (B2R x)) <= INR 6 * / IZR (2 ^ 53)) /\
  (is_finite (d_cos fine_libm64 x) = true /\ Rabs (B2R (d_cos fine_libm64 x) - cos (B2R x)) <= INR 6 * / IZR (2 ^ 53)).
Proof.
  pose proof (SIN_bound (B2R x)) as S. pose proof (COS_bound (B2R x)) as C.
  rewrite <- (Rmult_1_r (INR 6 * _)).
  split; apply (fine64_err _ 1); try (apply Rabs_le; lra); (split; [lra | apply IZR_le; lia]).
Qed.
Lemma fine64_ok (t s : R) : s <= 200 -> trig64 fine_libm64 6 t s.
Proof.
  intro Hs. split; intros x F B.
  - destruct (fine64_trig x) as [[F1 E1] [F2 E2]]. split; (split; [assumption |]); rewrite Rmult_1_r; assumption.
  - destruct (cosh_ge_sinh (B2R x)) as [A1 [A2 A3]].
    assert (U : cosh (B2R x) <= IZR (2 ^ 400)).
    { apply Rabs_le_inv in B. assert (E : forall z, z <= 200 -> exp z <= IZR (2 ^ 400)).
      { intros z Hz. apply Rle_trans with (exp (INR 200)); [apply exp_le'; rewrite INR_IZR_INZ; exact Hz |].
        apply Rle_trans with (1 := exp_nat 200). rewrite pow_IZR. apply IZR_le. apply Z.leb_le. vm_compute. reflexivity. }
      pose proof (E (B2R x) ltac:(lra)). pose proof (E (- B2R x) ltac:(lra)). unfold cosh. lra. }
    split; (apply fine64_err; [assumption | split; assumption]).
Qed.
