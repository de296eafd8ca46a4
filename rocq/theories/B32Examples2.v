(** * B32Examples2: concrete values behind the accuracy examples of [PropsB32]. *)
From Coq Require Import ZArith Reals Lra Lia Psatz Bool List.
From Flocq Require Import Core IEEE754.BinarySingleNaN.
From Verif Require Import Num NumB32 LibmRef Spec Uniformulas KepEqu RLib SolveFacts B32Lib B32Kep B32Uni B32Acc.
Local Open Scope R_scope.

(** a libm that rounds the exact functions up to 20 fractional bits *)
Definition near20 (x : R) : b32 :=
  binary_normalize 24 128 _ _ mode_NE (up (x * 1048576)) (-20) false.

Lemma near20_value (x : R) : Rabs x <= 8 ->
  is_finite (near20 x) = true /\ x <= B2R (near20 x) <= x + / 1048576.
Proof.
  intro H. apply Rabs_le_inv in H.
  set (n := up (x * 1048576)).
  destruct (archimed (x * 1048576)) as [A1 A2]. fold n in A1, A2.
  assert (N : (Z.abs n < 2 ^ 24)%Z).
  { apply Z.abs_lt. split; apply lt_IZR;
    rewrite ?opp_IZR; change (IZR (2 ^ 24)) with 16777216; lra. }
  assert (F : F32 (IZR n * bpow radix2 (-20))) by (apply F32_scaled; [exact N | lia]).
  pose proof (binary_normalize_correct 24 128 _ _ mode_NE n (-20) false) as K.
  assert (V : F2R (Float radix2 n (-20)) = IZR n * bpow radix2 (-20)) by reflexivity.
  cbv zeta in K. rewrite V in K.
  change (round radix2 (SpecFloat.fexp 24 128) (round_mode mode_NE) (IZR n * bpow radix2 (-20)))
    with (rnd (IZR n * bpow radix2 (-20))) in K.
  rewrite (rnd_id _ F) in K.
  assert (P : bpow radix2 (-20) = / 1048576) by (simpl; lra). rewrite P in K.
  rewrite Rlt_bool_true in K.
  - destruct K as [K1 [K2 _]]. split; [exact K2 |]. unfold near20. fold n. rewrite K1. lra.
  - rewrite max32. apply Rle_lt_trans with 16; [apply Rabs_le; lra |].
    apply IZR_lt. lia.
Qed.

Definition exact_libm32 : libm := {|
  m_cbrt := fun x => x;
  m_sin := fun x => near20 (sin (B2R x));
  m_cos := fun x => near20 (cos (B2R x));
  m_sinh := fun x => near20 (sinh (B2R x));
  m_cosh := fun x => near20 (cosh (B2R x));
  m_log := fun x => near20 (ln (B2R x));
  m_arccos := fun x => near20 (acos (B2R x));
  m_arctan2 := fun y x => near20 (atan (B2R y / B2R x))
|}.

Lemma exact_libm32_cos (x : b32) :
  is_finite (m_cos exact_libm32 x) = true /\
  Rabs (B2R (m_cos exact_libm32 x) - cos (B2R x)) <= / 1048576.
Proof.
  pose proof (COS_bound (B2R x)) as S.
  destruct (near20_value (cos (B2R x)) ltac:(apply Rabs_le; lra)) as [F V].
  split; [exact F |]. apply Rabs_le. simpl. lra.
Qed.

Lemma exact32_u2_at_1 :
  let u := @ufunc2 _ (Num_B32 exact_libm32) (b32_Z 1) (b32_Z 1) in
  is_finite u = true /\ Rabs (B2R u - (1 - cos 1)) <= 3 / 10 ^ 5.
Proof.
  intro u. destruct one_value as [V1 F1].
  assert (T : tiny <= 1 /\ eps <= 1) by (unfold tiny, eps; lra).
  destruct (u2_accurate exact_libm32 (b32_Z 1) (b32_Z 1) (/ 1048576) F1 ltac:(rewrite V1; lra) F1
    ltac:(rewrite V1; lra) ltac:(lra) (fun x _ _ => exact_libm32_cos x)) as [F A].
  split; [exact F |]. fold u in A. rewrite V1, sqrt_1, pow1, !Rmult_1_r in A.
  replace ((1 - cos 1) / 1) with (1 - cos 1) in A by field.
  pose proof (COS_bound 1) as C. unfold eps in A.
  apply Rle_trans with (1 := A). lra.
Qed.

(** ufunc3 at chi = 1: alpha = 2^-23 gives 0 where the true value is about 1/6; alpha = 2^-20 gives 3/16;
    alpha = 1 gives 1 - sin 1 to 7 digits. *)
Lemma ref_u3 :
  B2SF (@ufunc3 _ (Num_B32 ref_libm) (b32_Z 1) (lit 1 8388608)) = SpecFloat.S754_zero false /\
  B2SF (@ufunc3 _ (Num_B32 ref_libm) (b32_Z 1) (lit (-1) 1073741824)) = SpecFloat.S754_zero true /\
  B2SF (@ufunc3 _ (Num_B32 ref_libm) (b32_Z 1) (lit 1 1048576)) = SpecFloat.S754_finite false 12582912 (-26) /\
  B2SF (@ufunc3 _ (Num_B32 ref_libm) (b32_Z 1) (lit 1 1)) = SpecFloat.S754_finite false 10638704 (-26).
Proof. repeat split; vm_compute; reflexivity. Qed.

Lemma exact32_u3_at_1 :
  let u := @ufunc3 _ (Num_B32 exact_libm32) (b32_Z 1) (b32_Z 1) in
  is_finite u = true /\ Rabs (B2R u - (1 - sin 1)) <= 3 / 10 ^ 5.
Proof.
  intro u. destruct one_value as [V1 F1].
  assert (T : tiny <= 1 /\ eps <= 1 /\ 0 < tiny) by (unfold tiny, eps; lra).
  assert (G : forall x : b32, is_finite (m_sin exact_libm32 x) = true /\
    Rabs (B2R (m_sin exact_libm32 x) - sin (B2R x)) <= / 1048576).
  { intro x. pose proof (SIN_bound (B2R x)) as S.
    destruct (near20_value (sin (B2R x)) ltac:(apply Rabs_le; lra)) as [F V].
    split; [exact F |]. apply Rabs_le. simpl. lra. }
  assert (Fu : is_finite u = true).
  { assert (Q : b32_sqrt (b32_Z 1) = b32_Z 1) by (apply B2SF_inj; vm_compute; reflexivity).
    assert (P : b32_mul (b32_Z 1) (b32_Z 1) = b32_Z 1) by (apply B2SF_inj; vm_compute; reflexivity).
    assert (Hu : u = b32_div (b32_div (b32_sub (b32_Z 1) (m_sin exact_libm32 (b32_Z 1))) (b32_Z 1)) (b32_Z 1)).
    { unfold u, ufunc3. rewrite branch_pos by (exact F1 || rewrite V1; lra).
      change (b32_div (b32_div (b32_sub (b32_mul (b32_sqrt (b32_Z 1)) (b32_Z 1))
        (m_sin exact_libm32 (b32_mul (b32_sqrt (b32_Z 1)) (b32_Z 1)))) (b32_Z 1)) (b32_sqrt (b32_Z 1))
        = b32_div (b32_div (b32_sub (b32_Z 1) (m_sin exact_libm32 (b32_Z 1))) (b32_Z 1)) (b32_Z 1)).
      rewrite Q, P. reflexivity. }
    rewrite Hu. destruct (G (b32_Z 1)) as [Fs Bs].
    pose proof (SIN_bound (B2R (b32_Z 1))) as S. apply Rabs_le_inv in Bs.
    destruct (diff_fin (b32_Z 1) (m_sin exact_libm32 (b32_Z 1)) (b32_Z 1) F1 Fs
      ltac:(rewrite V1, Rabs_R1; lra) ltac:(rewrite V1 in *; apply Rabs_le; lra)) as [Fd Fv].
    assert (Big : 1000 <= IZR (2 ^ 127)) by (apply IZR_le; lia).
    assert (W1 : within (-90) 90 (b32_sub (b32_Z 1) (m_sin exact_libm32 (b32_Z 1)))).
    { rewrite V1 in *. apply sub_in; auto; try (apply F32_int; simpl; lia); rewrite ?V1; lra. }
    assert (W2 : within (-90) 90 (b32_div (b32_sub (b32_Z 1) (m_sin exact_libm32 (b32_Z 1))) (b32_Z 1))).
    { destruct W1 as [_ W1]. apply div_in; auto; try lra; try (apply F32_int; simpl; lia). rewrite V1.
      unfold Rdiv. rewrite Rinv_1, Rmult_1_r. exact W1. }
    destruct W2 as [_ W2].
    assert (W3 : within (-90) 90 (b32_div (b32_div (b32_sub (b32_Z 1) (m_sin exact_libm32 (b32_Z 1))) (b32_Z 1)) (b32_Z 1))).
    { apply div_in; auto; try lra; try (apply F32_int; simpl; lia). rewrite V1.
      unfold Rdiv. rewrite Rinv_1, Rmult_1_r. exact W2. }
    exact (proj1 W3). }
  split; [exact Fu |].
  pose proof (u3_accurate exact_libm32 (b32_Z 1) (b32_Z 1) (/ 1048576) F1 ltac:(rewrite V1; lra) F1
    ltac:(rewrite V1; lra) ltac:(lra) (fun x _ _ => proj2 (G x)) Fu) as A.
  fold u in A. rewrite V1, sqrt_1, !Rmult_1_r in A.
  replace ((1 - sin 1) / 1 / 1) with (1 - sin 1) in A by field.
  rewrite Rabs_R1, pow1 in A. unfold eps in A.
  pose proof (SIN_bound 1) as S. rewrite (Rabs_pos_eq (1 - sin 1)) in A by lra.
  apply Rle_trans with (1 := A). lra.
Qed.
