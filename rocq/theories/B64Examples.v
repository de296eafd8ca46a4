(** * B64Examples: concrete runs behind the examples of [PropsB64]. *)
From Coq Require Import ZArith Reals Lra Lia Psatz Bool List.
From Flocq Require Import Core IEEE754.BinarySingleNaN.
From Verif Require Import Num NumB32 LibmRef NumB64 LibmRef64 Spec Uniformulas KepEqu RLib SolveFacts
  B64Lib B64Kep B64Far B64Uni B64Acc.
Local Open Scope R_scope.

Definition N64 : Num b64 := Num_B64 ref_libm64.

(** M = 2^36 returns the guess, M = 100 does not. *)
Lemma ref64_stuck :
  B2SF (@solve_kepler_elps _ N64 (b64_Z 68719476736) (b64_dec 1 2) (@default_tol _ N64) elps_max_iter)
  = B2SF (@elps_guess _ N64 (b64_Z 68719476736) (b64_dec 1 2)) /\
  B2SF (@solve_kepler_elps _ N64 (b64_Z 100) (b64_dec 1 2) (@default_tol _ N64) elps_max_iter)
  <> B2SF (@elps_guess _ N64 (b64_Z 100) (b64_dec 1 2)).
Proof. split; vm_compute; [reflexivity | discriminate]. Qed.

Definition ref64_hypb (Nm : b64) : b64 :=
  @solve_kepler_hypb _ N64 Nm (lit64 27696 10000) (@default_tol _ N64) hypb_max_iter.
Definition ref64_hypb_lhs (Nm : b64) : b64 :=
  b64_sub (b64_mul (lit64 27696 10000) (d_sinh ref_libm64 (ref64_hypb Nm))) (ref64_hypb Nm).
Lemma ref64_runs_out :
  B2SF (ref64_hypb_lhs (lit64 20000000000 1)) = SpecFloat.S754_finite false 5242880000000004 (-18) /\
  B2SF (lit64 20000000000 1) = SpecFloat.S754_finite false 5242880000000000 (-18).
Proof. split; vm_compute; reflexivity. Qed.
Lemma ref64_exact : B2SF (ref64_hypb_lhs (lit64 20000000027 1)) = B2SF (lit64 20000000027 1).
Proof. vm_compute. reflexivity. Qed.

(** alpha = +-2^-60, chi = 1: U2 is about 1/2 and U3 about 1/6, the computed values are 0. *)
Lemma ref64_zero :
  B2SF (@ufunc2 _ N64 (b64_Z 1) (lit64 1 1152921504606846976)) = SpecFloat.S754_zero false /\
  B2SF (@ufunc2 _ N64 (b64_Z 1) (lit64 (-1) 1152921504606846976)) = SpecFloat.S754_zero false /\
  B2SF (@ufunc3 _ N64 (b64_Z 1) (lit64 1 1152921504606846976)) = SpecFloat.S754_zero false /\
  B2SF (@ufunc3 _ N64 (b64_Z 1) (lit64 (-1) 1152921504606846976)) = SpecFloat.S754_zero true.
Proof. repeat split; vm_compute; reflexivity. Qed.

(** chi = 1: at alpha = 2^-52 everything is lost, at 2^-50 U3 = 1/6 comes out as 1/8, at 1 it is accurate. *)
Lemma ref64_u3 :
  B2SF (@ufunc3 _ N64 (b64_Z 1) (lit64 1 4503599627370496)) = SpecFloat.S754_zero false /\
  B2SF (@ufunc3 _ N64 (b64_Z 1) (lit64 1 1125899906842624)) = SpecFloat.S754_finite false 4503599627370496 (-55) /\
  B2SF (@ufunc3 _ N64 (b64_Z 1) (lit64 1 1)) = SpecFloat.S754_finite false 5711609709972552 (-55).
Proof. repeat split; vm_compute; reflexivity. Qed.

(** ** Accuracy with a libm rounded from the exact functions *)
Lemma exact_libm_cos (x : b64) :
  is_finite (d_cos exact_libm x) = true /\
  Rabs (B2R (d_cos exact_libm x) - cos (B2R x)) <= / 1099511627776.
Proof.
  pose proof (COS_bound (B2R x)) as S.
  destruct (near40_value (cos (B2R x)) ltac:(apply Rabs_le; lra)) as [F V].
  split; [exact F |]. apply Rabs_le. simpl. lra.
Qed.

Lemma exact_u2_at_1 :
  let u := @ufunc2 _ (Num_B64 exact_libm) (b64_Z 1) (b64_Z 1) in
  is_finite u = true /\ Rabs (B2R u - (1 - cos 1)) <= / 10 ^ 10.
Proof.
  intro u. destruct one_value as [V1 F1].
  assert (T : tiny <= 1 /\ eps <= 1) by (unfold tiny, eps; lra).
  destruct (u2_accurate exact_libm (b64_Z 1) (b64_Z 1) (/ 1099511627776) F1 ltac:(rewrite V1; lra) F1
    ltac:(rewrite V1; lra) ltac:(lra) (fun x _ _ => exact_libm_cos x)) as [F A].
  split; [exact F |]. fold u in A. rewrite V1, sqrt_1, pow1, !Rmult_1_r in A.
  replace ((1 - cos 1) / 1) with (1 - cos 1) in A by field.
  pose proof (COS_bound 1) as C. unfold eps in A.
  apply Rle_trans with (1 := A). lra.
Qed.

Lemma exact_u3_at_1 :
  let u := @ufunc3 _ (Num_B64 exact_libm) (b64_Z 1) (b64_Z 1) in
  is_finite u = true /\ Rabs (B2R u - (1 - sin 1)) <= / 10 ^ 10.
Proof.
  intro u. destruct one_value as [V1 F1].
  assert (T : tiny <= 1 /\ eps <= 1 /\ 0 < tiny) by (unfold tiny, eps; lra).
  assert (G : forall x : b64, is_finite (d_sin exact_libm x) = true /\
    Rabs (B2R (d_sin exact_libm x) - sin (B2R x)) <= / 1099511627776).
  { intro x. pose proof (SIN_bound (B2R x)) as S.
    destruct (near40_value (sin (B2R x)) ltac:(apply Rabs_le; lra)) as [F V].
    split; [exact F |]. apply Rabs_le. simpl. lra. }
  assert (Fu : is_finite u = true).
  { assert (Q : b64_sqrt (b64_Z 1) = b64_Z 1) by (apply B2SF_inj; vm_compute; reflexivity).
    assert (P : b64_mul (b64_Z 1) (b64_Z 1) = b64_Z 1) by (apply B2SF_inj; vm_compute; reflexivity).
    assert (Hu : u = b64_div (b64_div (b64_sub (b64_Z 1) (d_sin exact_libm (b64_Z 1))) (b64_Z 1)) (b64_Z 1)).
    { unfold u, ufunc3. rewrite branch_pos by (exact F1 || rewrite V1; lra).
      change (b64_div (b64_div (b64_sub (b64_mul (b64_sqrt (b64_Z 1)) (b64_Z 1))
        (d_sin exact_libm (b64_mul (b64_sqrt (b64_Z 1)) (b64_Z 1)))) (b64_Z 1)) (b64_sqrt (b64_Z 1))
        = b64_div (b64_div (b64_sub (b64_Z 1) (d_sin exact_libm (b64_Z 1))) (b64_Z 1)) (b64_Z 1)).
      rewrite Q, P. reflexivity. }
    rewrite Hu. destruct (G (b64_Z 1)) as [Fs Bs].
    pose proof (SIN_bound (B2R (b64_Z 1))) as S. apply Rabs_le_inv in Bs.
    destruct (diff_fin (b64_Z 1) (d_sin exact_libm (b64_Z 1)) (b64_Z 1) F1 Fs
      ltac:(rewrite V1, Rabs_R1; lra) ltac:(rewrite V1 in *; apply Rabs_le; lra)) as [Fd Fv].
    assert (Big : 1000 <= IZR (2 ^ 1023)) by (apply IZR_le; lia).
    assert (W1 : within (-90) 90 (b64_sub (b64_Z 1) (d_sin exact_libm (b64_Z 1)))).
    { rewrite V1 in *. apply sub_in; auto; try (apply F64_int; simpl; lia); rewrite ?V1; lra. }
    assert (W2 : within (-90) 90 (b64_div (b64_sub (b64_Z 1) (d_sin exact_libm (b64_Z 1))) (b64_Z 1))).
    { destruct W1 as [_ W1]. apply div_in; auto; try lra; try (apply F64_int; simpl; lia). rewrite V1.
      unfold Rdiv. rewrite Rinv_1, Rmult_1_r. exact W1. }
    destruct W2 as [_ W2].
    assert (W3 : within (-90) 90 (b64_div (b64_div (b64_sub (b64_Z 1) (d_sin exact_libm (b64_Z 1))) (b64_Z 1)) (b64_Z 1))).
    { apply div_in; auto; try lra; try (apply F64_int; simpl; lia). rewrite V1.
      unfold Rdiv. rewrite Rinv_1, Rmult_1_r. exact W2. }
    exact (proj1 W3). }
  split; [exact Fu |].
  pose proof (u3_accurate exact_libm (b64_Z 1) (b64_Z 1) (/ 1099511627776) F1 ltac:(rewrite V1; lra) F1
    ltac:(rewrite V1; lra) ltac:(lra) (fun x _ _ => proj2 (G x)) Fu) as A.
  fold u in A. rewrite V1, sqrt_1, !Rmult_1_r in A.
  replace ((1 - sin 1) / 1 / 1) with (1 - sin 1) in A by field.
  rewrite Rabs_R1, pow1 in A. unfold eps in A.
  pose proof (SIN_bound 1) as S. rewrite (Rabs_pos_eq (1 - sin 1)) in A by lra.
  apply Rle_trans with (1 := A). lra.
Qed.
