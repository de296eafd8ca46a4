(** * B32Examples: concrete runs behind the examples of [PropsB32], and the accuracy of the reference sine
    at the two points [elps_100] asks about. *)
From Coq Require Import ZArith Reals Lra Lia Psatz Bool List.
From Flocq Require Import Core IEEE754.BinarySingleNaN.
From Verif Require Import Num NumB32 Spec Uniformulas KepEqu RLib Ana SolveElps B32Lib B32Kep LibmRef.
Local Open Scope R_scope.

Lemma sin_ge_sept x : 0 <= x <= 4 -> x - x ^ 3 / 6 + x ^ 5 / 120 - x ^ 7 / 5040 <= sin x.
Proof.
  intros H. destruct (pre_sin_bound x 1 ltac:(lra) ltac:(lra)) as [A _].
  unfold sin_approx, sin_term in A. simpl in A. lra.
Qed.

Lemma sin_200_tight : - 0.8740 <= sin 200 <= - 0.8730.
Proof.
  pose proof PI_tight as HP.
  pose proof (sin_turns 200 32) as K. simpl INR in K.
  set (y := 64 * PI - 200). assert (Y : 1.06176 <= y <= 1.0624) by (unfold y; lra).
  replace (200 - 2 * (1+1+1+1+1+1+1+1+1+1+1+1+1+1+1+1+1+1+1+1+1+1+1+1+1+1+1+1+1+1+1+1) * PI) with (- y) in K by (unfold y; ring).
  rewrite sin_neg in K.
  assert (S1 : sin y <= sin 1.0624) by (apply sin_incr_1; lra).
  assert (S2 : sin 1.06176 <= sin y) by (apply sin_incr_1; lra).
  pose proof (sin_le_quint 1.0624 ltac:(lra)). pose proof (sin_ge_sept 1.06176 ltac:(lra)). lra.
Qed.

Lemma sin_100_tight : - 0.5069 <= sin 100 <= - 0.5059.
Proof.
  pose proof PI_tight as HP.
  pose proof (sin_turns 100 16) as K. simpl INR in K.
  set (y := 32 * PI - 100). assert (Y : 0.53088 <= y <= 0.5313) by (unfold y; lra).
  replace (100 - 2 * (1+1+1+1+1+1+1+1+1+1+1+1+1+1+1+1) * PI) with (- y) in K by (unfold y; ring).
  rewrite sin_neg in K.
  assert (S1 : sin y <= sin 0.5313) by (apply sin_incr_1; lra).
  assert (S2 : sin 0.53088 <= sin y) by (apply sin_incr_1; lra).
  pose proof (sin_le_quint 0.5313 ltac:(lra)). pose proof (sin_ge_sept 0.53088 ltac:(lra)). lra.
Qed.

Lemma ref_sin_100 : is_finite (m_sin ref_libm (b32_Z 100)) = true /\
  Rabs (B2R (m_sin ref_libm (b32_Z 100)) - sin 100) <= 1 / 1024.
Proof.
  destruct (value (m_sin ref_libm (b32_Z 100)) true 8495406 (-24)) as [F V]; [vm_compute; reflexivity|].
  split; [exact F|]. rewrite V. pose proof sin_100_tight. simpl. apply Rabs_le. lra.
Qed.

Lemma ref_sin_200 : is_finite (m_sin ref_libm (b32_Z 200)) = true /\
  Rabs (B2R (m_sin ref_libm (b32_Z 200)) - sin 200) <= 1 / 1024.
Proof.
  destruct (value (m_sin ref_libm (b32_Z 200)) true 14651497 (-24)) as [F V]; [vm_compute; reflexivity|].
  split; [exact F|]. rewrite V. pose proof sin_200_tight. simpl. apply Rabs_le. lra.
Qed.

Lemma ref_100_wrong :
  let E := B2R (@solve_kepler_elps _ (Num_B32 ref_libm) (b32_Z 100) (b32_dec 1 2)
                  (@default_tol _ (Num_B32 ref_libm)) elps_max_iter) in
  1 / 50 <= E - 1 / 2 * sin E - 100.
Proof.
  apply elps_100; first [apply ref_sin_100 | apply ref_sin_200].
Qed.

(** With [M = 1] Newton steps are made: the result is not the guess. *)
Lemma ref_1_moves :
  let N := Num_B32 ref_libm in
  B2SF (@solve_kepler_elps _ N (b32_Z 1) (b32_dec 1 2) (@default_tol _ N) elps_max_iter)
  <> B2SF (@elps_guess _ N (b32_Z 1) (b32_dec 1 2)).
Proof. vm_compute. discriminate. Qed.

(** [alpha = +-2^-30, chi = 1]: the true value is about 1/2, the computed one is 0. *)
Lemma ref_u2_zero :
  B2SF (@ufunc2 _ (Num_B32 ref_libm) (b32_Z 1) (lit 1 1073741824)) = SpecFloat.S754_zero false /\
  B2SF (@ufunc2 _ (Num_B32 ref_libm) (b32_Z 1) (lit (-1) 1073741824)) = SpecFloat.S754_zero false.
Proof. split; vm_compute; reflexivity. Qed.

(** The docstring's own example, N = 40.69 and e = 2.7696: the residual is one unit in the last place, all
    50 steps are made.  N = 50: the rounded equation holds exactly. *)
Definition ref_hypb (Nm : b32) : b32 :=
  @solve_kepler_hypb _ (Num_B32 ref_libm) Nm (lit 27696 10000) (@default_tol _ (Num_B32 ref_libm)) hypb_max_iter.
Definition ref_hypb_lhs (Nm : b32) : b32 :=
  b32_sub (b32_mul (lit 27696 10000) (m_sinh ref_libm (ref_hypb Nm))) (ref_hypb Nm).
Lemma ref_hypb_runs_out :
  B2SF (ref_hypb_lhs (lit 4069 100)) = SpecFloat.S754_finite false 10666640 (-18) /\
  B2SF (lit 4069 100) = SpecFloat.S754_finite false 10666639 (-18).
Proof. split; vm_compute; reflexivity. Qed.
Lemma ref_hypb_exact : B2SF (ref_hypb_lhs (lit 50 1)) = B2SF (lit 50 1).
Proof. vm_compute. reflexivity. Qed.
