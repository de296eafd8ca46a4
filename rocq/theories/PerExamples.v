(** * PerExamples: the semimajor axis from the period with a Python constant, correctly rounded libraries, and concrete cases *)
From Coq Require Import ZArith Reals Lra Lia Psatz Bool.
From Flocq Require Import Core IEEE754.BinarySingleNaN.
From Verif Require Import Num NumB32 NumB64 NumJ NumR SpecFl SpecFl32 SpecFl64 SpecFlV SpecFlPer RelLib OrbIntegrals OrbFacts GeoExamples.
From Verif Require B32Lib B32Acc B32Rel B32Closed B32Per B64Lib B64Acc B64Rel B64Closed B64Per.
Local Open Scope R_scope.

(** the constant of single precision arrays: [jnp.pi**2] in double precision, then rounded *)
Definition pi_sq_const : b32 := b32_div (b32_Z 10349030) (b32_Z 1048576).
Lemma pi_sq_near : B32Rel.Fl 3 pi_sq_const (PI ^ 2).
Proof.
  assert (V : B2R pi_sq_const = 10349030 / 1048576 /\ is_finite pi_sq_const = true).
  { assert (H : B2SF pi_sq_const = SpecFloat.S754_finite false 10349030 (-20)) by (vm_compute; reflexivity).
    destruct pi_sq_const as [ | | | s m e H']; try discriminate. simpl in H. injection H as -> -> ->.
    split; [| reflexivity]. unfold B2R, F2R; cbn -[IZR]. change (bpow radix2 (-20)) with (/ 1048576). reflexivity. }
  destruct V as [V F]. split; [exact F |]. pose proof B32Closed.PI_digits as P. rewrite V. exists (10349030 / 1048576 / PI ^ 2). split; [field; lra |].
  assert (Q : 9.8696044010 < PI ^ 2 < 9.86960440111) by (split; nra).
  assert (Qi : / 9.86960440111 <= / PI ^ 2 <= / 9.8696044010) by (split; apply Rinv_le; lra).
  assert (E : 1 + / 16777216 <= (1 + B32Acc.eps) ^ 3).
  { unfold B32Acc.eps. simpl. lra. }
  split.
  - apply Rle_trans with (/ (1 + / 16777216)); [apply Rinv_le; lra |]. unfold Rdiv at 1. lra.
  - apply Rle_trans with (2 := E). unfold Rdiv at 1. lra.
Qed.
Lemma axis_python (L : libm) (c : nat) : cube_root32 L c -> (c <= 100)%nat ->
  forall P mu : b32, good32 30 P -> good32 50 mu -> 0 < B2R P -> 0 < B2R mu ->
  forall a : R, 0 < a -> 4 * PI ^ 2 * a ^ 3 = B2R mu * B2R P ^ 2 ->
  exists g : b32, @a_from_period _ (Num_J L) (F32 P) (F32 mu) = F32 g /\ off (INR c + 5) a g a.
Proof.
  intros HL Hc P mu [FP RP] Gm PP Pm a Pa E.
  exists (m_cbrt L (b32_div (b32_div (b32_mul (b32_mul P P) mu) (b32_Z 4)) pi_sq_const)). split.
  - unfold a_from_period, npow. cbn [Num_J n_cbrt n_div n_mul n_Z n_pi npow_aux mul_opt]. unfold ring_op, j_div, meet, j_fun.
    change (fits 4) with true. cbv iota.
    apply (f_equal (fun z => F32 (m_cbrt L (b32_div (b32_div (b32_mul (b32_mul P P) mu) (b32_Z 4)) z)))). apply B2SF_inj. vm_compute. reflexivity.
  - assert (E' : a ^ 3 = B2R P ^ 2 * B2R mu / (4 * PI ^ 2)).
    { pose proof PI_RGT_0. replace (a ^ 3) with (4 * PI ^ 2 * a ^ 3 / (4 * PI ^ 2)) by (field; lra). rewrite E. f_equal. ring. }
    destruct (B32Per.from_period L c 0 P _ mu (B2R P) HL Hc ltac:(lia) (B32Rel.Fl_exact P FP) RP PP pi_sq_near Gm Pm a Pa E') as [k [Hk [Fo Eo]]].
    split; [exact Fo |]. apply Rle_trans with (1 := Eo).
    apply Rmult_le_compat_r; [lra |]. apply Rmult_le_compat_r; [left; apply Rinv_0_lt_compat; apply IZR_lt; lia |].
    assert (INR k <= 3) by (replace 3 with (INR 3) by (simpl; lra); apply le_INR; lia). lra.
Qed.

(** the number of the format nearest to a real number *)
Definition nearest64 (x : R) : b64 :=
  let r := B64Lib.rnd x in
  binary_normalize 53 1024 _ _ mode_NE (Ztrunc (scaled_mantissa radix2 (SpecFloat.fexp 53 1024) r)) (cexp radix2 (SpecFloat.fexp 53 1024) r) false.
Lemma nearest64_ok (x : R) : Rabs (B64Lib.rnd x) < bpow radix2 1024 -> is_finite (nearest64 x) = true /\ B2R (nearest64 x) = B64Lib.rnd x.
Proof.
  intro H. set (r := B64Lib.rnd x) in *.
  assert (G : generic_format radix2 (SpecFloat.fexp 53 1024) r) by (apply generic_format_round; [apply (fexp_correct 53 1024 eq_refl) | apply valid_rnd_N]).
  pose proof (binary_normalize_correct 53 1024 _ _ mode_NE (Ztrunc (scaled_mantissa radix2 (SpecFloat.fexp 53 1024) r)) (cexp radix2 (SpecFloat.fexp 53 1024) r) false) as K.
  cbv zeta in K. rewrite <- G in K. rewrite (round_generic radix2 (SpecFloat.fexp 53 1024) _ r G) in K.
  rewrite Rlt_bool_true in K by exact H. destruct K as [K1 [K2 _]]. split; [exact K2 | exact K1].
Qed.
Definition cbrt_libm64 : libm64 := {|
  d_cbrt := fun x => nearest64 (cbrt (B2R x)); d_sin := fun x => x; d_cos := fun x => x; d_sinh := fun x => x; d_cosh := fun x => x;
  d_log := fun x => x; d_arccos := fun x => x; d_arctan2 := fun x _ => x |}.
Lemma cbrt_libm64_ok : cube_root64 cbrt_libm64 1.
Proof.
  intros x y F Y E. cbn [d_cbrt cbrt_libm64]. rewrite <- E, cbrt_cube by exact Y.
  assert (X : 0 < B2R x) by (rewrite <- E; apply pow_lt; exact Y).
  assert (Up : y <= bpow radix2 400).
  { destruct (Rle_or_lt y (bpow radix2 400)) as [L | L]; [exact L |]. exfalso.
    pose proof (abs_B2R_lt_emax 53 1024 x) as A. rewrite Rabs_pos_eq in A by lra. rewrite <- E in A.
    assert (B : bpow radix2 400 ^ 3 <= y ^ 3) by (apply pow_incr; split; [apply bpow_ge_0 | lra]).
    replace (bpow radix2 400 ^ 3) with (bpow radix2 (400 + (400 + 400))) in B by (rewrite !bpow_plus; ring).
    pose proof (bpow_le radix2 1024 (400 + (400 + 400)) ltac:(lia)). lra. }
  assert (Lo : bpow radix2 (- 400) <= y).
  { destruct (Rle_or_lt (bpow radix2 (- 400)) y) as [L | L]; [exact L |]. exfalso.
    assert (A : bpow radix2 (-1074) <= B2R x).
    { apply Rnot_lt_le. intro A. pose proof (generic_format_B2R 53 1024 x) as G.
      destruct x as [s | s | | s m e H]; try (simpl in X; lra). simpl in F.
      assert (M : bpow radix2 (-1074) <= Rabs (B2R (B754_finite s m e H))) by (apply (abs_B2R_ge_emin 53 1024); reflexivity).
      rewrite Rabs_pos_eq in M by lra. lra. }
    rewrite <- E in A.
    assert (B : y ^ 3 <= bpow radix2 (- 400) ^ 3) by (apply pow_incr; lra).
    replace (bpow radix2 (- 400) ^ 3) with (bpow radix2 (- 400 + (- 400 + - 400))) in B by (rewrite !bpow_plus; ring).
    pose proof (bpow_lt radix2 (- 400 + (- 400 + - 400)) (-1074) ltac:(lia)). lra. }
  pose proof (B64Rel.rnd_near y) as N. rewrite Rabs_pos_eq in N by lra.
  pose proof (bpow_le radix2 (- 1022) (- 400) ltac:(lia)) as B.
  assert (N' : near B64Acc.eps 1 (B64Lib.rnd y) y) by (apply N; lra). clear N.
  destruct N' as [t [E1 [T1 T2]]]. pose proof B64Rel.eps_range as Ev. rewrite !pow_1 in T1, T2.
  assert (T0 : 0 < t) by (apply Rlt_le_trans with (2 := T1); apply Rinv_0_lt_compat; lra).
  assert (Ti : 1 - B64Acc.eps <= / (1 + B64Acc.eps)).
  { apply Rmult_le_reg_r with (1 + B64Acc.eps); [lra |]. rewrite Rinv_l by lra. nra. }
  assert (Ty : Rabs (B64Lib.rnd y - y) <= B64Acc.eps * y).
  { rewrite E1. replace (y * t - y) with (y * (t - 1)) by ring. rewrite Rabs_mult, (Rabs_pos_eq y), Rmult_comm by lra.
    apply Rmult_le_compat_r; [lra |]. apply Rabs_le. lra. }
  destruct (nearest64_ok y) as [F1 V1].
  - rewrite E1. rewrite Rabs_pos_eq by (apply Rmult_le_pos; lra).
    apply Rle_lt_trans with (bpow radix2 400 * bpow radix2 1).
    + apply Rmult_le_compat; [lra | lra | exact Up | simpl; lra].
    + rewrite <- bpow_plus. apply bpow_lt. lia.
  - split; [exact F1 |]. rewrite V1. change (/ IZR (2 ^ 53)) with B64Acc.eps. simpl INR. lra.
Qed.

(** the number of the format nearest to a real number *)
Definition nearest32 (x : R) : b32 :=
  let r := B32Lib.rnd x in
  binary_normalize 24 128 _ _ mode_NE (Ztrunc (scaled_mantissa radix2 (SpecFloat.fexp 24 128) r)) (cexp radix2 (SpecFloat.fexp 24 128) r) false.
Lemma nearest32_ok (x : R) : Rabs (B32Lib.rnd x) < bpow radix2 128 -> is_finite (nearest32 x) = true /\ B2R (nearest32 x) = B32Lib.rnd x.
Proof.
  intro H. set (r := B32Lib.rnd x) in *.
  assert (G : generic_format radix2 (SpecFloat.fexp 24 128) r) by (apply generic_format_round; [apply (fexp_correct 24 128 eq_refl) | apply valid_rnd_N]).
  pose proof (binary_normalize_correct 24 128 _ _ mode_NE (Ztrunc (scaled_mantissa radix2 (SpecFloat.fexp 24 128) r)) (cexp radix2 (SpecFloat.fexp 24 128) r) false) as K.
  cbv zeta in K. rewrite <- G in K. rewrite (round_generic radix2 (SpecFloat.fexp 24 128) _ r G) in K.
  rewrite Rlt_bool_true in K by exact H. destruct K as [K1 [K2 _]]. split; [exact K2 | exact K1].
Qed.
Definition cbrt_libm32 : libm := {|
  m_cbrt := fun x => nearest32 (cbrt (B2R x)); m_sin := fun x => x; m_cos := fun x => x; m_sinh := fun x => x; m_cosh := fun x => x;
  m_log := fun x => x; m_arccos := fun x => x; m_arctan2 := fun x _ => x |}.
Lemma cbrt_libm32_ok : cube_root32 cbrt_libm32 1.
Proof.
  intros x y F Y E. cbn [m_cbrt cbrt_libm32]. rewrite <- E, cbrt_cube by exact Y.
  assert (X : 0 < B2R x) by (rewrite <- E; apply pow_lt; exact Y).
  assert (Up : y <= bpow radix2 60).
  { destruct (Rle_or_lt y (bpow radix2 60)) as [L | L]; [exact L |]. exfalso.
    pose proof (abs_B2R_lt_emax 24 128 x) as A. rewrite Rabs_pos_eq in A by lra. rewrite <- E in A.
    assert (B : bpow radix2 60 ^ 3 <= y ^ 3) by (apply pow_incr; split; [apply bpow_ge_0 | lra]).
    replace (bpow radix2 60 ^ 3) with (bpow radix2 (60 + (60 + 60))) in B by (rewrite !bpow_plus; ring).
    pose proof (bpow_le radix2 128 (60 + (60 + 60)) ltac:(lia)). lra. }
  assert (Lo : bpow radix2 (- 60) <= y).
  { destruct (Rle_or_lt (bpow radix2 (- 60)) y) as [L | L]; [exact L |]. exfalso.
    assert (A : bpow radix2 (-149) <= B2R x).
    { apply Rnot_lt_le. intro A. pose proof (generic_format_B2R 24 128 x) as G.
      destruct x as [s | s | | s m e H]; try (simpl in X; lra). simpl in F.
      assert (M : bpow radix2 (-149) <= Rabs (B2R (B754_finite s m e H))) by (apply (abs_B2R_ge_emin 24 128); reflexivity).
      rewrite Rabs_pos_eq in M by lra. lra. }
    rewrite <- E in A.
    assert (B : y ^ 3 <= bpow radix2 (- 60) ^ 3) by (apply pow_incr; lra).
    replace (bpow radix2 (- 60) ^ 3) with (bpow radix2 (- 60 + (- 60 + - 60))) in B by (rewrite !bpow_plus; ring).
    pose proof (bpow_lt radix2 (- 60 + (- 60 + - 60)) (-149) ltac:(lia)). lra. }
  pose proof (B32Rel.rnd_near y) as N. rewrite Rabs_pos_eq in N by lra.
  pose proof (bpow_le radix2 (- 126) (- 60) ltac:(lia)) as B.
  assert (N' : near B32Acc.eps 1 (B32Lib.rnd y) y) by (apply N; lra). clear N.
  destruct N' as [t [E1 [T1 T2]]]. pose proof B32Rel.eps_range as Ev. rewrite !pow_1 in T1, T2.
  assert (T0 : 0 < t) by (apply Rlt_le_trans with (2 := T1); apply Rinv_0_lt_compat; lra).
  assert (Ti : 1 - B32Acc.eps <= / (1 + B32Acc.eps)).
  { apply Rmult_le_reg_r with (1 + B32Acc.eps); [lra |]. rewrite Rinv_l by lra. nra. }
  assert (Ty : Rabs (B32Lib.rnd y - y) <= B32Acc.eps * y).
  { rewrite E1. replace (y * t - y) with (y * (t - 1)) by ring. rewrite Rabs_mult, (Rabs_pos_eq y), Rmult_comm by lra.
    apply Rmult_le_compat_r; [lra |]. apply Rabs_le. lra. }
  destruct (nearest32_ok y) as [F1 V1].
  - rewrite E1. rewrite Rabs_pos_eq by (apply Rmult_le_pos; lra).
    apply Rle_lt_trans with (bpow radix2 60 * bpow radix2 1).
    + apply Rmult_le_compat; [lra | lra | exact Up | simpl; lra].
    + rewrite <- bpow_plus. apply bpow_lt. lia.
  - split; [exact F1 |]. rewrite V1. change (/ IZR (2 ^ 24)) with B32Acc.eps. simpl INR. lra.
Qed.

(** 7000 km and the Earth's mu, rounded to an integer *)
Lemma trip64_ex : off64 10 7000 (@a_from_period _ (Num_B64 cbrt_libm64) (@orb_period _ (Num_B64 cbrt_libm64) (b64_Z 7000) (b64_Z 398600)) (b64_Z 398600)) 7000.
Proof.
  destruct (int64 7000 ltac:(lia)) as [F1 V1]. destruct (int64 398600 ltac:(lia)) as [F2 V2].
  assert (I : forall e x, (20 <= e)%Z -> 1 <= x <= 1000000 -> in_range e x).
  { intros e x E H. apply (range_mono 20); [lia |]. right. rewrite Rabs_pos_eq by lra. simpl. lra. }
  pose proof (B64Per.trip_ok cbrt_libm64 1 cbrt_libm64_ok ltac:(lia) (b64_Z 7000) (b64_Z 398600)) as T. rewrite V1, V2 in T.
  replace (INR 1 + 9) with 10 in T by (simpl; lra). apply T; try lra.
  - split; [exact F1 | rewrite V1; apply I; [lia | lra]].
  - split; [exact F2 | rewrite V2; apply I; [lia | lra]].
  - apply I; [lia | lra].
Qed.
Lemma trip32_ex : off 10 7000 (@a_from_period _ (Num_B32 cbrt_libm32) (@orb_period _ (Num_B32 cbrt_libm32) (b32_Z 7000) (b32_Z 398600)) (b32_Z 398600)) 7000.
Proof.
  destruct (int32 7000 ltac:(lia)) as [F1 V1]. destruct (int32 398600 ltac:(lia)) as [F2 V2].
  assert (I : forall e x, (20 <= e)%Z -> 1 <= x <= 1000000 -> in_range e x).
  { intros e x E H. apply (range_mono 20); [lia |]. right. rewrite Rabs_pos_eq by lra. simpl. lra. }
  pose proof (B32Per.trip_ok cbrt_libm32 1 cbrt_libm32_ok ltac:(lia) (b32_Z 7000) (b32_Z 398600)) as T. rewrite V1, V2 in T.
  replace (INR 1 + 9) with 10 in T by (simpl; lra). apply T; try lra.
  - split; [exact F1 | rewrite V1; apply I; [lia | lra]].
  - split; [exact F2 | rewrite V2; apply I; [lia | lra]].
  - apply I; [lia | lra].
Qed.

(** period 2 with mu = 1 *)
Lemma axis_ex (a : R) : 0 < a -> PI ^ 2 * a ^ 3 = 1 ->
  off64 6 a (@a_from_period _ (Num_B64 cbrt_libm64) (b64_Z 2) (b64_Z 1)) a /\ off 6 a (@a_from_period _ (Num_B32 cbrt_libm32) (b32_Z 2) (b32_Z 1)) a /\
  exists g : b32, @a_from_period _ (Num_J cbrt_libm32) (F32 (b32_Z 2)) (F32 (b32_Z 1)) = F32 g /\ off 6 a g a.
Proof.
  intros Pa E.
  destruct (int64 2 ltac:(lia)) as [F2 V2]. destruct (int64 1 ltac:(lia)) as [F1 V1].
  destruct (int32 2 ltac:(lia)) as [G2 W2]. destruct (int32 1 ltac:(lia)) as [G1 W1].
  assert (I : forall e x, (20 <= e)%Z -> 1 <= x <= 1000000 -> in_range e x).
  { intros e x E' H. apply (range_mono 20); [lia |]. right. rewrite Rabs_pos_eq by lra. simpl. lra. }
  assert (E6 : INR 1 + 5 = 6) by (simpl; lra). rewrite <- E6.
  assert (A : good64 300 (b64_Z 2)) by (split; [exact F2 | rewrite V2; apply I; [lia | lra]]).
  assert (B : good64 300 (b64_Z 1)) by (split; [exact F1 | rewrite V1; apply I; [lia | lra]]).
  assert (A' : good32 30 (b32_Z 2)) by (split; [exact G2 | rewrite W2; apply I; [lia | lra]]).
  assert (B' : good32 50 (b32_Z 1)) by (split; [exact G1 | rewrite W1; apply I; [lia | lra]]).
  split; [| split].
  - apply (B64Per.axis_ok cbrt_libm64 1 cbrt_libm64_ok ltac:(lia)); [exact A | exact B | lra | lra | exact Pa | rewrite V1, V2; lra].
  - apply (B32Per.axis_ok cbrt_libm32 1 cbrt_libm32_ok ltac:(lia)); [exact A' | exact B' | lra | lra | exact Pa | rewrite W1, W2; lra].
  - apply (axis_python cbrt_libm32 1 cbrt_libm32_ok ltac:(lia)); [exact A' | exact B' | lra | lra | exact Pa | rewrite W1, W2; lra].
Qed.
