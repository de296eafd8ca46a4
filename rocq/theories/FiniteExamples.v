(** * FiniteExamples: both precisions, a library and runs for C109 *)
From Coq Require Import ZArith Reals Lra Lia Bool.
From Flocq Require Import Core IEEE754.BinarySingleNaN.
From Verif Require Import Num NumB32 NumB64 LibmRef LibmRef64 KepEqu UnitExamples.
From Verif Require ElpsFinite.
Local Open Scope R_scope.

Lemma b32_1 : B2R (b32_Z 1) = 1. Proof. change (B2R (b32_Z 1)) with (F2R (Float radix2 8388608 (-23))). unfold F2R. cbn [Fnum Fexp bpow]. change (Zpower_pos radix2 23) with 8388608%Z. lra. Qed.
Lemma b32_2 : B2R (b32_Z 2) = 2. Proof. change (B2R (b32_Z 2)) with (F2R (Float radix2 8388608 (-22))). unfold F2R. cbn [Fnum Fexp bpow]. change (Zpower_pos radix2 22) with 4194304%Z. lra. Qed.
Lemma b64_1 : B2R (b64_Z 1) = 1. Proof. change (B2R (b64_Z 1)) with (F2R (Float radix2 4503599627370496 (-52))). unfold F2R. cbn [Fnum Fexp bpow]. change (Zpower_pos radix2 52) with 4503599627370496%Z. lra. Qed.
Lemma b64_2 : B2R (b64_Z 2) = 2. Proof. change (B2R (b64_Z 2)) with (F2R (Float radix2 4503599627370496 (-51))). unfold F2R. cbn [Fnum Fexp bpow]. change (Zpower_pos radix2 51) with 2251799813685248%Z. lra. Qed.
Lemma Rle_bool_true_inv (x y : R) : Rle_bool x y = true -> x <= y. Proof. intros H. destruct (Rle_bool_spec x y); [assumption|discriminate]. Qed.

(** a library whose sine and cosine are cut to [-1, 1] *)
Definition clip64 (x : b64) : b64 := if Bleb (Babs x) (b64_Z 1) then x else b64_Z 0.
Definition clip_libm64 : libm64 := {|
  d_cbrt := d_cbrt ref_libm64; d_sin := fun x => clip64 (d_sin ref_libm64 x); d_cos := fun x => clip64 (d_cos ref_libm64 x);
  d_sinh := d_sinh ref_libm64; d_cosh := d_cosh ref_libm64; d_log := d_log ref_libm64;
  d_arccos := d_arccos ref_libm64; d_arctan2 := d_arctan2 ref_libm64 |}.
Lemma int64 : (is_finite (b64_Z 1) = true /\ B2R (b64_Z 1) = 1) /\ (is_finite (b64_Z 2) = true /\ B2R (b64_Z 2) = 2).
Proof. repeat split; try reflexivity; [exact b64_1|exact b64_2]. Qed.
Lemma clip64_ok (x : b64) : is_finite (clip64 x) = true /\ Rabs (B2R (clip64 x)) <= 1.
Proof.
  unfold clip64. destruct (Bleb (Babs x) (b64_Z 1)) eqn:E.
  - assert (F : is_finite x = true) by (destruct x; [reflexivity|vm_compute in E; discriminate|vm_compute in E; discriminate|reflexivity]). split; [exact F|].
    rewrite Bleb_correct in E by (try reflexivity; now rewrite is_finite_Babs). apply Rle_bool_true_inv in E. rewrite B2R_Babs in E. destruct int64 as [[_ V] _]. now rewrite V in E.
  - split; [reflexivity|]. replace (B2R (b64_Z 0)) with 0 by reflexivity. rewrite Rabs_R0. lra.
Qed.
Lemma finite64_ex : let E := @solve_kepler_elps _ (Num_B64 clip_libm64) (b64_dec 1 2) (b64_dec 9 10) (@default_tol _ (Num_B64 clip_libm64)) 20 in
  Bltb (b64_dec 1383 1000) E && Bltb E (b64_dec 1386 1000) = true.
Proof. vm_compute. reflexivity. Qed.

(** a library whose sine and cosine are cut to [-1, 1] *)
Definition clip32 (x : b32) : b32 := if Bleb (Babs x) (b32_Z 1) then x else b32_Z 0.
Definition clip_libm32 : libm := {|
  m_cbrt := m_cbrt ref_libm; m_sin := fun x => clip32 (m_sin ref_libm x); m_cos := fun x => clip32 (m_cos ref_libm x);
  m_sinh := m_sinh ref_libm; m_cosh := m_cosh ref_libm; m_log := m_log ref_libm;
  m_arccos := m_arccos ref_libm; m_arctan2 := m_arctan2 ref_libm |}.
Lemma int32 : (is_finite (b32_Z 1) = true /\ B2R (b32_Z 1) = 1) /\ (is_finite (b32_Z 2) = true /\ B2R (b32_Z 2) = 2).
Proof. repeat split; try reflexivity; [exact b32_1|exact b32_2]. Qed.
Lemma clip32_ok (x : b32) : is_finite (clip32 x) = true /\ Rabs (B2R (clip32 x)) <= 1.
Proof.
  unfold clip32. destruct (Bleb (Babs x) (b32_Z 1)) eqn:E.
  - assert (F : is_finite x = true) by (destruct x; [reflexivity|vm_compute in E; discriminate|vm_compute in E; discriminate|reflexivity]). split; [exact F|].
    rewrite Bleb_correct in E by (try reflexivity; now rewrite is_finite_Babs). apply Rle_bool_true_inv in E. rewrite B2R_Babs in E. destruct int32 as [[_ V] _]. now rewrite V in E.
  - split; [reflexivity|]. replace (B2R (b32_Z 0)) with 0 by reflexivity. rewrite Rabs_R0. lra.
Qed.
Lemma finite32_ex : let E := @solve_kepler_elps _ (Num_B32 clip_libm32) (b32_dec 1 2) (b32_dec 9 10) (@default_tol _ (Num_B32 clip_libm32)) 20 in
  Bltb (b32_dec 1383 1000) E && Bltb E (b32_dec 1386 1000) = true.
Proof. vm_compute. reflexivity. Qed.

Lemma finite64 : forall (L : libm64) (k m : Z) (M e tol : b64) (max_iter : Z),
  (forall x, is_finite x = true -> is_finite (d_sin L x) = true /\ Rabs (B2R (d_sin L x)) <= 1) ->
  (forall x, is_finite x = true -> is_finite (d_cos L x) = true /\ Rabs (B2R (d_cos L x)) <= 1) ->
  (1 <= k < 53)%Z -> (1 <= m)%Z -> is_finite M = true -> Rabs (B2R M) <= bpow radix2 m -> is_finite e = true -> Rabs (B2R e) <= 1 - bpow radix2 (- k) ->
  let b := (m + 1 + Z.max 0 max_iter * (k + 2))%Z in (b < 1024)%Z -> (m + 2 < 1024)%Z ->
  let E := @solve_kepler_elps _ (Num_B64 L) M e tol max_iter in is_finite E = true /\ Rabs (B2R E) <= bpow radix2 b.
Proof.
  intros L k m M e tol n S C Hk H1 FM BM Fe Be b Hb H2. destruct int64 as [V1 V2].
  exact (ElpsFinite.elps_finite _ _ (Num_B64 L) (ieee64 L) ltac:(lia) S C (b64_Z 1) (b64_Z 2) eq_refl eq_refl V1 V2 k Hk e (conj Fe Be) m H1 H2 M (conj FM BM) tol n Hb).
Qed.
Lemma default64 : forall (L : libm64) (M e : b64),
  (forall x, is_finite x = true -> is_finite (d_sin L x) = true /\ Rabs (B2R (d_sin L x)) <= 1) ->
  (forall x, is_finite x = true -> is_finite (d_cos L x) = true /\ Rabs (B2R (d_cos L x)) <= 1) ->
  is_finite M = true -> Rabs (B2R M) <= IZR (2 ^ 20) -> is_finite e = true -> Rabs (B2R e) <= 1 - / IZR (2 ^ 48) ->
  is_finite (@solve_kepler_elps _ (Num_B64 L) M e (@default_tol _ (Num_B64 L)) 20) = true.
Proof.
  intros L M e S C FM BM Fe Be. refine (proj1 (finite64 L 48 20 M e _ 20 S C _ _ FM _ Fe _ _ _)); try lia; [exact BM|exact Be].
Qed.

Lemma finite32 : forall (L : libm) (k m : Z) (M e tol : b32) (max_iter : Z),
  (forall x, is_finite x = true -> is_finite (m_sin L x) = true /\ Rabs (B2R (m_sin L x)) <= 1) ->
  (forall x, is_finite x = true -> is_finite (m_cos L x) = true /\ Rabs (B2R (m_cos L x)) <= 1) ->
  (1 <= k < 24)%Z -> (1 <= m)%Z -> is_finite M = true -> Rabs (B2R M) <= bpow radix2 m -> is_finite e = true -> Rabs (B2R e) <= 1 - bpow radix2 (- k) ->
  let b := (m + 1 + Z.max 0 max_iter * (k + 2))%Z in (b < 128)%Z -> (m + 2 < 128)%Z ->
  let E := @solve_kepler_elps _ (Num_B32 L) M e tol max_iter in is_finite E = true /\ Rabs (B2R E) <= bpow radix2 b.
Proof.
  intros L k m M e tol n S C Hk H1 FM BM Fe Be b Hb H2. destruct int32 as [V1 V2].
  exact (ElpsFinite.elps_finite _ _ (Num_B32 L) (ieee32 L) ltac:(lia) S C (b32_Z 1) (b32_Z 2) eq_refl eq_refl V1 V2 k Hk e (conj Fe Be) m H1 H2 M (conj FM BM) tol n Hb).
Qed.
Lemma default32 : forall (L : libm) (M e : b32),
  (forall x, is_finite x = true -> is_finite (m_sin L x) = true /\ Rabs (B2R (m_sin L x)) <= 1) ->
  (forall x, is_finite x = true -> is_finite (m_cos L x) = true /\ Rabs (B2R (m_cos L x)) <= 1) ->
  is_finite M = true -> Rabs (B2R M) <= IZR (2 ^ 6) -> is_finite e = true -> Rabs (B2R e) <= 1 - / IZR (2 ^ 4) ->
  is_finite (@solve_kepler_elps _ (Num_B32 L) M e (@default_tol _ (Num_B32 L)) 20) = true.
Proof.
  intros L M e S C FM BM Fe Be. refine (proj1 (finite32 L 4 6 M e _ 20 S C _ _ FM _ Fe _ _ _)); try lia; [exact BM|exact Be].
Qed.
