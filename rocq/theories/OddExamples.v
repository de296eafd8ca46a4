(** * OddExamples: runs behind C98 *)
From Coq Require Import ZArith Reals Bool List.
From Flocq Require Import Core IEEE754.BinarySingleNaN.
From Verif Require Import Num NumB32 NumB64 LibmRef LibmRef64 KepEqu SpecMirror MirrorExamples.
From Verif Require SgnFloat.
Local Open Scope R_scope.

(** 63.54797 with e = 1/2, and 34359738368.52956 with e = 3/4: the starts are exactly 64 and 2^35 *)
Definition odd_M32 : b32 := b32_div (b32_Z 16658719) (b32_Z 262144).
Definition odd_M64 : b64 := b64_div (b64_Z (2 ^ 52 + 69410)) (b64_Z 131072).
Lemma odd32_ex : let N := Num_B32 sym_libm32 in
  B2SF (@solve_kepler_elps _ N odd_M32 (b32_dec 1 2) (@default_tol _ N) elps_max_iter) = SpecFloat.S754_finite false 8388608 (-17) /\
  B2SF (@solve_kepler_elps _ N (Bopp odd_M32) (b32_dec 1 2) (@default_tol _ N) elps_max_iter) = SpecFloat.S754_finite true 8389906 (-17).
Proof. vm_compute. split; reflexivity. Qed.
Lemma odd64_ex : let N := Num_B64 sym_libm64 in
  B2SF (@solve_kepler_elps _ N odd_M64 (b64_dec 3 4) (@default_tol _ N) elps_max_iter) = SpecFloat.S754_finite false 4503599627370496 (-17) /\
  B2SF (@solve_kepler_elps _ N (Bopp odd_M64) (b64_dec 3 4) (@default_tol _ N) elps_max_iter) = SpecFloat.S754_finite true 4503599627374365 (-17).
Proof. vm_compute. split; reflexivity. Qed.
Lemma odd32_refuted : exists (L : libm) (M e : b32),
  ((forall a, m_sin L (Bopp a) = Bopp (m_sin L a)) /\ (forall a, m_cos L (Bopp a) = m_cos L a) /\ (forall s, m_sin L (B754_zero s) = B754_zero s)) /\
  ~ fsame (Bopp (@solve_kepler_elps _ (Num_B32 L) M e (@default_tol _ (Num_B32 L)) elps_max_iter)) (@solve_kepler_elps _ (Num_B32 L) (Bopp M) e (@default_tol _ (Num_B32 L)) elps_max_iter).
Proof.
  exists sym_libm32, odd_M32, (b32_dec 1 2). destruct sym32_ok as (A & B & _ & _ & C & _). split; [auto|].
  destruct odd32_ex as [E1 E2]. cbv zeta in E1, E2. revert E1 E2.
  generalize (@solve_kepler_elps _ (Num_B32 sym_libm32) odd_M32 (b32_dec 1 2) (@default_tol _ (Num_B32 sym_libm32)) elps_max_iter)
    (@solve_kepler_elps _ (Num_B32 sym_libm32) (Bopp odd_M32) (b32_dec 1 2) (@default_tol _ (Num_B32 sym_libm32)) elps_max_iter).
  intros a b E1 E2. clear - E1 E2. intros [H|[s [t [H K]]]]; [subst b; rewrite SgnFloat.opp_sf, E1 in E2; discriminate E2|subst b; discriminate E2].
Qed.
Lemma odd64_refuted : exists (L : libm64) (M e : b64),
  ((forall a, d_sin L (Bopp a) = Bopp (d_sin L a)) /\ (forall a, d_cos L (Bopp a) = d_cos L a) /\ (forall s, d_sin L (B754_zero s) = B754_zero s)) /\
  ~ fsame (Bopp (@solve_kepler_elps _ (Num_B64 L) M e (@default_tol _ (Num_B64 L)) elps_max_iter)) (@solve_kepler_elps _ (Num_B64 L) (Bopp M) e (@default_tol _ (Num_B64 L)) elps_max_iter).
Proof.
  exists sym_libm64, odd_M64, (b64_dec 3 4). destruct sym64_ok as (A & B & _ & _ & C & _). split; [auto|].
  destruct odd64_ex as [E1 E2]. cbv zeta in E1, E2. revert E1 E2.
  generalize (@solve_kepler_elps _ (Num_B64 sym_libm64) odd_M64 (b64_dec 3 4) (@default_tol _ (Num_B64 sym_libm64)) elps_max_iter)
    (@solve_kepler_elps _ (Num_B64 sym_libm64) (Bopp odd_M64) (b64_dec 3 4) (@default_tol _ (Num_B64 sym_libm64)) elps_max_iter).
  intros a b E1 E2. clear - E1 E2. intros [H|[s [t [H K]]]]; [subst b; rewrite SgnFloat.opp_sf, E1 in E2; discriminate E2|subst b; discriminate E2].
Qed.
(** away from those two starts *)
Lemma odd_plain : let N := Num_B32 sym_libm32 in
  B2SF (@solve_kepler_elps _ N (b32_Z 2) (b32_dec 1 2) (@default_tol _ N) elps_max_iter) =
  SpecFloat.SFopp (B2SF (@solve_kepler_elps _ N (b32_Z (-2)) (b32_dec 1 2) (@default_tol _ N) elps_max_iter)).
Proof. vm_compute. reflexivity. Qed.
