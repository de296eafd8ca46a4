(** * Property C109: the elliptic Kepler solver returns a finite number

    Theorems only; proofs are in [ElpsFinite] and [FiniteExamples].  The [_single] theorems are
    about single precision, the others about double precision (jax_enable_x64).  Of the math
    library only this is used: sine and cosine of a finite number are finite and at most 1. *)
From Coq Require Import ZArith Reals Bool.
From Flocq Require Import Core IEEE754.BinarySingleNaN.
From Verif Require Import Num NumB32 NumB64 KepEqu FiniteExamples.
Local Open Scope R_scope.

Theorem C109_finite : forall (L : libm64) (k m : Z) (M e tol : b64) (max_iter : Z),
  (forall x, is_finite x = true -> is_finite (d_sin L x) = true /\ Rabs (B2R (d_sin L x)) <= 1) ->
  (forall x, is_finite x = true -> is_finite (d_cos L x) = true /\ Rabs (B2R (d_cos L x)) <= 1) ->
  (1 <= k < 53)%Z -> (1 <= m)%Z -> is_finite M = true -> Rabs (B2R M) <= bpow radix2 m -> is_finite e = true -> Rabs (B2R e) <= 1 - bpow radix2 (- k) ->
  let b := (m + 1 + Z.max 0 max_iter * (k + 2))%Z in (b < 1024)%Z -> (m + 2 < 1024)%Z ->
  let E := @solve_kepler_elps _ (Num_B64 L) M e tol max_iter in is_finite E = true /\ Rabs (B2R E) <= bpow radix2 b.
Proof. exact finite64. Qed.
Print Assumptions C109_finite.
(** with the default tolerance and the default limit of 20 steps *)
Theorem C109_default : forall (L : libm64) (M e : b64),
  (forall x, is_finite x = true -> is_finite (d_sin L x) = true /\ Rabs (B2R (d_sin L x)) <= 1) ->
  (forall x, is_finite x = true -> is_finite (d_cos L x) = true /\ Rabs (B2R (d_cos L x)) <= 1) ->
  is_finite M = true -> Rabs (B2R M) <= IZR (2 ^ 20) -> is_finite e = true -> Rabs (B2R e) <= 1 - / IZR (2 ^ 48) ->
  is_finite (@solve_kepler_elps _ (Num_B64 L) M e (@default_tol _ (Num_B64 L)) 20) = true.
Proof. exact default64. Qed.
Print Assumptions C109_default.
Example C109_case : (forall x, is_finite (d_sin clip_libm64 x) = true /\ Rabs (B2R (d_sin clip_libm64 x)) <= 1) /\ (forall x, is_finite (d_cos clip_libm64 x) = true /\ Rabs (B2R (d_cos clip_libm64 x)) <= 1) /\
  let E := @solve_kepler_elps _ (Num_B64 clip_libm64) (b64_dec 1 2) (b64_dec 9 10) (@default_tol _ (Num_B64 clip_libm64)) 20 in
  Bltb (b64_dec 1383 1000) E && Bltb E (b64_dec 1386 1000) = true.
Proof. exact (conj (fun x => clip64_ok _) (conj (fun x => clip64_ok _) finite64_ex)). Qed.

Theorem C109_finite_single : forall (L : libm) (k m : Z) (M e tol : b32) (max_iter : Z),
  (forall x, is_finite x = true -> is_finite (m_sin L x) = true /\ Rabs (B2R (m_sin L x)) <= 1) ->
  (forall x, is_finite x = true -> is_finite (m_cos L x) = true /\ Rabs (B2R (m_cos L x)) <= 1) ->
  (1 <= k < 24)%Z -> (1 <= m)%Z -> is_finite M = true -> Rabs (B2R M) <= bpow radix2 m -> is_finite e = true -> Rabs (B2R e) <= 1 - bpow radix2 (- k) ->
  let b := (m + 1 + Z.max 0 max_iter * (k + 2))%Z in (b < 128)%Z -> (m + 2 < 128)%Z ->
  let E := @solve_kepler_elps _ (Num_B32 L) M e tol max_iter in is_finite E = true /\ Rabs (B2R E) <= bpow radix2 b.
Proof. exact finite32. Qed.
Print Assumptions C109_finite_single.
(** with the default tolerance and the default limit of 20 steps *)
Theorem C109_default_single : forall (L : libm) (M e : b32),
  (forall x, is_finite x = true -> is_finite (m_sin L x) = true /\ Rabs (B2R (m_sin L x)) <= 1) ->
  (forall x, is_finite x = true -> is_finite (m_cos L x) = true /\ Rabs (B2R (m_cos L x)) <= 1) ->
  is_finite M = true -> Rabs (B2R M) <= IZR (2 ^ 6) -> is_finite e = true -> Rabs (B2R e) <= 1 - / IZR (2 ^ 4) ->
  is_finite (@solve_kepler_elps _ (Num_B32 L) M e (@default_tol _ (Num_B32 L)) 20) = true.
Proof. exact default32. Qed.
Print Assumptions C109_default_single.
Example C109_case_single : (forall x, is_finite (m_sin clip_libm32 x) = true /\ Rabs (B2R (m_sin clip_libm32 x)) <= 1) /\ (forall x, is_finite (m_cos clip_libm32 x) = true /\ Rabs (B2R (m_cos clip_libm32 x)) <= 1) /\
  let E := @solve_kepler_elps _ (Num_B32 clip_libm32) (b32_dec 1 2) (b32_dec 9 10) (@default_tol _ (Num_B32 clip_libm32)) 20 in
  Bltb (b32_dec 1383 1000) E && Bltb E (b32_dec 1386 1000) = true.
Proof. exact (conj (fun x => clip32_ok _) (conj (fun x => clip32_ok _) finite32_ex)). Qed.
