(** * Property C77, eccentricities up to 9/10: the elliptic Kepler solver in floating point

    Theorems only; proofs are in [ElpsNine], [B32Nine], [B64Nine]. *)
From Coq Require Import ZArith Reals Lra Bool List.
From Flocq Require Import Core IEEE754.BinarySingleNaN.
From Verif Require Import Num NumB32 NumB64 LibmRef LibmRef64 KepEqu B32Examples2 B64Far.
From Verif Require B32Nine B64Nine.
Local Open Scope R_scope.

(** ** C77 *)
(** Double precision (jax_enable_x64), 0 <= e <= 9/10, |M| <= 2^34, default tolerance, at least 17 steps allowed
    (the default is [elps_max_iter] = 20): the result is within 2e-11 + 1.1 D of the solution of Kepler's
    equation, and misses the equation by at most 4e-11 + 2.1 D. *)
Theorem C77_double_wide : forall (L : libm64) (M e : b64) (delta : R) (max_iter : Z), let N := Num_B64 L in
  is_finite M = true -> Rabs (B2R M) <= IZR (2 ^ 34) -> is_finite e = true -> 0 <= B2R e <= 9 / 10 -> 0 <= delta ->
  (forall x, is_finite x = true -> Rabs (B2R x) <= 2 * Rabs (B2R M) + 5 ->
    is_finite (d_sin L x) = true /\ Rabs (B2R (d_sin L x) - sin (B2R x)) <= delta /\
    is_finite (d_cos L x) = true /\ Rabs (B2R (d_cos L x) - cos (B2R x)) <= delta) ->
  let D := 44 * delta + (13 * Rabs (B2R M) + 260) * / IZR (2 ^ 53) in D <= / 1000 -> (17 <= max_iter)%Z ->
  let E := @solve_kepler_elps _ N M e (@default_tol _ N) max_iter in
  is_finite E = true /\
  (exists X, X - B2R e * sin X = B2R M /\ Rabs (B2R E - X) <= / 50000000000 + 11 / 10 * D) /\
  Rabs (B2R E - B2R e * sin (B2R E) - B2R M) <= / 25000000000 + 21 / 10 * D.
Proof. exact B64Nine.elps_float9. Qed.
Print Assumptions C77_double_wide.

(** Single precision (the JAX default) for |M| <= 60. *)
Theorem C77_single_wide : forall (L : libm) (M e : b32) (delta : R) (max_iter : Z), let N := Num_B32 L in
  is_finite M = true -> Rabs (B2R M) <= 60 -> is_finite e = true -> 0 <= B2R e <= 9 / 10 -> 0 <= delta ->
  (forall x, is_finite x = true -> Rabs (B2R x) <= 2 * Rabs (B2R M) + 5 ->
    is_finite (m_sin L x) = true /\ Rabs (B2R (m_sin L x) - sin (B2R x)) <= delta /\
    is_finite (m_cos L x) = true /\ Rabs (B2R (m_cos L x) - cos (B2R x)) <= delta) ->
  let D := 44 * delta + (13 * Rabs (B2R M) + 260) * / IZR (2 ^ 24) in D <= / 1000 -> (17 <= max_iter)%Z ->
  let E := @solve_kepler_elps _ N M e (@default_tol _ N) max_iter in
  is_finite E = true /\
  (exists X, X - B2R e * sin X = B2R M /\ Rabs (B2R E - X) <= / 50000000000 + 11 / 10 * D) /\
  Rabs (B2R E - B2R e * sin (B2R E) - B2R M) <= / 25000000000 + 21 / 10 * D.
Proof. exact B32Nine.elps_float9. Qed.
Print Assumptions C77_single_wide.

(** M = 1, e = 7/8 with a sin and cos correct to 2^-40 (double) and 2^-20 (single); and the reference libm's run. *)
Example C77_double_wide_run : let N := Num_B64 exact_libm in
  let E := @solve_kepler_elps _ N (b64_Z 1) (b64_dec 7 8) (@default_tol _ N) elps_max_iter in
  is_finite E = true /\ Rabs (B2R E - 7 / 8 * sin (B2R E) - 1) <= / 5000000000.
Proof. exact B64Nine.elps_float9_example. Qed.
Example C77_single_wide_run : let N := Num_B32 exact_libm32 in
  let E := @solve_kepler_elps _ N (b32_Z 1) (b32_dec 7 8) (@default_tol _ N) elps_max_iter in
  is_finite E = true /\ Rabs (B2R E - 7 / 8 * sin (B2R E) - 1) <= / 5000.
Proof. exact B32Nine.elps_float9_example. Qed.
Example C77_wide_reference_run : let N := Num_B64 ref_libm64 in
  near64 (@solve_kepler_elps _ N (b64_Z 1) (b64_dec 7 8) (@default_tol _ N) elps_max_iter)
    1842824455336309206 1000000000000000000 100000000000000 = true.
Proof. vm_compute. reflexivity. Qed.
