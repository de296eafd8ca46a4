(** * Property C77: the elliptic Kepler solver in floating point

    Theorems only; proofs are in [NewtonFl], [B32Newton], [B64Newton].  The solver runs in IEEE arithmetic with
    any sin and cos whose absolute error is at most [delta]; [D] collects what one Newton step can lose to
    rounding and to sin and cos. *)
From Coq Require Import ZArith Reals Lra Bool List.
From Flocq Require Import Core IEEE754.BinarySingleNaN.
From Verif Require Import Num NumB32 NumB64 LibmRef LibmRef64 KepEqu B32Examples2 B64Far.
From Verif Require B32Newton B64Newton.
Local Open Scope R_scope.

(** ** C77 *)
(** Double precision (jax_enable_x64), 0 <= e <= 3/4, |M| <= 2^34, default tolerance, at least ten steps allowed
    (the default is [elps_max_iter] = 20): the result is within 5e-12 + 1.1 D of the solution of Kepler's
    equation, and misses the equation by at most 1e-11 + 2 D. *)
Theorem C77_double : forall (L : libm64) (M e : b64) (delta : R) (max_iter : Z), let N := Num_B64 L in
  is_finite M = true -> Rabs (B2R M) <= IZR (2 ^ 34) -> is_finite e = true -> 0 <= B2R e <= 3 / 4 -> 0 <= delta ->
  (forall x, is_finite x = true -> Rabs (B2R x) <= 2 * Rabs (B2R M) + 3 ->
    is_finite (d_sin L x) = true /\ Rabs (B2R (d_sin L x) - sin (B2R x)) <= delta /\
    is_finite (d_cos L x) = true /\ Rabs (B2R (d_cos L x) - cos (B2R x)) <= delta) ->
  let D := 26 * delta + (7 * Rabs (B2R M) + 115) * / IZR (2 ^ 53) in D <= / 1000 -> (10 <= max_iter)%Z ->
  let E := @solve_kepler_elps _ N M e (@default_tol _ N) max_iter in
  is_finite E = true /\
  (exists X, X - B2R e * sin X = B2R M /\ Rabs (B2R E - X) <= / 200000000000 + 11 / 10 * D) /\
  Rabs (B2R E - B2R e * sin (B2R E) - B2R M) <= / 100000000000 + 2 * D.
Proof. exact B64Newton.elps_float. Qed.
Print Assumptions C77_double.

(** Single precision (the JAX default) for |M| <= 60; from about 64 on no step is made at all, see C29. *)
Theorem C77_single : forall (L : libm) (M e : b32) (delta : R) (max_iter : Z), let N := Num_B32 L in
  is_finite M = true -> Rabs (B2R M) <= 60 -> is_finite e = true -> 0 <= B2R e <= 3 / 4 -> 0 <= delta ->
  (forall x, is_finite x = true -> Rabs (B2R x) <= 2 * Rabs (B2R M) + 3 ->
    is_finite (m_sin L x) = true /\ Rabs (B2R (m_sin L x) - sin (B2R x)) <= delta /\
    is_finite (m_cos L x) = true /\ Rabs (B2R (m_cos L x) - cos (B2R x)) <= delta) ->
  let D := 26 * delta + (7 * Rabs (B2R M) + 115) * / IZR (2 ^ 24) in D <= / 1000 -> (10 <= max_iter)%Z ->
  let E := @solve_kepler_elps _ N M e (@default_tol _ N) max_iter in
  is_finite E = true /\
  (exists X, X - B2R e * sin X = B2R M /\ Rabs (B2R E - X) <= / 200000000000 + 11 / 10 * D) /\
  Rabs (B2R E - B2R e * sin (B2R E) - B2R M) <= / 100000000000 + 2 * D.
Proof. exact B32Newton.elps_float. Qed.
Print Assumptions C77_single.

(** M = 1, e = 1/2 with a sin and cos correct to 2^-40 (double) and 2^-20 (single); and the reference libm's run. *)
Example C77_double_run : let N := Num_B64 exact_libm in
  let E := @solve_kepler_elps _ N (b64_Z 1) (b64_dec 1 2) (@default_tol _ N) elps_max_iter in
  is_finite E = true /\ Rabs (B2R E - 1 / 2 * sin (B2R E) - 1) <= / 10000000000.
Proof. exact B64Newton.elps_float_example. Qed.
Example C77_single_run : let N := Num_B32 exact_libm32 in
  let E := @solve_kepler_elps _ N (b32_Z 1) (b32_dec 1 2) (@default_tol _ N) elps_max_iter in
  is_finite E = true /\ Rabs (B2R E - 1 / 2 * sin (B2R E) - 1) <= / 10000.
Proof. exact B32Newton.elps_float_example. Qed.
Example C77_reference_run : let N := Num_B64 ref_libm64 in
  near64 (@solve_kepler_elps _ N (b64_Z 1) (b64_dec 1 2) (@default_tol _ N) elps_max_iter)
    1498701133517848314 1000000000000000000 100000000000000 = true.
Proof. vm_compute. reflexivity. Qed.
