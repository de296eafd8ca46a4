(** * Property C111, ellipses up to e = 9/10: from the elapsed time to the eccentric anomaly in floating point

    Theorems only; proofs are in [ElpsNine], [B64Time9], [B32Time9].  [M] is the exact mean anomaly of the given
    floating-point data, [X] the exact solution of Kepler's equation for it. *)
From Coq Require Import ZArith Reals Lra Bool.
From Flocq Require Import Core IEEE754.BinarySingleNaN.
From Verif Require Import Num NumB32 NumB64 LibmRef LibmRef64 SpecFl KepEqu B32Examples2 B64Far.
From Verif Require B32Time9 B64Time9.
Local Open Scope R_scope.

Theorem C111_ellipse_wide : forall (L : libm64) (a dt mu e : b64) (delta : R) (max_iter : Z), let N := Num_B64 L in
  is_finite a = true -> is_finite dt = true -> is_finite mu = true -> 0 < B2R a -> 0 < B2R mu ->
  in_range 1020 (B2R a ^ 3) -> in_range 1020 (B2R mu / B2R a ^ 3) -> let M := sqrt (B2R mu / B2R a ^ 3) * B2R dt in in_range 1020 M ->
  Rabs M <= 2 ^ 33 -> is_finite e = true -> 0 <= B2R e <= 9 / 10 -> 0 <= delta ->
  (forall x, is_finite x = true -> Rabs (B2R x) <= 3 * Rabs M + 5 ->
    is_finite (d_sin L x) = true /\ Rabs (B2R (d_sin L x) - sin (B2R x)) <= delta /\
    is_finite (d_cos L x) = true /\ Rabs (B2R (d_cos L x) - cos (B2R x)) <= delta) ->
  44 * delta + (14 * Rabs M + 260) * / IZR (2 ^ 53) <= / 1000 -> (17 <= max_iter)%Z ->
  let E := @solve_kepler_elps _ N (mean_anomaly_elps a dt mu) e (@default_tol _ N) max_iter in
  is_finite E = true /\
  exists X, X - B2R e * sin X = M /\ Rabs (B2R E - X) <= / 50000000000 + 49 * delta + (65 * Rabs M + 287) * / IZR (2 ^ 53).
Proof. exact B64Time9.ellipse9. Qed.
Print Assumptions C111_ellipse_wide.
(** a = 4, mu = 64, dt = 1, e = 7/8 *)
Example C111_ellipse_wide_case : let N := Num_B64 exact_libm in
  let E := @solve_kepler_elps _ N (@mean_anomaly_elps _ N (b64_Z 4) (b64_Z 1) (b64_Z 64)) (b64_dec 7 8) (@default_tol _ N) elps_max_iter in
  is_finite E = true /\ exists X, X - 7 / 8 * sin X = 1 /\ Rabs (B2R E - X) <= / 10000000000.
Proof. exact B64Time9.ellipse9_case. Qed.

Theorem C111_ellipse_wide_single : forall (L : libm) (a dt mu e : b32) (delta : R) (max_iter : Z), let N := Num_B32 L in
  is_finite a = true -> is_finite dt = true -> is_finite mu = true -> 0 < B2R a -> 0 < B2R mu ->
  in_range 125 (B2R a ^ 3) -> in_range 125 (B2R mu / B2R a ^ 3) -> let M := sqrt (B2R mu / B2R a ^ 3) * B2R dt in in_range 125 M ->
  Rabs M <= 50 -> is_finite e = true -> 0 <= B2R e <= 9 / 10 -> 0 <= delta ->
  (forall x, is_finite x = true -> Rabs (B2R x) <= 3 * Rabs M + 5 ->
    is_finite (m_sin L x) = true /\ Rabs (B2R (m_sin L x) - sin (B2R x)) <= delta /\
    is_finite (m_cos L x) = true /\ Rabs (B2R (m_cos L x) - cos (B2R x)) <= delta) ->
  44 * delta + (14 * Rabs M + 260) * / IZR (2 ^ 24) <= / 1000 -> (17 <= max_iter)%Z ->
  let E := @solve_kepler_elps _ N (mean_anomaly_elps a dt mu) e (@default_tol _ N) max_iter in
  is_finite E = true /\
  exists X, X - B2R e * sin X = M /\ Rabs (B2R E - X) <= / 50000000000 + 49 * delta + (65 * Rabs M + 287) * / IZR (2 ^ 24).
Proof. exact B32Time9.ellipse9. Qed.
Print Assumptions C111_ellipse_wide_single.
(** a = 4, mu = 64, dt = 1, e = 7/8 *)
Example C111_ellipse_wide_single_case : let N := Num_B32 exact_libm32 in
  let E := @solve_kepler_elps _ N (@mean_anomaly_elps _ N (b32_Z 4) (b32_Z 1) (b32_Z 64)) (b32_dec 7 8) (@default_tol _ N) elps_max_iter in
  is_finite E = true /\ exists X, X - 7 / 8 * sin X = 1 /\ Rabs (B2R E - X) <= / 5000.
Proof. exact B32Time9.ellipse9_case. Qed.

(** 1000 s after perigee on an ellipse with a = 24000 km, e = 7/8 about the earth *)
Example C111_wide_reference_run : let N := Num_B64 ref_libm64 in
  near64 (@solve_kepler_elps _ N (@mean_anomaly_elps _ N (b64_Z 24000) (b64_Z 1000) (b64_Z 398600)) (b64_dec 7 8) (@default_tol _ N) elps_max_iter)
    793542297206241718 1000000000000000000 100000000000000000 = true.
Proof. vm_compute. reflexivity. Qed.
