(** * Property C111: from the elapsed time to the eccentric or hyperbolic anomaly in floating point

    Theorems only; proofs are in [TimeReal], [B64Time], [B32Time].  [M] is the exact mean anomaly of the given
    floating-point data, [X] the exact solution of Kepler's equation for it. *)
From Coq Require Import ZArith Reals Lra Bool.
From Flocq Require Import Core IEEE754.BinarySingleNaN.
From Verif Require Import Num NumB32 NumB64 LibmRef LibmRef64 SpecFl KepEqu B32Examples2 B64Far.
From Verif Require B32Hyp B64Hyp B32Time B64Time.
Local Open Scope R_scope.

Theorem C111_ellipse : forall (L : libm64) (a dt mu e : b64) (delta : R) (max_iter : Z), let N := Num_B64 L in
  is_finite a = true -> is_finite dt = true -> is_finite mu = true -> 0 < B2R a -> 0 < B2R mu ->
  in_range 1020 (B2R a ^ 3) -> in_range 1020 (B2R mu / B2R a ^ 3) -> let M := sqrt (B2R mu / B2R a ^ 3) * B2R dt in in_range 1020 M ->
  Rabs M <= 2 ^ 33 -> is_finite e = true -> 0 <= B2R e <= 3 / 4 -> 0 <= delta ->
  (forall x, is_finite x = true -> Rabs (B2R x) <= 3 * Rabs M + 3 ->
    is_finite (d_sin L x) = true /\ Rabs (B2R (d_sin L x) - sin (B2R x)) <= delta /\
    is_finite (d_cos L x) = true /\ Rabs (B2R (d_cos L x) - cos (B2R x)) <= delta) ->
  26 * delta + (8 * Rabs M + 115) * / IZR (2 ^ 53) <= / 1000 -> (10 <= max_iter)%Z ->
  let E := @solve_kepler_elps _ N (mean_anomaly_elps a dt mu) e (@default_tol _ N) max_iter in
  is_finite E = true /\
  exists X, X - B2R e * sin X = M /\ Rabs (B2R E - X) <= / 200000000000 + 29 * delta + (29 * Rabs M + 127) * / IZR (2 ^ 53).
Proof. exact B64Time.ellipse. Qed.
Print Assumptions C111_ellipse.
(** Before periapsis (dt < 0) the first guess of the solver limits the mean anomaly, see C94 and C110. *)
Theorem C111_hyperbola : forall (L : libm64) (a dt mu e tol : b64) (delta : R) (max_iter : Z), let N := Num_B64 L in
  is_finite a = true -> is_finite dt = true -> is_finite mu = true -> B2R a < 0 -> 0 < B2R mu ->
  in_range 1020 (B2R a ^ 3) -> in_range 1020 (B2R mu / (- B2R a ^ 3)) -> let M := sqrt (B2R mu / (- B2R a ^ 3)) * B2R dt in in_range 1020 M ->
  is_finite e = true -> is_finite tol = true -> 0 <= B2R tol -> 2 <= B2R e <= 2 ^ 1000 -> Rabs M <= 2 ^ 999 ->
  - (2 ^ 17 * B2R e) <= M <= 2 ^ 99 * B2R e -> 0 <= delta <= / 100000 ->
  (forall x, is_finite x = true -> Rabs (B2R x) <= 100 ->
    (is_finite (d_sinh L x) = true /\ Rabs (B2R (d_sinh L x) - sinh (B2R x)) <= delta * cosh (B2R x)) /\
    (is_finite (d_cosh L x) = true /\ Rabs (B2R (d_cosh L x) - cosh (B2R x)) <= delta * cosh (B2R x))) ->
  (forall x, is_finite x = true -> 0 < B2R x ->
    is_finite (d_log L x) = true /\ Rabs (B2R (d_log L x) - ln (B2R x)) <= delta * (1 + Rabs (ln (B2R x)))) ->
  (12 <= max_iter)%Z ->
  let H := @solve_kepler_hypb _ N (mean_anomaly_hypb a dt mu) e tol max_iter in
  is_finite H = true /\
  exists X, B2R e * sinh X - X = M /\
    Rabs (B2R H - X) <= 23 / 10 * (B2R tol / (B2R e * cosh X) + delta * (Rabs X + 4) + (Rabs X + 36) * / IZR (2 ^ 53)) + / 10 ^ 19.
Proof. exact B64Time.hyperbola. Qed.
Print Assumptions C111_hyperbola.
(** a = 4, mu = 64, dt = 1, e = 1/2 and a = -4, mu = 64, dt = -3, e = 2 *)
Example C111_ellipse_case : let N := Num_B64 exact_libm in
  let E := @solve_kepler_elps _ N (@mean_anomaly_elps _ N (b64_Z 4) (b64_Z 1) (b64_Z 64)) (b64_dec 1 2) (@default_tol _ N) elps_max_iter in
  is_finite E = true /\ exists X, X - 1 / 2 * sin X = 1 /\ Rabs (B2R E - X) <= / 10000000000.
Proof. exact B64Time.ellipse_case. Qed.
Example C111_hyperbola_case : let N := Num_B64 B64Hyp.round_libm64 in
  let H := @solve_kepler_hypb _ N (@mean_anomaly_hypb _ N (b64_Z (-4)) (b64_Z (-3)) (b64_Z 64)) (b64_Z 2) (@default_tol _ N) hypb_max_iter in
  is_finite H = true /\ exists X, -2 <= X <= -1 /\ 2 * sinh X - X = -3 /\ Rabs (B2R H - X) <= / 800000.
Proof. exact B64Time.hyperbola_case. Qed.

Theorem C111_ellipse_single : forall (L : libm) (a dt mu e : b32) (delta : R) (max_iter : Z), let N := Num_B32 L in
  is_finite a = true -> is_finite dt = true -> is_finite mu = true -> 0 < B2R a -> 0 < B2R mu ->
  in_range 125 (B2R a ^ 3) -> in_range 125 (B2R mu / B2R a ^ 3) -> let M := sqrt (B2R mu / B2R a ^ 3) * B2R dt in in_range 125 M ->
  Rabs M <= 50 -> is_finite e = true -> 0 <= B2R e <= 3 / 4 -> 0 <= delta ->
  (forall x, is_finite x = true -> Rabs (B2R x) <= 3 * Rabs M + 3 ->
    is_finite (m_sin L x) = true /\ Rabs (B2R (m_sin L x) - sin (B2R x)) <= delta /\
    is_finite (m_cos L x) = true /\ Rabs (B2R (m_cos L x) - cos (B2R x)) <= delta) ->
  26 * delta + (8 * Rabs M + 115) * / IZR (2 ^ 24) <= / 1000 -> (10 <= max_iter)%Z ->
  let E := @solve_kepler_elps _ N (mean_anomaly_elps a dt mu) e (@default_tol _ N) max_iter in
  is_finite E = true /\
  exists X, X - B2R e * sin X = M /\ Rabs (B2R E - X) <= / 200000000000 + 29 * delta + (29 * Rabs M + 127) * / IZR (2 ^ 24).
Proof. exact B32Time.ellipse. Qed.
Print Assumptions C111_ellipse_single.
(** Single precision. *)
Theorem C111_hyperbola_single : forall (L : libm) (a dt mu e tol : b32) (delta : R) (max_iter : Z), let N := Num_B32 L in
  is_finite a = true -> is_finite dt = true -> is_finite mu = true -> B2R a < 0 -> 0 < B2R mu ->
  in_range 125 (B2R a ^ 3) -> in_range 125 (B2R mu / (- B2R a ^ 3)) -> let M := sqrt (B2R mu / (- B2R a ^ 3)) * B2R dt in in_range 125 M ->
  is_finite e = true -> is_finite tol = true -> 0 <= B2R tol -> 2 <= B2R e <= 2 ^ 100 -> Rabs M <= 2 ^ 99 ->
  - (2 ^ 3 * B2R e) <= M <= 2 ^ 39 * B2R e -> 0 <= delta <= / 100000 ->
  (forall x, is_finite x = true -> Rabs (B2R x) <= 40 ->
    (is_finite (m_sinh L x) = true /\ Rabs (B2R (m_sinh L x) - sinh (B2R x)) <= delta * cosh (B2R x)) /\
    (is_finite (m_cosh L x) = true /\ Rabs (B2R (m_cosh L x) - cosh (B2R x)) <= delta * cosh (B2R x))) ->
  (forall x, is_finite x = true -> 0 < B2R x ->
    is_finite (m_log L x) = true /\ Rabs (B2R (m_log L x) - ln (B2R x)) <= delta * (1 + Rabs (ln (B2R x)))) ->
  (12 <= max_iter)%Z ->
  let H := @solve_kepler_hypb _ N (mean_anomaly_hypb a dt mu) e tol max_iter in
  is_finite H = true /\
  exists X, B2R e * sinh X - X = M /\
    Rabs (B2R H - X) <= 23 / 10 * (B2R tol / (B2R e * cosh X) + delta * (Rabs X + 4) + (Rabs X + 36) * / IZR (2 ^ 24)) + / 10 ^ 19.
Proof. exact B32Time.hyperbola. Qed.
Print Assumptions C111_hyperbola_single.
(** a = 4, mu = 64, dt = 1, e = 1/2 and a = -4, mu = 64, dt = -3, e = 2 *)
Example C111_ellipse_single_case : let N := Num_B32 exact_libm32 in
  let E := @solve_kepler_elps _ N (@mean_anomaly_elps _ N (b32_Z 4) (b32_Z 1) (b32_Z 64)) (b32_dec 1 2) (@default_tol _ N) elps_max_iter in
  is_finite E = true /\ exists X, X - 1 / 2 * sin X = 1 /\ Rabs (B2R E - X) <= / 10000.
Proof. exact B32Time.ellipse_case. Qed.
Example C111_hyperbola_single_case : let N := Num_B32 B32Hyp.round_libm32 in
  let H := @solve_kepler_hypb _ N (@mean_anomaly_hypb _ N (b32_Z (-4)) (b32_Z (-3)) (b32_Z 64)) (b32_Z 2) (@default_tol _ N) hypb_max_iter in
  is_finite H = true /\ exists X, -2 <= X <= -1 /\ 2 * sinh X - X = -3 /\ Rabs (B2R H - X) <= / 100000.
Proof. exact B32Time.hyperbola_case. Qed.

(** 1000 s on an ellipse with a = 7000 km, e = 1/2 and 3600 s on a hyperbola with a = -20000 km, e = 2 about the earth *)
Example C111_reference_run : let N := Num_B64 ref_libm64 in
  near64 (@solve_kepler_elps _ N (@mean_anomaly_elps _ N (b64_Z 7000) (b64_Z 1000) (b64_Z 398600)) (b64_dec 1 2) (@default_tol _ N) elps_max_iter)
    1577994063654268581 1000000000000000000 100000000000000000 = true /\
  near64 (@solve_kepler_hypb _ N (@mean_anomaly_hypb _ N (b64_Z (-20000)) (b64_Z 3600) (b64_Z 398600)) (b64_Z 2) (@default_tol _ N) hypb_max_iter)
    690959253181726625 1000000000000000000 80000000000000000000000 = true.
Proof. vm_compute. split; reflexivity. Qed.
