(** * Property C111: from the elapsed time to the hyperbolic anomaly in floating point down to e = 6/5

    Theorems only; proofs are in [TimeReal6], [B64Time6], [B32Time6].  [M] is the exact mean anomaly of the given
    floating-point data, [X] the exact solution of Kepler's equation for it. *)
From Coq Require Import ZArith Reals Lra Bool.
From Flocq Require Import Core IEEE754.BinarySingleNaN.
From Verif Require Import Num NumB32 NumB64 LibmRef LibmRef64 SpecFl KepEqu.
From Verif Require B32Hyp B64Hyp B32Time6 B64Time6.
Local Open Scope R_scope.

Theorem C111_hyperbola_near : forall (L : libm64) (a dt mu e tol : b64) (delta : R) (max_iter : Z), let N := Num_B64 L in
  is_finite a = true -> is_finite dt = true -> is_finite mu = true -> B2R a < 0 -> 0 < B2R mu ->
  in_range 1020 (B2R a ^ 3) -> in_range 1020 (B2R mu / (- B2R a ^ 3)) -> let M := sqrt (B2R mu / (- B2R a ^ 3)) * B2R dt in in_range 1020 M ->
  is_finite e = true -> is_finite tol = true -> 0 <= B2R tol -> 6 / 5 <= B2R e <= 2 ^ 1000 -> Rabs M <= 2 ^ 999 ->
  - (2 ^ 17 * B2R e) <= M <= 2 ^ 99 * B2R e -> 0 <= delta <= / 100000 ->
  (forall x, is_finite x = true -> Rabs (B2R x) <= 100 ->
    (is_finite (d_sinh L x) = true /\ Rabs (B2R (d_sinh L x) - sinh (B2R x)) <= delta * cosh (B2R x)) /\
    (is_finite (d_cosh L x) = true /\ Rabs (B2R (d_cosh L x) - cosh (B2R x)) <= delta * cosh (B2R x))) ->
  (forall x, is_finite x = true -> 0 < B2R x ->
    is_finite (d_log L x) = true /\ Rabs (B2R (d_log L x) - ln (B2R x)) <= delta * (1 + Rabs (ln (B2R x)))) ->
  (12 <= max_iter)%Z ->
  let H := @solve_kepler_hypb _ N (mean_anomaly_hypb a dt mu) e tol max_iter in
  is_finite H = true /\
  exists X, B2R e * sinh X - X = M /\
    Rabs (B2R H - X) <= 32 / 10 * (B2R tol / (B2R e * cosh X - 1)) + 42 / 10 * (delta * (Rabs X + 13) + (Rabs X + 72) * / IZR (2 ^ 53)) + / 10 ^ 19.
Proof. exact B64Time6.hyperbola6. Qed.
Print Assumptions C111_hyperbola_near.
(** a = -4, mu = 64, dt = -3, e = 3/2 *)
Example C111_hyperbola_near_case : let N := Num_B64 B64Hyp.round_libm64 in
  let H := @solve_kepler_hypb _ N (@mean_anomaly_hypb _ N (b64_Z (-4)) (b64_Z (-3)) (b64_Z 64)) (b64_dec 3 2) (@default_tol _ N) hypb_max_iter in
  is_finite H = true /\ exists X, -2 <= X <= -1 /\ 3 / 2 * sinh X - X = -3 /\ Rabs (B2R H - X) <= / 100000.
Proof. exact B64Time6.hyperbola6_case. Qed.

Theorem C111_hyperbola_near_single : forall (L : libm) (a dt mu e tol : b32) (delta : R) (max_iter : Z), let N := Num_B32 L in
  is_finite a = true -> is_finite dt = true -> is_finite mu = true -> B2R a < 0 -> 0 < B2R mu ->
  in_range 125 (B2R a ^ 3) -> in_range 125 (B2R mu / (- B2R a ^ 3)) -> let M := sqrt (B2R mu / (- B2R a ^ 3)) * B2R dt in in_range 125 M ->
  is_finite e = true -> is_finite tol = true -> 0 <= B2R tol -> 6 / 5 <= B2R e <= 2 ^ 100 -> Rabs M <= 2 ^ 99 ->
  - (2 ^ 3 * B2R e) <= M <= 2 ^ 39 * B2R e -> 0 <= delta <= / 100000 ->
  (forall x, is_finite x = true -> Rabs (B2R x) <= 40 ->
    (is_finite (m_sinh L x) = true /\ Rabs (B2R (m_sinh L x) - sinh (B2R x)) <= delta * cosh (B2R x)) /\
    (is_finite (m_cosh L x) = true /\ Rabs (B2R (m_cosh L x) - cosh (B2R x)) <= delta * cosh (B2R x))) ->
  (forall x, is_finite x = true -> 0 < B2R x ->
    is_finite (m_log L x) = true /\ Rabs (B2R (m_log L x) - ln (B2R x)) <= delta * (1 + Rabs (ln (B2R x)))) ->
  (12 <= max_iter)%Z ->
  let H := @solve_kepler_hypb _ N (mean_anomaly_hypb a dt mu) e tol max_iter in
  is_finite H = true /\
  exists X, B2R e * sinh X - X = M /\
    Rabs (B2R H - X) <= 32 / 10 * (B2R tol / (B2R e * cosh X - 1)) + 42 / 10 * (delta * (Rabs X + 13) + (Rabs X + 72) * / IZR (2 ^ 24)) + / 10 ^ 19.
Proof. exact B32Time6.hyperbola6. Qed.
Print Assumptions C111_hyperbola_near_single.
(** a = -4, mu = 64, dt = -3, e = 3/2 *)
Example C111_hyperbola_near_single_case : let N := Num_B32 B32Hyp.round_libm32 in
  let H := @solve_kepler_hypb _ N (@mean_anomaly_hypb _ N (b32_Z (-4)) (b32_Z (-3)) (b32_Z 64)) (b32_dec 3 2) (@default_tol _ N) hypb_max_iter in
  is_finite H = true /\ exists X, -2 <= X <= -1 /\ 3 / 2 * sinh X - X = -3 /\ Rabs (B2R H - X) <= / 20000.
Proof. exact B32Time6.hyperbola6_case. Qed.

(** 3600 s on a hyperbola with a = -20000 km, e = 3/2 about the earth *)
Example C111_reference_near_run : let N := Num_B64 ref_libm64 in
  near64 (@solve_kepler_hypb _ N (@mean_anomaly_hypb _ N (b64_Z (-20000)) (b64_Z 3600) (b64_Z 398600)) (b64_dec 3 2) (@default_tol _ N) hypb_max_iter)
    1030387431446234266 1000000000000000000 80000000000000000000000 = true.
Proof. vm_compute. reflexivity. Qed.
