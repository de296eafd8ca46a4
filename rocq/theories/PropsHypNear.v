(** * Property C112: the hyperbolic Kepler solver in floating point down to e = 6/5

    Theorems only; proofs are in [HypNear], [HypFloat6], [B64Hyp6], [B32Hyp6].  The solver runs in IEEE arithmetic with
    any sinh, cosh and log whose errors are at most [delta], relative to cosh and to 1 + |log|. *)
From Coq Require Import ZArith Reals Lra Bool.
From Flocq Require Import Core IEEE754.BinarySingleNaN.
From Verif Require Import Num NumB32 NumB64 LibmRef LibmRef64 KepEqu.
From Verif Require B32Hyp B64Hyp B32Hyp6 B64Hyp6.
Local Open Scope R_scope.

(** Double precision (jax_enable_x64), e >= 6/5, N >= 0, any tolerance, at least twelve steps allowed (the default is [hypb_max_iter] = 50). *)
Theorem C112_double : forall (L : libm64) (Nm e tol : b64) (delta : R) (max_iter : Z), let N := Num_B64 L in
  is_finite Nm = true -> is_finite e = true -> is_finite tol = true -> 0 <= B2R tol -> 6 / 5 <= B2R e <= 2 ^ 1000 -> 0 <= B2R Nm <= 2 ^ 1000 -> B2R Nm <= 2 ^ 100 * B2R e ->
  0 <= delta <= / 100000 ->
  (forall x, is_finite x = true -> Rabs (B2R x) <= 100 ->
    (is_finite (d_sinh L x) = true /\ Rabs (B2R (d_sinh L x) - sinh (B2R x)) <= delta * cosh (B2R x)) /\
    (is_finite (d_cosh L x) = true /\ Rabs (B2R (d_cosh L x) - cosh (B2R x)) <= delta * cosh (B2R x))) ->
  (forall x, is_finite x = true -> / 2 <= B2R x ->
    is_finite (d_log L x) = true /\ Rabs (B2R (d_log L x) - ln (B2R x)) <= delta * (1 + Rabs (ln (B2R x)))) ->
  (12 <= max_iter)%Z ->
  let H := @solve_kepler_hypb _ N Nm e tol max_iter in
  is_finite H = true /\
  exists X, B2R e * sinh X - X = B2R Nm /\
    Rabs (B2R H - X) <= 3 * (B2R tol / (B2R e * cosh X - 1)) + 41 / 10 * (delta * (Rabs X + 13) + (Rabs X + 70) * / IZR (2 ^ 53)) + / 10 ^ 19.
Proof. exact B64Hyp6.hyp6_float. Qed.
Print Assumptions C112_double.
(** Before periapsis the first guess log(y + sqrt(y*y + 1)) cancels, which limits how negative N may be (below, C94 applies). *)
Theorem C112_double_before : forall (L : libm64) (Nm e tol : b64) (delta : R) (max_iter : Z), let N := Num_B64 L in
  is_finite Nm = true -> is_finite e = true -> is_finite tol = true -> 0 <= B2R tol -> 6 / 5 <= B2R e <= 2 ^ 1000 -> - 2 ^ 1000 <= B2R Nm <= 0 -> - (2 ^ 18 * B2R e) <= B2R Nm ->
  0 <= delta <= / 100000 ->
  (forall x, is_finite x = true -> Rabs (B2R x) <= 100 ->
    (is_finite (d_sinh L x) = true /\ Rabs (B2R (d_sinh L x) - sinh (B2R x)) <= delta * cosh (B2R x)) /\
    (is_finite (d_cosh L x) = true /\ Rabs (B2R (d_cosh L x) - cosh (B2R x)) <= delta * cosh (B2R x))) ->
  (forall x, is_finite x = true -> 0 < B2R x ->
    is_finite (d_log L x) = true /\ Rabs (B2R (d_log L x) - ln (B2R x)) <= delta * (1 + Rabs (ln (B2R x)))) ->
  (12 <= max_iter)%Z ->
  let H := @solve_kepler_hypb _ N Nm e tol max_iter in
  is_finite H = true /\
  exists X, B2R e * sinh X - X = B2R Nm /\
    Rabs (B2R H - X) <= 3 * (B2R tol / (B2R e * cosh X - 1)) + 41 / 10 * (delta * (Rabs X + 13) + (Rabs X + 70) * / IZR (2 ^ 53)) + / 10 ^ 19.
Proof. exact B64Hyp6.hyp6_float_before. Qed.
Print Assumptions C112_double_before.
(** Single precision (the JAX default). *)
Theorem C112_single : forall (L : libm) (Nm e tol : b32) (delta : R) (max_iter : Z), let N := Num_B32 L in
  is_finite Nm = true -> is_finite e = true -> is_finite tol = true -> 0 <= B2R tol -> 6 / 5 <= B2R e <= 2 ^ 100 -> 0 <= B2R Nm <= 2 ^ 100 -> B2R Nm <= 2 ^ 40 * B2R e ->
  0 <= delta <= / 100000 ->
  (forall x, is_finite x = true -> Rabs (B2R x) <= 40 ->
    (is_finite (m_sinh L x) = true /\ Rabs (B2R (m_sinh L x) - sinh (B2R x)) <= delta * cosh (B2R x)) /\
    (is_finite (m_cosh L x) = true /\ Rabs (B2R (m_cosh L x) - cosh (B2R x)) <= delta * cosh (B2R x))) ->
  (forall x, is_finite x = true -> / 2 <= B2R x ->
    is_finite (m_log L x) = true /\ Rabs (B2R (m_log L x) - ln (B2R x)) <= delta * (1 + Rabs (ln (B2R x)))) ->
  (12 <= max_iter)%Z ->
  let H := @solve_kepler_hypb _ N Nm e tol max_iter in
  is_finite H = true /\
  exists X, B2R e * sinh X - X = B2R Nm /\
    Rabs (B2R H - X) <= 3 * (B2R tol / (B2R e * cosh X - 1)) + 41 / 10 * (delta * (Rabs X + 13) + (Rabs X + 70) * / IZR (2 ^ 24)) + / 10 ^ 19.
Proof. exact B32Hyp6.hyp6_float. Qed.
Print Assumptions C112_single.
(** Single precision before periapsis. *)
Theorem C112_single_before : forall (L : libm) (Nm e tol : b32) (delta : R) (max_iter : Z), let N := Num_B32 L in
  is_finite Nm = true -> is_finite e = true -> is_finite tol = true -> 0 <= B2R tol -> 6 / 5 <= B2R e <= 2 ^ 100 -> - 2 ^ 100 <= B2R Nm <= 0 -> - (2 ^ 4 * B2R e) <= B2R Nm ->
  0 <= delta <= / 100000 ->
  (forall x, is_finite x = true -> Rabs (B2R x) <= 40 ->
    (is_finite (m_sinh L x) = true /\ Rabs (B2R (m_sinh L x) - sinh (B2R x)) <= delta * cosh (B2R x)) /\
    (is_finite (m_cosh L x) = true /\ Rabs (B2R (m_cosh L x) - cosh (B2R x)) <= delta * cosh (B2R x))) ->
  (forall x, is_finite x = true -> 0 < B2R x ->
    is_finite (m_log L x) = true /\ Rabs (B2R (m_log L x) - ln (B2R x)) <= delta * (1 + Rabs (ln (B2R x)))) ->
  (12 <= max_iter)%Z ->
  let H := @solve_kepler_hypb _ N Nm e tol max_iter in
  is_finite H = true /\
  exists X, B2R e * sinh X - X = B2R Nm /\
    Rabs (B2R H - X) <= 3 * (B2R tol / (B2R e * cosh X - 1)) + 41 / 10 * (delta * (Rabs X + 13) + (Rabs X + 70) * / IZR (2 ^ 24)) + / 10 ^ 19.
Proof. exact B32Hyp6.hyp6_float_before. Qed.
Print Assumptions C112_single_before.

(** e = 3/2, N = 3: with the correctly rounded functions, and the reference library's run. *)
Example C112_double_run : let N := Num_B64 B64Hyp.round_libm64 in
  let H := @solve_kepler_hypb _ N (b64_Z 3) (b64_dec 3 2) (@default_tol _ N) hypb_max_iter in
  is_finite H = true /\ exists X, 1 <= X <= 2 /\ 3 / 2 * sinh X - X = 3 /\ Rabs (B2R H - X) <= / 100000.
Proof. exact B64Hyp6.hyp6_float_example. Qed.
Example C112_single_run : let N := Num_B32 B32Hyp.round_libm32 in
  let H := @solve_kepler_hypb _ N (b32_Z 3) (b32_dec 3 2) (@default_tol _ N) hypb_max_iter in
  is_finite H = true /\ exists X, 1 <= X <= 2 /\ 3 / 2 * sinh X - X = 3 /\ Rabs (B2R H - X) <= / 30000.
Proof. exact B32Hyp6.hyp6_float_example. Qed.
Example C112_double_before_run : let N := Num_B64 B64Hyp.round_libm64 in
  let H := @solve_kepler_hypb _ N (b64_Z (-3)) (b64_dec 3 2) (@default_tol _ N) hypb_max_iter in
  is_finite H = true /\ exists X, -2 <= X <= -1 /\ 3 / 2 * sinh X - X = -3 /\ Rabs (B2R H - X) <= / 100000.
Proof. exact B64Hyp6.hyp6_before_example. Qed.
Example C112_single_before_run : let N := Num_B32 B32Hyp.round_libm32 in
  let H := @solve_kepler_hypb _ N (b32_Z (-3)) (b32_dec 3 2) (@default_tol _ N) hypb_max_iter in
  is_finite H = true /\ exists X, -2 <= X <= -1 /\ 3 / 2 * sinh X - X = -3 /\ Rabs (B2R H - X) <= / 30000.
Proof. exact B32Hyp6.hyp6_before_example. Qed.
Example C112_reference_run : let N := Num_B64 ref_libm64 in
  near64 (@solve_kepler_hypb _ N (b64_Z 3) (b64_dec 3 2) (@default_tol _ N) hypb_max_iter)
    1899455945779612824 1000000000000000000 30000000000000000000000 = true.
Proof. vm_compute. reflexivity. Qed.
Example C112_reference_before_run : let N := Num_B64 ref_libm64 in
  near64 (@solve_kepler_hypb _ N (b64_Z (-3)) (b64_dec 3 2) (@default_tol _ N) hypb_max_iter)
    (-1899455945779612824) 1000000000000000000 30000000000000000000000 = true.
Proof. vm_compute. reflexivity. Qed.
