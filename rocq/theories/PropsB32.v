(** * Properties C29, C58, C59, C63: the Newton loops and the universal functions in single precision

    Theorems only; proofs are in [B32Kep], [B32Uni], [B32Acc], [B32Examples], [B32Examples2].  [b32] is IEEE binary32, every operation
    rounds to nearest even ([NumB32]); [libm] is any implementation of the transcendental functions, about
    which each theorem states what it assumes (often nothing).  Fused multiply-add is not modelled. *)
From Coq Require Import ZArith Reals Lra Bool List.
From Flocq Require Import Core IEEE754.BinarySingleNaN.
From Verif Require Import Num NumB32 Spec Uniformulas KepEqu LoopFacts LibmRef B32Kep B32Uni B32Acc B32Examples B32Examples2.
Local Open Scope R_scope.

(** ** C29 *)
(** [solve_kepler_elps] makes a Newton step exactly when its starting guess is finite and in [-64, 64): the
    fictitious previous iterate, guess + 2 tol, rounds to the guess outside. *)
Theorem C29_first_step : forall (L : libm) (M e : b32) (max_iter i : Z) (E prev : b32),
  let N := Num_B32 L in let guess := @elps_guess _ N M e in
  While (@elps_cond _ N (@default_tol _ N) max_iter) (@elps_body _ N M e)
    (@elps_init _ N M e (@default_tol _ N)) (i, E, prev) ->
  (1 <= i)%Z <-> (0 < max_iter)%Z /\ is_finite guess = true /\ -64 <= B2R guess < 64.
Proof. exact elps_steps. Qed.
Print Assumptions C29_first_step.

(** For every mean anomaly of at least 66 in size the series guess is returned as it is. *)
Theorem C29_far : forall (L : libm) (M e : b32) (max_iter : Z), let N := Num_B32 L in
  is_finite M = true -> 66 <= Rabs (B2R M) <= IZR (2 ^ 126) ->
  is_finite e = true -> 0 <= B2R e < 1 ->
  (forall x, is_finite x = true -> is_finite (m_sin L x) = true /\ -1 <= B2R (m_sin L x) <= 1) ->
  @solve_kepler_elps _ N M e (@default_tol _ N) max_iter = @elps_guess _ N M e.
Proof. exact elps_far. Qed.
Print Assumptions C29_far.

(** At M = 100, e = 1/2 that leaves an error of at least 1/50 in Kepler's equation, 20000 tolerances. *)
Theorem C29_refuted : forall (L : libm) (max_iter : Z), let N := Num_B32 L in
  is_finite (m_sin L (b32_Z 100)) = true -> is_finite (m_sin L (b32_Z 200)) = true ->
  Rabs (B2R (m_sin L (b32_Z 100)) - sin 100) <= 1 / 1024 ->
  Rabs (B2R (m_sin L (b32_Z 200)) - sin 200) <= 1 / 1024 ->
  let E := B2R (@solve_kepler_elps _ N (b32_Z 100) (b32_dec 1 2) (@default_tol _ N) max_iter) in
  1 / 50 <= E - 1 / 2 * sin E - 100.
Proof. exact elps_100. Qed.
Print Assumptions C29_refuted.

(** The hypotheses hold for the reference libm; with it M = 1 does make steps. *)
Example C29_at_100 : let N := Num_B32 ref_libm in
  let E := B2R (@solve_kepler_elps _ N (b32_Z 100) (b32_dec 1 2) (@default_tol _ N) elps_max_iter) in
  1 / 50 <= E - 1 / 2 * sin E - 100.
Proof. exact ref_100_wrong. Qed.
Example C29_at_1 : let N := Num_B32 ref_libm in
  B2SF (@solve_kepler_elps _ N (b32_Z 1) (b32_dec 1 2) (@default_tol _ N) elps_max_iter)
  <> B2SF (@elps_guess _ N (b32_Z 1) (b32_dec 1 2)).
Proof. exact ref_1_moves. Qed.

(** ** C58 *)
(** When the right-hand side is at least 32 in size the universal solver either uses up all its iterations
    or returns a [chi] at which the rounded left-hand side equals the rounded right-hand side (or is NaN):
    the tolerance 1e-6 is below the spacing of floats there. *)
Theorem C58_universal : forall (L : libm) (dt al r0 s0 mu : b32) (max_iter : Z), let N := Num_B32 L in
  let rhs := b32_mul (b32_sqrt mu) dt in
  is_finite rhs = true -> 32 <= Rabs (B2R rhs) ->
  let chi := @solve_kepler_uni _ N dt al r0 s0 mu (@default_tol _ N) max_iter in
  let lhs := b32_add (b32_add (b32_mul r0 (@ufunc1 _ N chi al)) (b32_mul s0 (@ufunc2 _ N chi al)))
               (@ufunc3 _ N chi al) in
  chi = iterate (@uni_newton _ N dt al r0 s0 mu) (Z.to_nat max_iter) (@uni_guess _ N dt al mu)
  \/ is_nan lhs = true \/ (is_finite lhs = true /\ B2R lhs = B2R rhs).
Proof. exact uni_stops. Qed.
Print Assumptions C58_universal.

Theorem C58_hyperbolic : forall (L : libm) (Nm e : b32) (max_iter : Z), let N := Num_B32 L in
  is_finite Nm = true -> 32 <= Rabs (B2R Nm) ->
  let H := @solve_kepler_hypb _ N Nm e (@default_tol _ N) max_iter in
  let lhs := b32_sub (b32_mul e (m_sinh L H)) H in
  H = iterate (@hypb_newton _ N Nm e) (Z.to_nat max_iter) (@hypb_guess _ N Nm e)
  \/ is_nan lhs = true \/ (is_finite lhs = true /\ B2R lhs = B2R Nm).
Proof. exact hypb_stops. Qed.
Print Assumptions C58_hyperbolic.

(** The elliptic loop compares successive iterates: stopping early means the last two are the same float. *)
Theorem C58_elliptic : forall (L : libm) (M e : b32) (max_iter i : Z) (E prev : b32), let N := Num_B32 L in
  @elps_run _ N M e (@default_tol _ N) max_iter = Some (i, E, prev) ->
  (i < max_iter)%Z -> is_finite prev = true -> 32 <= Rabs (B2R prev) ->
  is_nan E = true \/ (is_finite E = true /\ B2R E = B2R prev).
Proof. exact elps_stops. Qed.
Print Assumptions C58_elliptic.

(** Both outcomes occur.  The docstring's example N = 40.69 ends one unit in the last place off, so it used
    up its 50 iterations; N = 50 meets the equation exactly. *)
Example C58_runs_out :
  B2SF (ref_hypb_lhs (lit 4069 100)) = SpecFloat.S754_finite false 10666640 (-18) /\
  B2SF (lit 4069 100) = SpecFloat.S754_finite false 10666639 (-18).
Proof. exact ref_hypb_runs_out. Qed.
Example C58_exact : B2SF (ref_hypb_lhs (lit 50 1)) = B2SF (lit 50 1).
Proof. exact ref_hypb_exact. Qed.

(** ** C59 *)
(** Close to zero energy [ufunc2] has a relative error of at least 1, whatever the libm: the float [cos] is
    1 or at least 2^-24 away from it. *)
Theorem C59_refuted : forall (L : libm) (chi alpha : b32),
  is_finite alpha = true -> 0 < B2R alpha <= 1 -> B2R alpha * (B2R chi) ^ 2 <= / 67108864 ->
  let u := @ufunc2 _ (Num_B32 L) chi alpha in
  let U2 := (1 - cos (sqrt (B2R alpha) * B2R chi)) / B2R alpha in
  is_finite u = true -> U2 <= Rabs (B2R u - U2).
Proof. exact u2_lost. Qed.
Print Assumptions C59_refuted.

Theorem C59_hyperbolic_refuted : forall (L : libm) (chi alpha : b32),
  is_finite alpha = true -> -1 <= B2R alpha < 0 -> - B2R alpha * (B2R chi) ^ 2 <= / 134217728 ->
  let u := @ufunc2 _ (Num_B32 L) chi alpha in
  let U2 := (cosh (sqrt (- B2R alpha) * B2R chi) - 1) / (- B2R alpha) in
  is_finite u = true -> U2 <= Rabs (B2R u - U2).
Proof. exact u2_lost_hyperbolic. Qed.
Print Assumptions C59_hyperbolic_refuted.

(** alpha = +-2^-30, chi = 1: the exact value is about 1/2, the computed one is 0. *)
Example C59_zero :
  B2SF (@ufunc2 _ (Num_B32 ref_libm) (b32_Z 1) (lit 1 1073741824)) = SpecFloat.S754_zero false /\
  B2SF (@ufunc2 _ (Num_B32 ref_libm) (b32_Z 1) (lit (-1) 1073741824)) = SpecFloat.S754_zero false.
Proof. exact ref_u2_zero. Qed.

(** Further away it is accurate: with a [cos] whose absolute error is at most [delta], the relative error of
    [ufunc2] is at most 9 delta / (alpha chi^2) + 42 * 2^-24. *)
Theorem C59_accurate : forall (L : libm) (chi alpha : b32) (delta : R),
  is_finite alpha = true -> / IZR (2 ^ 100) <= B2R alpha <= 1 -> is_finite chi = true ->
  / IZR (2 ^ 24) <= B2R alpha * (B2R chi) ^ 2 <= 9 -> 0 <= delta <= 1 ->
  (forall x, is_finite x = true -> Rabs (B2R x) <= 4 ->
     is_finite (m_cos L x) = true /\ Rabs (B2R (m_cos L x) - cos (B2R x)) <= delta) ->
  let u := @ufunc2 _ (Num_B32 L) chi alpha in
  let U2 := (1 - cos (sqrt (B2R alpha) * B2R chi)) / B2R alpha in
  is_finite u = true /\
  Rabs (B2R u - U2) <= (9 * delta / (B2R alpha * (B2R chi) ^ 2) + 42 * / IZR (2 ^ 24)) * U2.
Proof. exact u2_accurate. Qed.
Print Assumptions C59_accurate.

Theorem C59_accurate_hyperbolic : forall (L : libm) (chi alpha : b32) (delta : R),
  is_finite alpha = true -> / IZR (2 ^ 100) <= - B2R alpha <= 1 -> is_finite chi = true ->
  / IZR (2 ^ 24) <= - B2R alpha * (B2R chi) ^ 2 <= / 2 -> 0 <= delta <= 1 ->
  (forall x, is_finite x = true -> Rabs (B2R x) <= 4 ->
     is_finite (m_cosh L x) = true /\ Rabs (B2R (m_cosh L x) - cosh (B2R x)) <= delta) ->
  let u := @ufunc2 _ (Num_B32 L) chi alpha in
  let U2 := (cosh (sqrt (- B2R alpha) * B2R chi) - 1) / (- B2R alpha) in
  is_finite u = true /\
  Rabs (B2R u - U2) <= (9 * delta / (- B2R alpha * (B2R chi) ^ 2) + 42 * / IZR (2 ^ 24)) * U2.
Proof. exact u2_accurate_hyperbolic. Qed.
Print Assumptions C59_accurate_hyperbolic.

(** The assumptions on [cos] can be met (here with delta = 2^-20). *)
Example C59_accurate_at_1 : let u := @ufunc2 _ (Num_B32 exact_libm32) (b32_Z 1) (b32_Z 1) in
  is_finite u = true /\ Rabs (B2R u - (1 - cos 1)) <= 3 / 10 ^ 5.
Proof. exact exact32_u2_at_1. Qed.

(** ** C63 *)
(** [ufunc3] loses everything when alpha chi^2 is at most 2^-23, whatever the libm: the argument and its
    float sine are equal or at least 2^-24 of the argument apart. *)
Theorem C63_refuted : forall (L : libm) (chi alpha : b32),
  is_finite alpha = true -> / IZR (2 ^ 100) <= B2R alpha <= 1 -> is_finite chi = true ->
  / IZR (2 ^ 100) <= B2R alpha * (B2R chi) ^ 2 <= 2 * / IZR (2 ^ 24) ->
  let u := @ufunc3 _ (Num_B32 L) chi alpha in
  let z := sqrt (B2R alpha) * B2R chi in let U3 := (z - sin z) / B2R alpha / sqrt (B2R alpha) in
  is_finite u = true -> Rabs U3 <= Rabs (B2R u - U3).
Proof. exact u3_lost. Qed.
Print Assumptions C63_refuted.

Theorem C63_hyperbolic_refuted : forall (L : libm) (chi alpha : b32),
  is_finite alpha = true -> / IZR (2 ^ 100) <= - B2R alpha <= 1 -> is_finite chi = true ->
  / IZR (2 ^ 100) <= - B2R alpha * (B2R chi) ^ 2 <= / 8 * / IZR (2 ^ 24) ->
  let u := @ufunc3 _ (Num_B32 L) chi alpha in
  let z := sqrt (- B2R alpha) * B2R chi in let U3 := (z - sinh z) / B2R alpha / sqrt (- B2R alpha) in
  is_finite u = true -> Rabs U3 <= Rabs (B2R u - U3).
Proof. exact u3_lost_hyperbolic. Qed.
Print Assumptions C63_hyperbolic_refuted.

(** Further away the relative error is at most 12 delta / |z|^3 + 20 * 2^-24 (74 * 2^-24 on the hyperbolic
    branch), z = sqrt(|alpha|) chi, for a sine whose absolute error is at most [delta]. *)
Theorem C63_accurate : forall (L : libm) (chi alpha : b32) (delta : R),
  is_finite alpha = true -> / IZR (2 ^ 100) <= B2R alpha <= 1 -> is_finite chi = true ->
  / IZR (2 ^ 100) <= B2R alpha * (B2R chi) ^ 2 <= 9 -> 0 <= delta ->
  (forall x, is_finite x = true -> Rabs (B2R x) <= 4 ->
     Rabs (B2R (m_sin L x) - sin (B2R x)) <= delta) ->
  let u := @ufunc3 _ (Num_B32 L) chi alpha in
  let z := sqrt (B2R alpha) * B2R chi in let U3 := (z - sin z) / B2R alpha / sqrt (B2R alpha) in
  is_finite u = true ->
  Rabs (B2R u - U3) <= (12 * delta / Rabs z ^ 3 + 20 * / IZR (2 ^ 24)) * Rabs U3.
Proof. exact u3_accurate. Qed.
Print Assumptions C63_accurate.

Theorem C63_accurate_hyperbolic : forall (L : libm) (chi alpha : b32) (delta : R),
  is_finite alpha = true -> / IZR (2 ^ 100) <= - B2R alpha <= 1 -> is_finite chi = true ->
  / IZR (2 ^ 100) <= - B2R alpha * (B2R chi) ^ 2 <= / 2 -> 0 <= delta ->
  (forall x, is_finite x = true -> Rabs (B2R x) <= 4 ->
     Rabs (B2R (m_sinh L x) - sinh (B2R x)) <= delta) ->
  let u := @ufunc3 _ (Num_B32 L) chi alpha in
  let z := sqrt (- B2R alpha) * B2R chi in let U3 := (z - sinh z) / B2R alpha / sqrt (- B2R alpha) in
  is_finite u = true ->
  Rabs (B2R u - U3) <= (12 * delta / Rabs z ^ 3 + 74 * / IZR (2 ^ 24)) * Rabs U3.
Proof. exact u3_accurate_hyperbolic. Qed.
Print Assumptions C63_accurate_hyperbolic.

(** chi = 1: alpha = 2^-23 gives 0 where the true value is about 1/6, alpha = 2^-20 gives 3/16, and alpha = 1
    is accurate with a sine rounded to 20 fractional bits. *)
Example C63_values :
  B2SF (@ufunc3 _ (Num_B32 ref_libm) (b32_Z 1) (lit 1 8388608)) = SpecFloat.S754_zero false /\
  B2SF (@ufunc3 _ (Num_B32 ref_libm) (b32_Z 1) (lit (-1) 1073741824)) = SpecFloat.S754_zero true /\
  B2SF (@ufunc3 _ (Num_B32 ref_libm) (b32_Z 1) (lit 1 1048576)) = SpecFloat.S754_finite false 12582912 (-26) /\
  B2SF (@ufunc3 _ (Num_B32 ref_libm) (b32_Z 1) (lit 1 1)) = SpecFloat.S754_finite false 10638704 (-26).
Proof. exact ref_u3. Qed.
Example C63_accurate_at_1 : let u := @ufunc3 _ (Num_B32 exact_libm32) (b32_Z 1) (b32_Z 1) in
  is_finite u = true /\ Rabs (B2R u - (1 - sin 1)) <= 3 / 10 ^ 5.
Proof. exact exact32_u3_at_1. Qed.
