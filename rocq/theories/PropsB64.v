(** * Properties C60, C61, C62, C64: the same questions in double precision

    Theorems only; proofs are in [B64Kep], [B64Far], [B64Uni], [B64Acc], [B64Examples].  [b64] is IEEE binary64
    ([NumB64]), [libm64] any implementation of the transcendental functions. *)
From Coq Require Import ZArith Reals Lra Bool List.
From Flocq Require Import Core IEEE754.BinarySingleNaN.
From Verif Require Import Num NumB32 LibmRef NumB64 LibmRef64 Spec Uniformulas KepEqu LoopFacts
  B64Kep B64Far B64Uni B64Acc B64Examples.
Local Open Scope R_scope.

(** ** C60 *)
(** With [jax_enable_x64] the elliptic solver makes a Newton step exactly when its starting guess is finite
    and in [-2^35, 2^35). *)
Theorem C60_first_step : forall (L : libm64) (M e : b64) (max_iter i : Z) (E prev : b64),
  let N := Num_B64 L in let guess := @elps_guess _ N M e in
  While (@elps_cond _ N (@default_tol _ N) max_iter) (@elps_body _ N M e)
    (@elps_init _ N M e (@default_tol _ N)) (i, E, prev) ->
  (1 <= i)%Z <-> (0 < max_iter)%Z /\ is_finite guess = true /\ - IZR (2 ^ 35) <= B2R guess < IZR (2 ^ 35).
Proof. exact elps_steps. Qed.
Print Assumptions C60_first_step.

Theorem C60_far : forall (L : libm64) (M e : b64) (max_iter : Z), let N := Num_B64 L in
  is_finite M = true -> IZR (2 ^ 35 + 2) <= Rabs (B2R M) <= IZR (2 ^ 1022) ->
  is_finite e = true -> 0 <= B2R e < 1 ->
  (forall x, is_finite x = true -> is_finite (d_sin L x) = true /\ -1 <= B2R (d_sin L x) <= 1) ->
  @solve_kepler_elps _ N M e (@default_tol _ N) max_iter = @elps_guess _ N M e.
Proof. exact elps_far. Qed.
Print Assumptions C60_far.

(** For every sine correct to 1/1024 there is a mean anomaly of some 5 * 10^10 at which the returned value is
    off by at least 1/50 in Kepler's equation with e = 1/2. *)
Theorem C60_refuted : forall L : libm64,
  (forall x, is_finite x = true -> Rabs (B2R x) <= IZR (2 ^ 37) ->
    is_finite (d_sin L x) = true /\ Rabs (B2R (d_sin L x) - sin (B2R x)) <= 1 / 1024) ->
  exists M, is_finite M = true /\ IZR (2 ^ 35 + 2) <= B2R M <= 51000000000 /\ forall max_iter : Z,
    let N := Num_B64 L in
    let E := B2R (@solve_kepler_elps _ N M (b64_dec 1 2) (@default_tol _ N) max_iter) in
    1 / 50 <= E - 1 / 2 * sin E - B2R M.
Proof. exact elps_far_exists. Qed.
Print Assumptions C60_refuted.

(** The assumption on [sin] can be met; and with the computable reference libm M = 2^36 returns the guess
    while M = 100 does not. *)
Example C60_libm : forall x : b64, is_finite (d_sin exact_libm x) = true /\
  Rabs (B2R (d_sin exact_libm x) - sin (B2R x)) <= 1 / 1024.
Proof. exact exact_libm_sin. Qed.
Example C60_runs : let N := Num_B64 ref_libm64 in
  B2SF (@solve_kepler_elps _ N (b64_Z 68719476736) (b64_dec 1 2) (@default_tol _ N) elps_max_iter)
  = B2SF (@elps_guess _ N (b64_Z 68719476736) (b64_dec 1 2)) /\
  B2SF (@solve_kepler_elps _ N (b64_Z 100) (b64_dec 1 2) (@default_tol _ N) elps_max_iter)
  <> B2SF (@elps_guess _ N (b64_Z 100) (b64_dec 1 2)).
Proof. exact ref64_stuck. Qed.

(** ** C61 *)
Theorem C61_universal : forall (L : libm64) (dt al r0 s0 mu : b64) (max_iter : Z), let N := Num_B64 L in
  let rhs := b64_mul (b64_sqrt mu) dt in
  is_finite rhs = true -> IZR (2 ^ 34) <= Rabs (B2R rhs) ->
  let chi := @solve_kepler_uni _ N dt al r0 s0 mu (@default_tol _ N) max_iter in
  let lhs := b64_add (b64_add (b64_mul r0 (@ufunc1 _ N chi al)) (b64_mul s0 (@ufunc2 _ N chi al)))
               (@ufunc3 _ N chi al) in
  chi = iterate (@uni_newton _ N dt al r0 s0 mu) (Z.to_nat max_iter) (@uni_guess _ N dt al mu)
  \/ is_nan lhs = true \/ (is_finite lhs = true /\ B2R lhs = B2R rhs).
Proof. exact uni_stops. Qed.
Print Assumptions C61_universal.

Theorem C61_hyperbolic : forall (L : libm64) (Nm e : b64) (max_iter : Z), let N := Num_B64 L in
  is_finite Nm = true -> IZR (2 ^ 34) <= Rabs (B2R Nm) ->
  let H := @solve_kepler_hypb _ N Nm e (@default_tol _ N) max_iter in
  let lhs := b64_sub (b64_mul e (d_sinh L H)) H in
  H = iterate (@hypb_newton _ N Nm e) (Z.to_nat max_iter) (@hypb_guess _ N Nm e)
  \/ is_nan lhs = true \/ (is_finite lhs = true /\ B2R lhs = B2R Nm).
Proof. exact hypb_stops. Qed.
Print Assumptions C61_hyperbolic.

Theorem C61_elliptic : forall (L : libm64) (M e : b64) (max_iter i : Z) (E prev : b64), let N := Num_B64 L in
  @elps_run _ N M e (@default_tol _ N) max_iter = Some (i, E, prev) ->
  (i < max_iter)%Z -> is_finite prev = true -> IZR (2 ^ 34) <= Rabs (B2R prev) ->
  is_nan E = true \/ (is_finite E = true /\ B2R E = B2R prev).
Proof. exact elps_stops. Qed.
Print Assumptions C61_elliptic.

(** e = 2.7696: N = 2 * 10^10 uses up its 50 iterations and ends four units in the last place off;
    N = 2 * 10^10 + 27 meets the rounded equation exactly. *)
Example C61_runs_out :
  B2SF (ref64_hypb_lhs (lit64 20000000000 1)) = SpecFloat.S754_finite false 5242880000000004 (-18) /\
  B2SF (lit64 20000000000 1) = SpecFloat.S754_finite false 5242880000000000 (-18).
Proof. exact ref64_runs_out. Qed.
Example C61_exact : B2SF (ref64_hypb_lhs (lit64 20000000027 1)) = B2SF (lit64 20000000027 1).
Proof. exact ref64_exact. Qed.

(** ** C62 *)
Theorem C62_refuted : forall (L : libm64) (chi alpha : b64),
  is_finite alpha = true -> 0 < B2R alpha <= 1 -> B2R alpha * (B2R chi) ^ 2 <= / IZR (2 ^ 55) ->
  let u := @ufunc2 _ (Num_B64 L) chi alpha in
  let U2 := (1 - cos (sqrt (B2R alpha) * B2R chi)) / B2R alpha in
  is_finite u = true -> U2 <= Rabs (B2R u - U2).
Proof. exact u2_lost. Qed.
Print Assumptions C62_refuted.

Theorem C62_hyperbolic_refuted : forall (L : libm64) (chi alpha : b64),
  is_finite alpha = true -> -1 <= B2R alpha < 0 -> - B2R alpha * (B2R chi) ^ 2 <= / IZR (2 ^ 56) ->
  let u := @ufunc2 _ (Num_B64 L) chi alpha in
  let U2 := (cosh (sqrt (- B2R alpha) * B2R chi) - 1) / (- B2R alpha) in
  is_finite u = true -> U2 <= Rabs (B2R u - U2).
Proof. exact u2_lost_hyperbolic. Qed.
Print Assumptions C62_hyperbolic_refuted.

Theorem C62_accurate : forall (L : libm64) (chi alpha : b64) (delta : R),
  is_finite alpha = true -> / IZR (2 ^ 200) <= B2R alpha <= 1 -> is_finite chi = true ->
  / IZR (2 ^ 53) <= B2R alpha * (B2R chi) ^ 2 <= 9 -> 0 <= delta <= 1 ->
  (forall x, is_finite x = true -> Rabs (B2R x) <= 4 ->
     is_finite (d_cos L x) = true /\ Rabs (B2R (d_cos L x) - cos (B2R x)) <= delta) ->
  let u := @ufunc2 _ (Num_B64 L) chi alpha in
  let U2 := (1 - cos (sqrt (B2R alpha) * B2R chi)) / B2R alpha in
  is_finite u = true /\
  Rabs (B2R u - U2) <= (9 * delta / (B2R alpha * (B2R chi) ^ 2) + 42 * / IZR (2 ^ 53)) * U2.
Proof. exact u2_accurate. Qed.
Print Assumptions C62_accurate.

Theorem C62_accurate_hyperbolic : forall (L : libm64) (chi alpha : b64) (delta : R),
  is_finite alpha = true -> / IZR (2 ^ 200) <= - B2R alpha <= 1 -> is_finite chi = true ->
  / IZR (2 ^ 53) <= - B2R alpha * (B2R chi) ^ 2 <= / 2 -> 0 <= delta <= 1 ->
  (forall x, is_finite x = true -> Rabs (B2R x) <= 4 ->
     is_finite (d_cosh L x) = true /\ Rabs (B2R (d_cosh L x) - cosh (B2R x)) <= delta) ->
  let u := @ufunc2 _ (Num_B64 L) chi alpha in
  let U2 := (cosh (sqrt (- B2R alpha) * B2R chi) - 1) / (- B2R alpha) in
  is_finite u = true /\
  Rabs (B2R u - U2) <= (9 * delta / (- B2R alpha * (B2R chi) ^ 2) + 42 * / IZR (2 ^ 53)) * U2.
Proof. exact u2_accurate_hyperbolic. Qed.
Print Assumptions C62_accurate_hyperbolic.

(** alpha = +-2^-60, chi = 1: U2 is about 1/2 and U3 about 1/6, the computed values are all zero.  At alpha = 1
    with a cosine rounded to 40 fractional bits the error is below 10^-10. *)
Example C62_zero : let N := Num_B64 ref_libm64 in
  B2SF (@ufunc2 _ N (b64_Z 1) (lit64 1 1152921504606846976)) = SpecFloat.S754_zero false /\
  B2SF (@ufunc2 _ N (b64_Z 1) (lit64 (-1) 1152921504606846976)) = SpecFloat.S754_zero false /\
  B2SF (@ufunc3 _ N (b64_Z 1) (lit64 1 1152921504606846976)) = SpecFloat.S754_zero false /\
  B2SF (@ufunc3 _ N (b64_Z 1) (lit64 (-1) 1152921504606846976)) = SpecFloat.S754_zero true.
Proof. exact ref64_zero. Qed.
Example C62_accurate_at_1 : let u := @ufunc2 _ (Num_B64 exact_libm) (b64_Z 1) (b64_Z 1) in
  is_finite u = true /\ Rabs (B2R u - (1 - cos 1)) <= / 10 ^ 10.
Proof. exact exact_u2_at_1. Qed.

(** ** C64 *)
Theorem C64_refuted : forall (L : libm64) (chi alpha : b64),
  is_finite alpha = true -> / IZR (2 ^ 200) <= B2R alpha <= 1 -> is_finite chi = true ->
  / IZR (2 ^ 100) <= B2R alpha * (B2R chi) ^ 2 <= 2 * / IZR (2 ^ 53) ->
  let u := @ufunc3 _ (Num_B64 L) chi alpha in
  let z := sqrt (B2R alpha) * B2R chi in let U3 := (z - sin z) / B2R alpha / sqrt (B2R alpha) in
  is_finite u = true -> Rabs U3 <= Rabs (B2R u - U3).
Proof. exact u3_lost. Qed.
Print Assumptions C64_refuted.

Theorem C64_hyperbolic_refuted : forall (L : libm64) (chi alpha : b64),
  is_finite alpha = true -> / IZR (2 ^ 200) <= - B2R alpha <= 1 -> is_finite chi = true ->
  / IZR (2 ^ 100) <= - B2R alpha * (B2R chi) ^ 2 <= / 8 * / IZR (2 ^ 53) ->
  let u := @ufunc3 _ (Num_B64 L) chi alpha in
  let z := sqrt (- B2R alpha) * B2R chi in let U3 := (z - sinh z) / B2R alpha / sqrt (- B2R alpha) in
  is_finite u = true -> Rabs U3 <= Rabs (B2R u - U3).
Proof. exact u3_lost_hyperbolic. Qed.
Print Assumptions C64_hyperbolic_refuted.

Theorem C64_accurate : forall (L : libm64) (chi alpha : b64) (delta : R),
  is_finite alpha = true -> / IZR (2 ^ 200) <= B2R alpha <= 1 -> is_finite chi = true ->
  / IZR (2 ^ 100) <= B2R alpha * (B2R chi) ^ 2 <= 9 -> 0 <= delta ->
  (forall x, is_finite x = true -> Rabs (B2R x) <= 4 ->
     Rabs (B2R (d_sin L x) - sin (B2R x)) <= delta) ->
  let u := @ufunc3 _ (Num_B64 L) chi alpha in
  let z := sqrt (B2R alpha) * B2R chi in let U3 := (z - sin z) / B2R alpha / sqrt (B2R alpha) in
  is_finite u = true ->
  Rabs (B2R u - U3) <= (12 * delta / Rabs z ^ 3 + 20 * / IZR (2 ^ 53)) * Rabs U3.
Proof. exact u3_accurate. Qed.
Print Assumptions C64_accurate.

Theorem C64_accurate_hyperbolic : forall (L : libm64) (chi alpha : b64) (delta : R),
  is_finite alpha = true -> / IZR (2 ^ 200) <= - B2R alpha <= 1 -> is_finite chi = true ->
  / IZR (2 ^ 100) <= - B2R alpha * (B2R chi) ^ 2 <= / 2 -> 0 <= delta ->
  (forall x, is_finite x = true -> Rabs (B2R x) <= 4 ->
     Rabs (B2R (d_sinh L x) - sinh (B2R x)) <= delta) ->
  let u := @ufunc3 _ (Num_B64 L) chi alpha in
  let z := sqrt (- B2R alpha) * B2R chi in let U3 := (z - sinh z) / B2R alpha / sqrt (- B2R alpha) in
  is_finite u = true ->
  Rabs (B2R u - U3) <= (12 * delta / Rabs z ^ 3 + 74 * / IZR (2 ^ 53)) * Rabs U3.
Proof. exact u3_accurate_hyperbolic. Qed.
Print Assumptions C64_accurate_hyperbolic.

(** chi = 1: at alpha = 2^-52 everything is lost, at 2^-50 the value 1/6 comes out as 1/8, at 1 the value
    1 - sin 1 = 0.1585... comes out to within a few units in the last place; with a sine rounded to 40
    fractional bits it is within 10^-10. *)
Example C64_values : let N := Num_B64 ref_libm64 in
  B2SF (@ufunc3 _ N (b64_Z 1) (lit64 1 4503599627370496)) = SpecFloat.S754_zero false /\
  B2SF (@ufunc3 _ N (b64_Z 1) (lit64 1 1125899906842624)) = SpecFloat.S754_finite false 4503599627370496 (-55) /\
  B2SF (@ufunc3 _ N (b64_Z 1) (lit64 1 1)) = SpecFloat.S754_finite false 5711609709972552 (-55).
Proof. exact ref64_u3. Qed.
Example C64_accurate_at_1 : let u := @ufunc3 _ (Num_B64 exact_libm) (b64_Z 1) (b64_Z 1) in
  is_finite u = true /\ Rabs (B2R u - (1 - sin 1)) <= / 10 ^ 10.
Proof. exact exact_u3_at_1. Qed.
