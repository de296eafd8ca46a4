(** * Properties C80-C83: the element conversion, the universal functions, the Newton solvers and the Kepler state in
    floating point

    Theorems only; proofs are in [RoundFn], [UfReal], [B64Coe], [B64Uf], [B64Uvi], [B64Stop], the same with [B32], and
    [UviExamples].  The theorems named [_single] are about single precision, the others about double precision
    (jax_enable_x64).  The math library is only assumed to be accurate to [c <= 8] units of rounding on the arguments
    named; [fine_libm64] and [fine_libm32] ([Fine64], [Fine32]) are libraries of that kind. *)
From Coq Require Import ZArith Reals Lra Bool List.
From Coquelicot Require Import Coquelicot.
From Flocq Require Import Core IEEE754.BinarySingleNaN.
From Verif Require Import Num NumB32 NumB64 Spec SpecFl SpecFl32 SpecFl64 SpecFlV OrbElements Uniformulas KepEqu PropKepler Fine32 Fine64 UviExamples.
From Verif Require B32Coe B64Coe B32Stop B64Stop.
Import ListNotations.
Local Open Scope R_scope.

(** ** C80 *)
Theorem C80_elements : forall (L : libm64) (p e incl raan argp f mu : b64) (c : nat),
  good64 100 p -> 0 < B2R p -> good64 100 mu -> 0 < B2R mu -> good64 900 e -> 0 <= B2R e <= 1000 -> (c <= 8)%nat ->
  (forall x : b64, In x [incl; raan; argp; f] ->
    (is_finite (d_sin L x) = true /\ Rabs (B2R (d_sin L x) - sin (B2R x)) <= INR c * / IZR (2 ^ 53)) /\
    (is_finite (d_cos L x) = true /\ Rabs (B2R (d_cos L x) - cos (B2R x)) <= INR c * / IZR (2 ^ 53))) ->
  1 + B2R e <= 1000 * (1 + B2R e * cos (B2R f)) ->
  let N := Num_B64 L in let x := @coe2rv _ N p e incl raan argp f mu in
  off64v (20 * INR c + 60) (B2R p * (1 + B2R e) / (1 + B2R e * cos (B2R f)) ^ 2) (fst x)
    (elements_position (B2R p) (B2R e) (B2R incl) (B2R raan) (B2R argp) (B2R f)) /\
  off64v (16 * INR c + 60) (sqrt (B2R mu / B2R p) * (1 + B2R e)) (snd x)
    (elements_velocity (B2R p) (B2R e) (B2R incl) (B2R raan) (B2R argp) (B2R f) (B2R mu)).
Proof. exact B64Coe.coe_ok. Qed.
Print Assumptions C80_elements.

Theorem C80_elements_single : forall (L : libm) (p e incl raan argp f mu : b32) (c : nat),
  good32 17 p -> 0 < B2R p -> good32 20 mu -> 0 < B2R mu -> good32 100 e -> 0 <= B2R e <= 1000 -> (c <= 8)%nat ->
  (forall x : b32, In x [incl; raan; argp; f] ->
    (is_finite (m_sin L x) = true /\ Rabs (B2R (m_sin L x) - sin (B2R x)) <= INR c * / IZR (2 ^ 24)) /\
    (is_finite (m_cos L x) = true /\ Rabs (B2R (m_cos L x) - cos (B2R x)) <= INR c * / IZR (2 ^ 24))) ->
  1 + B2R e <= 1000 * (1 + B2R e * cos (B2R f)) ->
  let N := Num_B32 L in let x := @coe2rv _ N p e incl raan argp f mu in
  off32v (20 * INR c + 60) (B2R p * (1 + B2R e) / (1 + B2R e * cos (B2R f)) ^ 2) (fst x)
    (elements_position (B2R p) (B2R e) (B2R incl) (B2R raan) (B2R argp) (B2R f)) /\
  off32v (16 * INR c + 60) (sqrt (B2R mu / B2R p) * (1 + B2R e)) (snd x)
    (elements_velocity (B2R p) (B2R e) (B2R incl) (B2R raan) (B2R argp) (B2R f) (B2R mu)).
Proof. exact B32Coe.coe_ok. Qed.
Print Assumptions C80_elements_single.

(** p = 3, e = 1, incl = 1, all other angles 0, mu = 12 *)
Example C80_parabola : let N := Num_B64 fine_libm64 in let x := @coe2rv _ N (b64_Z 3) (b64_Z 1) (b64_Z 1) (b64_Z 0) (b64_Z 0) (b64_Z 0) (b64_Z 12) in
  off64v 180 (3 / 2) (fst x) (mk3 (3 / 2) 0 0) /\ off64v 156 4 (snd x) (mk3 0 (4 * cos 1) (4 * sin 1)).
Proof. exact coe64_ex. Qed.
Example C80_parabola_single : let N := Num_B32 fine_libm32 in let x := @coe2rv _ N (b32_Z 3) (b32_Z 1) (b32_Z 1) (b32_Z 0) (b32_Z 0) (b32_Z 0) (b32_Z 12) in
  off32v 180 (3 / 2) (fst x) (mk3 (3 / 2) 0 0) /\ off32v 156 4 (snd x) (mk3 0 (4 * cos 1) (4 * sin 1)).
Proof. exact coe32_ex. Qed.

(** ** C81 *)
Theorem C81_universal : forall (L : libm64) (chi alpha : b64) (c : nat), (c <= 8)%nat -> good64 100 alpha -> good64 100 chi ->
  trig64 L c (2 * IZR (2 ^ 30)) (2 * 100) ->
  let th := sqrt (Rabs (B2R alpha)) * Rabs (B2R chi) in
  (0 < B2R alpha -> th <= IZR (2 ^ 30)) -> (B2R alpha < 0 -> th <= 100) ->
  let N := Num_B64 L in let U n := universal n (B2R chi) (B2R alpha) in let S n := uf_size n (B2R chi) (B2R alpha) in
  off64 (INR c + 12) (S 0%nat) (@ufunc0 _ N chi alpha) (U 0%nat) /\ off64 (INR c + 12) (S 1%nat) (@ufunc1 _ N chi alpha) (U 1%nat) /\
  off64 (INR c + 12) (S 2%nat) (@ufunc2 _ N chi alpha) (U 2%nat) /\ off64 (INR c + 12) (S 3%nat) (@ufunc3 _ N chi alpha) (U 3%nat).
Proof. exact B64Stop.uf_off. Qed.
Print Assumptions C81_universal.

Theorem C81_universal_single : forall (L : libm) (chi alpha : b32) (c : nat), (c <= 8)%nat -> good32 17 alpha -> good32 12 chi ->
  trig32 L c (2 * IZR (2 ^ 10)) (2 * 10) ->
  let th := sqrt (Rabs (B2R alpha)) * Rabs (B2R chi) in
  (0 < B2R alpha -> th <= IZR (2 ^ 10)) -> (B2R alpha < 0 -> th <= 10) ->
  let N := Num_B32 L in let U n := universal n (B2R chi) (B2R alpha) in let S n := uf_size n (B2R chi) (B2R alpha) in
  off (INR c + 12) (S 0%nat) (@ufunc0 _ N chi alpha) (U 0%nat) /\ off (INR c + 12) (S 1%nat) (@ufunc1 _ N chi alpha) (U 1%nat) /\
  off (INR c + 12) (S 2%nat) (@ufunc2 _ N chi alpha) (U 2%nat) /\ off (INR c + 12) (S 3%nat) (@ufunc3 _ N chi alpha) (U 3%nat).
Proof. exact B32Stop.uf_off. Qed.
Print Assumptions C81_universal_single.

Theorem C81_fourth_fifth : forall (L : libm64) (chi alpha : b64) (c : nat), (c <= 8)%nat -> good64 100 alpha -> good64 100 chi ->
  trig64 L c (2 * IZR (2 ^ 30)) (2 * 100) ->
  let a := Rabs (B2R alpha) in let q := sqrt a in let th := q * Rabs (B2R chi) in
  (0 < B2R alpha -> th <= IZR (2 ^ 30)) -> (B2R alpha < 0 -> th <= 100) -> B2R alpha <> 0 ->
  let N := Num_B64 L in let M := spread (B2R chi) (B2R alpha) in
  off64 (INR c + 12) ((th ^ 2 + 2 + 2 * M) / (2 * a ^ 2)) (@ufunc4 _ N chi alpha) (universal 4 (B2R chi) (B2R alpha)) /\
  off64 (INR c + 15) (q * (th ^ 3 + 6 * th + 6 * M) / (6 * a ^ 3)) (@ufunc5 _ N chi alpha) (universal 5 (B2R chi) (B2R alpha)).
Proof. exact B64Stop.uf_off45. Qed.
Print Assumptions C81_fourth_fifth.

Theorem C81_fourth_fifth_single : forall (L : libm) (chi alpha : b32) (c : nat), (c <= 8)%nat -> good32 17 alpha -> good32 12 chi ->
  trig32 L c (2 * IZR (2 ^ 10)) (2 * 10) ->
  let a := Rabs (B2R alpha) in let q := sqrt a in let th := q * Rabs (B2R chi) in
  (0 < B2R alpha -> th <= IZR (2 ^ 10)) -> (B2R alpha < 0 -> th <= 10) -> B2R alpha <> 0 ->
  let N := Num_B32 L in let M := spread (B2R chi) (B2R alpha) in
  off (INR c + 12) ((th ^ 2 + 2 + 2 * M) / (2 * a ^ 2)) (@ufunc4 _ N chi alpha) (universal 4 (B2R chi) (B2R alpha)) /\
  off (INR c + 15) (q * (th ^ 3 + 6 * th + 6 * M) / (6 * a ^ 3)) (@ufunc5 _ N chi alpha) (universal 5 (B2R chi) (B2R alpha)).
Proof. exact B32Stop.uf_off45. Qed.
Print Assumptions C81_fourth_fifth_single.

Theorem C81_equation : forall (L : libm64) (chi alpha : b64) (c : nat), (c <= 8)%nat -> good64 100 alpha -> good64 100 chi ->
  trig64 L c (2 * IZR (2 ^ 30)) (2 * 100) ->
  let th := sqrt (Rabs (B2R alpha)) * Rabs (B2R chi) in
  (0 < B2R alpha -> th <= IZR (2 ^ 30)) -> (B2R alpha < 0 -> th <= 100) ->
  forall r0 s0 dt mu : b64, good64 100 r0 -> 0 < B2R r0 -> good64 100 s0 -> good64 100 dt -> good64 100 mu -> 0 < B2R mu ->
  let N := Num_B64 L in let U n := universal n (B2R chi) (B2R alpha) in let S n := uf_size n (B2R chi) (B2R alpha) in
  off64 (INR c + 16) (B2R r0 * S 1%nat + Rabs (B2R s0) * S 2%nat + S 3%nat + sqrt (B2R mu) * Rabs (B2R dt)) (@kepler_equ_uni _ N chi alpha r0 s0 dt mu)
    (B2R r0 * U 1%nat + B2R s0 * U 2%nat + U 3%nat - sqrt (B2R mu) * B2R dt) /\
  off64 (INR c + 15) (B2R r0 * S 0%nat + Rabs (B2R s0) * S 1%nat + S 2%nat) (@dchi _ N chi alpha r0 s0) (B2R r0 * U 0%nat + B2R s0 * U 1%nat + U 2%nat).
Proof. exact B64Stop.kep_off. Qed.
Print Assumptions C81_equation.

Theorem C81_equation_single : forall (L : libm) (chi alpha : b32) (c : nat), (c <= 8)%nat -> good32 17 alpha -> good32 12 chi ->
  trig32 L c (2 * IZR (2 ^ 10)) (2 * 10) ->
  let th := sqrt (Rabs (B2R alpha)) * Rabs (B2R chi) in
  (0 < B2R alpha -> th <= IZR (2 ^ 10)) -> (B2R alpha < 0 -> th <= 10) ->
  forall r0 s0 dt mu : b32, good32 17 r0 -> 0 < B2R r0 -> good32 17 s0 -> good32 40 dt -> good32 20 mu -> 0 < B2R mu ->
  let N := Num_B32 L in let U n := universal n (B2R chi) (B2R alpha) in let S n := uf_size n (B2R chi) (B2R alpha) in
  off (INR c + 16) (B2R r0 * S 1%nat + Rabs (B2R s0) * S 2%nat + S 3%nat + sqrt (B2R mu) * Rabs (B2R dt)) (@kepler_equ_uni _ N chi alpha r0 s0 dt mu)
    (B2R r0 * U 1%nat + B2R s0 * U 2%nat + U 3%nat - sqrt (B2R mu) * B2R dt) /\
  off (INR c + 15) (B2R r0 * S 0%nat + Rabs (B2R s0) * S 1%nat + S 2%nat) (@dchi _ N chi alpha r0 s0) (B2R r0 * U 0%nat + B2R s0 * U 1%nat + U 2%nat).
Proof. exact B32Stop.kep_off. Qed.
Print Assumptions C81_equation_single.

Theorem C81_hyperbolic_equation : forall (L : libm64) (H e : b64) (c : nat), (c <= 8)%nat -> good64 100 H -> Rabs (B2R H) <= 100 -> good64 100 e -> 0 < B2R e ->
  trig64 L c (2 * IZR (2 ^ 30)) (2 * 100) -> forall Nm : b64, good64 100 Nm ->
  off64 (INR c + 4) (B2R e * cosh (B2R H) + Rabs (B2R H) + Rabs (B2R Nm)) (@kepler_equ_hypb _ (Num_B64 L) H e Nm) (B2R e * sinh (B2R H) - B2R H - B2R Nm).
Proof. exact B64Stop.hypb_ok. Qed.
Print Assumptions C81_hyperbolic_equation.

Theorem C81_hyperbolic_equation_single : forall (L : libm) (H e : b32) (c : nat), (c <= 8)%nat -> good32 12 H -> Rabs (B2R H) <= 10 -> good32 17 e -> 0 < B2R e ->
  trig32 L c (2 * IZR (2 ^ 10)) (2 * 10) -> forall Nm : b32, good32 40 Nm ->
  off (INR c + 4) (B2R e * cosh (B2R H) + Rabs (B2R H) + Rabs (B2R Nm)) (@kepler_equ_hypb _ (Num_B32 L) H e Nm) (B2R e * sinh (B2R H) - B2R H - B2R Nm).
Proof. exact B32Stop.hypb_ok. Qed.
Print Assumptions C81_hyperbolic_equation_single.

(** chi = 1 with alpha = 1 and alpha = -1 *)
Example C81_circle_hyperbola : let N := Num_B64 fine_libm64 in
  off64 18 4 (@ufunc1 _ N (b64_Z 1) (b64_Z 1)) (sin 1) /\ off64 18 (4 * cosh 1) (@ufunc2 _ N (b64_Z 1) (b64_Z (-1))) (cosh 1 - 1).
Proof. exact uf64_ex. Qed.
Example C81_circle_hyperbola_single : let N := Num_B32 fine_libm32 in
  off 18 4 (@ufunc1 _ N (b32_Z 1) (b32_Z 1)) (sin 1) /\ off 18 (4 * cosh 1) (@ufunc2 _ N (b32_Z 1) (b32_Z (-1))) (cosh 1 - 1).
Proof. exact uf32_ex. Qed.

(** ** C82 *)
Theorem C82_universal : forall (L : libm64) (chi alpha : b64) (c : nat), (c <= 8)%nat -> good64 100 alpha -> good64 100 chi ->
  trig64 L c (2 * IZR (2 ^ 30)) (2 * 100) ->
  let th := sqrt (Rabs (B2R alpha)) * Rabs (B2R chi) in
  (0 < B2R alpha -> th <= IZR (2 ^ 30)) -> (B2R alpha < 0 -> th <= 100) ->
  forall r0 s0 dt mu tol prev : b64, good64 100 r0 -> 0 < B2R r0 -> good64 100 s0 -> good64 100 dt -> good64 100 mu -> 0 < B2R mu -> is_finite tol = true ->
  forall mi i : Z, @uni_run _ (Num_B64 L) dt alpha r0 s0 mu tol mi = Some (i, chi, prev) -> (i < mi)%Z ->
  let U n := universal n (B2R chi) (B2R alpha) in let S n := uf_size n (B2R chi) (B2R alpha) in
  let b := B2R tol + (INR c + 16) * / IZR (2 ^ 53) * (B2R r0 * S 1%nat + Rabs (B2R s0) * S 2%nat + S 3%nat + sqrt (B2R mu) * Rabs (B2R dt)) in
  Rabs (B2R r0 * U 1%nat + B2R s0 * U 2%nat + U 3%nat - sqrt (B2R mu) * B2R dt) <= b /\
  forall x p : R, B2R r0 * universal 1 x (B2R alpha) + B2R s0 * universal 2 x (B2R alpha) + universal 3 x (B2R alpha) = sqrt (B2R mu) * B2R dt ->
    (forall z : R, Rmin (B2R chi) x <= z <= Rmax (B2R chi) x ->
       p <= B2R r0 * universal 0 z (B2R alpha) + B2R s0 * universal 1 z (B2R alpha) + universal 2 z (B2R alpha)) ->
    p * Rabs (B2R chi - x) <= b.
Proof. exact B64Stop.uni_solved. Qed.
Print Assumptions C82_universal.

Theorem C82_universal_single : forall (L : libm) (chi alpha : b32) (c : nat), (c <= 8)%nat -> good32 17 alpha -> good32 12 chi ->
  trig32 L c (2 * IZR (2 ^ 10)) (2 * 10) ->
  let th := sqrt (Rabs (B2R alpha)) * Rabs (B2R chi) in
  (0 < B2R alpha -> th <= IZR (2 ^ 10)) -> (B2R alpha < 0 -> th <= 10) ->
  forall r0 s0 dt mu tol prev : b32, good32 17 r0 -> 0 < B2R r0 -> good32 17 s0 -> good32 40 dt -> good32 20 mu -> 0 < B2R mu -> is_finite tol = true ->
  forall mi i : Z, @uni_run _ (Num_B32 L) dt alpha r0 s0 mu tol mi = Some (i, chi, prev) -> (i < mi)%Z ->
  let U n := universal n (B2R chi) (B2R alpha) in let S n := uf_size n (B2R chi) (B2R alpha) in
  let b := B2R tol + (INR c + 16) * / IZR (2 ^ 24) * (B2R r0 * S 1%nat + Rabs (B2R s0) * S 2%nat + S 3%nat + sqrt (B2R mu) * Rabs (B2R dt)) in
  Rabs (B2R r0 * U 1%nat + B2R s0 * U 2%nat + U 3%nat - sqrt (B2R mu) * B2R dt) <= b /\
  forall x p : R, B2R r0 * universal 1 x (B2R alpha) + B2R s0 * universal 2 x (B2R alpha) + universal 3 x (B2R alpha) = sqrt (B2R mu) * B2R dt ->
    (forall z : R, Rmin (B2R chi) x <= z <= Rmax (B2R chi) x ->
       p <= B2R r0 * universal 0 z (B2R alpha) + B2R s0 * universal 1 z (B2R alpha) + universal 2 z (B2R alpha)) ->
    p * Rabs (B2R chi - x) <= b.
Proof. exact B32Stop.uni_solved. Qed.
Print Assumptions C82_universal_single.

Theorem C82_hyperbolic : forall (L : libm64) (H e : b64) (c : nat), (c <= 8)%nat -> good64 100 H -> Rabs (B2R H) <= 100 -> good64 100 e -> 0 < B2R e ->
  trig64 L c (2 * IZR (2 ^ 30)) (2 * 100) ->
  forall Nm tol prev : b64, good64 100 Nm -> is_finite tol = true ->
  forall mi i : Z, @hypb_run _ (Num_B64 L) Nm e tol mi = Some (i, H, prev) -> (i < mi)%Z ->
  let b := B2R tol + (INR c + 4) * / IZR (2 ^ 53) * (B2R e * cosh (B2R H) + Rabs (B2R H) + Rabs (B2R Nm)) in
  Rabs (B2R e * sinh (B2R H) - B2R H - B2R Nm) <= b /\
  forall x : R, B2R e * sinh x - x = B2R Nm -> (B2R e - 1) * Rabs (B2R H - x) <= b.
Proof. exact B64Stop.hypb_solved. Qed.
Print Assumptions C82_hyperbolic.

Theorem C82_hyperbolic_single : forall (L : libm) (H e : b32) (c : nat), (c <= 8)%nat -> good32 12 H -> Rabs (B2R H) <= 10 -> good32 17 e -> 0 < B2R e ->
  trig32 L c (2 * IZR (2 ^ 10)) (2 * 10) ->
  forall Nm tol prev : b32, good32 40 Nm -> is_finite tol = true ->
  forall mi i : Z, @hypb_run _ (Num_B32 L) Nm e tol mi = Some (i, H, prev) -> (i < mi)%Z ->
  let b := B2R tol + (INR c + 4) * / IZR (2 ^ 24) * (B2R e * cosh (B2R H) + Rabs (B2R H) + Rabs (B2R Nm)) in
  Rabs (B2R e * sinh (B2R H) - B2R H - B2R Nm) <= b /\
  forall x : R, B2R e * sinh x - x = B2R Nm -> (B2R e - 1) * Rabs (B2R H - x) <= b.
Proof. exact B32Stop.hypb_solved. Qed.
Print Assumptions C82_hyperbolic_single.

(** chi + chi^3 / 6 = 1: the universal solver stops after 4 of 50 iterations, whatever the math library *)
Example C82_parabola : exists chi prev : b64, B2SF chi = SpecFloat.S754_finite false 7967968424238353 (-53) /\
  (forall L : libm64, @uni_run _ (Num_B64 L) (b64_Z 1) (b64_Z 0) (b64_Z 1) (b64_Z 0) (b64_Z 1) (@default_tol _ (Num_B64 L)) 50 = Some (4%Z, chi, prev)) /\
  Rabs (B2R chi + B2R chi ^ 3 / 6 - 1) <= 2 / 1000000.
Proof. exact uni64_ex. Qed.
Example C82_parabola_single : exists chi prev : b32, B2SF chi = SpecFloat.S754_finite false 14841497 (-24) /\
  (forall L : libm, @uni_run _ (Num_B32 L) (b32_Z 1) (b32_Z 0) (b32_Z 1) (b32_Z 0) (b32_Z 1) (@default_tol _ (Num_B32 L)) 50 = Some (4%Z, chi, prev)) /\
  Rabs (B2R chi + B2R chi ^ 3 / 6 - 1) <= 5 / 1000000.
Proof. exact uni32_ex. Qed.
(** e = 2, Nm = 2^-10, tol = 2^-16: the hyperbolic solver accepts its first guess *)
Example C82_first_guess : exists H prev : b64, @hypb_run _ (Num_B64 fine_libm64) (p2_64 (-10)) (b64_Z 2) (p2_64 (-16)) 50 = Some (0%Z, H, prev) /\
  forall x : R, 2 * sinh x - x = / 1024 -> Rabs (B2R H - x) <= / 32768.
Proof. exact hypb64_ex. Qed.
Example C82_first_guess_single : exists H prev : b32, @hypb_run _ (Num_B32 fine_libm32) (p2_32 (-10)) (b32_Z 2) (p2_32 (-16)) 50 = Some (0%Z, H, prev) /\
  forall x : R, 2 * sinh x - x = / 1024 -> Rabs (B2R H - x) <= / 32768.
Proof. exact hypb32_ex. Qed.

(** ** C83 *)
Theorem C83_state : forall (L : libm64) (chi alpha : b64) (c : nat), (c <= 8)%nat -> good64 100 alpha -> good64 100 chi ->
  trig64 L c (2 * IZR (2 ^ 30)) (2 * 100) ->
  let th := sqrt (Rabs (B2R alpha)) * Rabs (B2R chi) in
  (0 < B2R alpha -> th <= IZR (2 ^ 30)) -> (B2R alpha < 0 -> th <= 100) ->
  forall r0 s0 mu : b64, good64 100 r0 -> 0 < B2R r0 -> good64 100 s0 -> good64 100 mu -> 0 < B2R mu ->
  let U n := universal n (B2R chi) (B2R alpha) in let S n := uf_size n (B2R chi) (B2R alpha) in
  let rad := B2R r0 * U 0%nat + B2R s0 * U 1%nat + U 2%nat in
  in_range 100 rad -> 0 < rad -> 3000 * / IZR (2 ^ 53) * (B2R r0 * S 0%nat + Rabs (B2R s0) * S 1%nat + S 2%nat) <= rad ->
  forall x v : V3 b64, good64v 100 x -> good64v 100 v ->
  let s := @state_at_chi _ (Num_B64 L) chi alpha s0 r0 x v mu in
  let t := lagrange_state (B2R chi) (B2R alpha) (B2R s0) (B2R r0) (B2R mu) (real64 x) (real64 v) in
  let RB := B2R r0 * S 0%nat + Rabs (B2R s0) * S 1%nat + S 2%nat in
  off64v (INR c + 21) ((1 + S 2%nat / B2R r0) * vnorm (real64 x) + (B2R r0 * S 1%nat + Rabs (B2R s0) * S 2%nat) / sqrt (B2R mu) * vnorm (real64 v)) (fst s) (fst t) /\
  off64v (2 * INR c + 36) ((sqrt (B2R mu) * RB / rad ^ 2 * S 1%nat / B2R r0) * vnorm (real64 x) + (1 + S 2%nat * RB / rad ^ 2) * vnorm (real64 v)) (snd s) (snd t).
Proof. exact B64Stop.state_off. Qed.
Print Assumptions C83_state.

Theorem C83_state_single : forall (L : libm) (chi alpha : b32) (c : nat), (c <= 8)%nat -> good32 17 alpha -> good32 12 chi ->
  trig32 L c (2 * IZR (2 ^ 10)) (2 * 10) ->
  let th := sqrt (Rabs (B2R alpha)) * Rabs (B2R chi) in
  (0 < B2R alpha -> th <= IZR (2 ^ 10)) -> (B2R alpha < 0 -> th <= 10) ->
  forall r0 s0 mu : b32, good32 17 r0 -> 0 < B2R r0 -> good32 17 s0 -> good32 20 mu -> 0 < B2R mu ->
  let U n := universal n (B2R chi) (B2R alpha) in let S n := uf_size n (B2R chi) (B2R alpha) in
  let rad := B2R r0 * U 0%nat + B2R s0 * U 1%nat + U 2%nat in
  in_range 17 rad -> 0 < rad -> 3000 * / IZR (2 ^ 24) * (B2R r0 * S 0%nat + Rabs (B2R s0) * S 1%nat + S 2%nat) <= rad ->
  forall x v : V3 b32, good32v 17 x -> good32v 8 v ->
  let s := @state_at_chi _ (Num_B32 L) chi alpha s0 r0 x v mu in
  let t := lagrange_state (B2R chi) (B2R alpha) (B2R s0) (B2R r0) (B2R mu) (real32 x) (real32 v) in
  let RB := B2R r0 * S 0%nat + Rabs (B2R s0) * S 1%nat + S 2%nat in
  off32v (INR c + 21) ((1 + S 2%nat / B2R r0) * vnorm (real32 x) + (B2R r0 * S 1%nat + Rabs (B2R s0) * S 2%nat) / sqrt (B2R mu) * vnorm (real32 v)) (fst s) (fst t) /\
  off32v (2 * INR c + 36) ((sqrt (B2R mu) * RB / rad ^ 2 * S 1%nat / B2R r0) * vnorm (real32 x) + (1 + S 2%nat * RB / rad ^ 2) * vnorm (real32 v)) (snd s) (snd t).
Proof. exact B32Stop.state_off. Qed.
Print Assumptions C83_state_single.

(** one unit of universal anomaly after x = (1, 0, 0), v = (0, 2, 0) with mu = 2 *)
Example C83_parabola : forall (L : libm64), trig64 L 6 (2 * IZR (2 ^ 30)) (2 * 100) ->
  let N := Num_B64 L in let s := @state_at_chi _ N (b64_Z 1) (b64_Z 0) (b64_Z 0) (b64_Z 1) (mk3 (b64_Z 1) (b64_Z 0) (b64_Z 0)) (mk3 (b64_Z 0) (b64_Z 2) (b64_Z 0)) (b64_Z 2) in
  off64v 27 (3 / 2 + 2 / sqrt 2) (fst s) (mk3 (1 / 2) (2 / sqrt 2) 0) /\
  off64v 48 (2 / 3 * sqrt 2 + 8 / 3) (snd s) (mk3 (- (2 / 3 * sqrt 2)) (4 / 3) 0).
Proof. exact state64_ex. Qed.
Example C83_parabola_single : forall (L : libm), trig32 L 6 (2 * IZR (2 ^ 10)) (2 * 10) ->
  let N := Num_B32 L in let s := @state_at_chi _ N (b32_Z 1) (b32_Z 0) (b32_Z 0) (b32_Z 1) (mk3 (b32_Z 1) (b32_Z 0) (b32_Z 0)) (mk3 (b32_Z 0) (b32_Z 2) (b32_Z 0)) (b32_Z 2) in
  off32v 27 (3 / 2 + 2 / sqrt 2) (fst s) (mk3 (1 / 2) (2 / sqrt 2) 0) /\
  off32v 48 (2 / 3 * sqrt 2 + 8 / 3) (snd s) (mk3 (- (2 / 3 * sqrt 2)) (4 / 3) 0).
Proof. exact state32_ex. Qed.
