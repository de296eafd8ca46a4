(** * Properties C78-C79: vector formulas and path decisions in floating point

    Theorems only; proofs are in [RoundAn], [B64An], [B64Geo], [B64Path], the same with [B32], and [GeoExamples].
    The theorems named [_single] are about single precision, the others about double precision
    (jax_enable_x64).  No transcendental function is used except sqrt, so any libm will do. *)
From Coq Require Import ZArith Reals Lra Bool List.
From Flocq Require Import Core IEEE754.BinarySingleNaN.
From Verif Require Import Num NumB32 NumB64 Spec SpecFl SpecFl32 SpecFl64 SpecFlV OrbIntegrals Uniformulas PathCheck GeoExamples.
From Verif Require B32Geo B64Geo B32Path B64Path.
Local Open Scope R_scope.

(** ** C78 *)
Theorem C78_norm : forall (L : libm64) (a : V3 b64), good64v 100 a ->
  off64 4 (vnorm (real64 a)) (@vector_norm _ (Num_B64 L) a) (vnorm (real64 a)).
Proof. exact B64Geo.geo_norm. Qed.
Print Assumptions C78_norm.

Theorem C78_momentum : forall (L : libm64) (r v : V3 b64), good64v 100 r -> good64v 100 v ->
  off64v 3 (vnorm (real64 r) * vnorm (real64 v)) (@angular_momentum _ (Num_B64 L) r v) (cross (real64 r) (real64 v)).
Proof. exact B64Geo.geo_h. Qed.
Print Assumptions C78_momentum.

Theorem C78_sigma : forall (L : libm64) (r v : V3 b64), good64v 100 r -> good64v 100 v ->
  forall mu : b64, good64 100 mu -> 0 < B2R mu ->
  off64 8 (vnorm (real64 r) * vnorm (real64 v) / sqrt (B2R mu)) (@sigma_fn _ (Num_B64 L) r v mu)
    (dot (real64 r) (real64 v) / sqrt (B2R mu)).
Proof. exact B64Geo.geo_sigma. Qed.
Print Assumptions C78_sigma.

Theorem C78_eccentricity : forall (L : libm64) (r v : V3 b64), good64v 100 r -> good64v 100 v ->
  forall mu : b64, good64 100 mu -> 0 < B2R mu -> real64 r <> vzero ->
  off64v 8 (2 * vnorm (real64 r) * vnorm (real64 v) ^ 2 / B2R mu + 1) (@eccentricity_vector _ (Num_B64 L) r v mu)
    (laplace (B2R mu) (real64 r) (real64 v)).
Proof. exact B64Geo.geo_ecc. Qed.
Print Assumptions C78_eccentricity.

(** Eccentricity, semiparameter and periapsis radius of a state, not faster than 22 times the escape speed. *)
Theorem C78_size : forall (L : libm64) (r v : V3 b64), good64v 100 r -> good64v 100 v ->
  forall mu : b64, good64 100 mu -> 0 < B2R mu -> real64 r <> vzero ->
  vnorm (real64 r) * vnorm (real64 v) ^ 2 <= 1000 * B2R mu ->
  let N := Num_B64 L in let q := vnorm (real64 r) * vnorm (real64 v) ^ 2 / B2R mu in
  let h := cross (real64 r) (real64 v) in let e := vnorm (laplace (B2R mu) (real64 r) (real64 v)) in
  let e' := @vector_norm _ N (@eccentricity_vector _ N r v mu) in
  let p' := @semiparameter _ N (@vector_norm _ N (@angular_momentum _ N r v)) mu in
  off64 14 (2 * (2 * q + 1)) e' e /\
  off64 20 (4 * vnorm (real64 r) * q) p' (dot h h / B2R mu) /\
  off64 36 (4 * vnorm (real64 r) * q * (4 * q + 3) / (1 + e) ^ 2) (@radius_periapsis _ N p' e') (dot h h / B2R mu / (1 + e)).
Proof. exact B64Path.size_all. Qed.
Print Assumptions C78_size.

Theorem C78_norm_single : forall (L : libm) (a : V3 b32), good32v 17 a ->
  off 4 (vnorm (real32 a)) (@vector_norm _ (Num_B32 L) a) (vnorm (real32 a)).
Proof. exact B32Geo.geo_norm. Qed.
Print Assumptions C78_norm_single.

Theorem C78_momentum_single : forall (L : libm) (r v : V3 b32), good32v 17 r -> good32v 8 v ->
  off32v 3 (vnorm (real32 r) * vnorm (real32 v)) (@angular_momentum _ (Num_B32 L) r v) (cross (real32 r) (real32 v)).
Proof. exact B32Geo.geo_h. Qed.
Print Assumptions C78_momentum_single.

Theorem C78_sigma_single : forall (L : libm) (r v : V3 b32), good32v 17 r -> good32v 8 v ->
  forall mu : b32, good32 20 mu -> 0 < B2R mu ->
  off 8 (vnorm (real32 r) * vnorm (real32 v) / sqrt (B2R mu)) (@sigma_fn _ (Num_B32 L) r v mu)
    (dot (real32 r) (real32 v) / sqrt (B2R mu)).
Proof. exact B32Geo.geo_sigma. Qed.
Print Assumptions C78_sigma_single.

Theorem C78_eccentricity_single : forall (L : libm) (r v : V3 b32), good32v 17 r -> good32v 8 v ->
  forall mu : b32, good32 20 mu -> 0 < B2R mu -> real32 r <> vzero ->
  off32v 8 (2 * vnorm (real32 r) * vnorm (real32 v) ^ 2 / B2R mu + 1) (@eccentricity_vector _ (Num_B32 L) r v mu)
    (laplace (B2R mu) (real32 r) (real32 v)).
Proof. exact B32Geo.geo_ecc. Qed.
Print Assumptions C78_eccentricity_single.

(** Eccentricity, semiparameter and periapsis radius of a state, not faster than 22 times the escape speed. *)
Theorem C78_size_single : forall (L : libm) (r v : V3 b32), good32v 17 r -> good32v 8 v ->
  forall mu : b32, good32 20 mu -> 0 < B2R mu -> real32 r <> vzero ->
  vnorm (real32 r) * vnorm (real32 v) ^ 2 <= 1000 * B2R mu ->
  let N := Num_B32 L in let q := vnorm (real32 r) * vnorm (real32 v) ^ 2 / B2R mu in
  let h := cross (real32 r) (real32 v) in let e := vnorm (laplace (B2R mu) (real32 r) (real32 v)) in
  let e' := @vector_norm _ N (@eccentricity_vector _ N r v mu) in
  let p' := @semiparameter _ N (@vector_norm _ N (@angular_momentum _ N r v)) mu in
  off 14 (2 * (2 * q + 1)) e' e /\
  off 20 (4 * vnorm (real32 r) * q) p' (dot h h / B2R mu) /\
  off 36 (4 * vnorm (real32 r) * q * (4 * q + 3) / (1 + e) ^ 2) (@radius_periapsis _ N p' e') (dot h h / B2R mu / (1 + e)).
Proof. exact B32Path.size_all. Qed.
Print Assumptions C78_size_single.

(** r = (3, 4, 0), v = (0, 1, 0), mu = 7 *)
Example C78_state : forall L : libm64, let N := Num_B64 L in
  off64v 8 (17 / 7) (@eccentricity_vector _ N exr64 exv64 exm64) (mk3 (- 6 / 35) (- 4 / 5) 0) /\
  off64 20 (100 / 7) (@semiparameter _ N (@vector_norm _ N (@angular_momentum _ N exr64 exv64)) exm64) (9 / 7).
Proof. exact ex64_ecc. Qed.
Example C78_state_single : forall L : libm, let N := Num_B32 L in
  off32v 8 (17 / 7) (@eccentricity_vector _ N exr32 exv32 exm32) (mk3 (- 6 / 35) (- 4 / 5) 0) /\
  off 20 (100 / 7) (@semiparameter _ N (@vector_norm _ N (@angular_momentum _ N exr32 exv32)) exm32) (9 / 7).
Proof. exact ex32_ecc. Qed.

(** ** C79 *)
Theorem C79_short_way : forall (L : libm64) (r v r2 : V3 b64), good64v 100 r -> good64v 100 v -> good64v 100 r2 ->
  let D := dot (cross (real64 r) (real64 v)) (cross (real64 r) (real64 r2)) in
  24 * / IZR (2 ^ 53) * (vnorm (real64 r) ^ 2 * vnorm (real64 v) * vnorm (real64 r2)) < Rabs D ->
  (@is_short_way _ (Num_B64 L) r v r2 = true <-> 0 < D).
Proof. exact B64Path.short_iff. Qed.
Print Assumptions C79_short_way.

Theorem C79_perigee : forall (L : libm64) (r v r2 : V3 b64), good64v 100 r -> good64v 100 v -> good64v 100 r2 ->
  forall mu : b64, good64 100 mu -> 0 < B2R mu -> real64 r <> vzero ->
  let R1 := vnorm (real64 r) in let V1 := vnorm (real64 v) in let R2 := vnorm (real64 r2) in
  let e := laplace (B2R mu) (real64 r) (real64 v) in let Q := 2 * R1 * V1 ^ 2 / B2R mu + 1 in
  let n := cross (real64 r) (real64 r2) in
  24 * / IZR (2 ^ 53) * (R1 ^ 2 * V1 * R2) < Rabs (dot (cross (real64 r) (real64 v)) n) ->
  90 * / IZR (2 ^ 53) * (R1 ^ 2 * R2 * Q) < Rabs (dot n (cross (real64 r) e)) ->
  90 * / IZR (2 ^ 53) * (R1 * R2 ^ 2 * Q) < Rabs (dot n (cross e (real64 r2))) ->
  (@pass_perigee _ (Num_B64 L) r v r2 mu = true <->
   (0 < dot n (cross (real64 r) e) /\ 0 < dot n (cross e (real64 r2)) <-> 0 < dot (cross (real64 r) (real64 v)) n)).
Proof. exact B64Path.perigee_iff. Qed.
Print Assumptions C79_perigee.

Theorem C79_low : forall (L : libm64) (r v : V3 b64), good64v 100 r -> good64v 100 v ->
  forall mu : b64, good64 100 mu -> 0 < B2R mu -> real64 r <> vzero ->
  vnorm (real64 r) * vnorm (real64 v) ^ 2 <= 1000 * B2R mu -> forall rmin : b64, is_finite rmin = true ->
  let q := vnorm (real64 r) * vnorm (real64 v) ^ 2 / B2R mu in
  let h := cross (real64 r) (real64 v) in let e := vnorm (laplace (B2R mu) (real64 r) (real64 v)) in
  let rp := dot h h / B2R mu / (1 + e) in
  36 * / IZR (2 ^ 53) * (4 * vnorm (real64 r) * q * (4 * q + 3) / (1 + e) ^ 2) < Rabs (rp - B2R rmin) ->
  (@rp_islower_rmin _ (Num_B64 L) rmin r v mu = true <-> rp < B2R rmin).
Proof. exact B64Path.low_iff. Qed.
Print Assumptions C79_low.

Theorem C79_revolutions : forall (L : libm64) (rp r1 r2 tof mu : b64),
  good64 100 rp -> good64 100 r1 -> good64 100 r2 -> good64 100 tof -> good64 100 mu ->
  0 < B2R rp -> 0 < B2R r1 -> 0 < B2R r2 -> 0 < B2R mu ->
  let a := (Rmax (B2R r1) (B2R r2) + B2R rp) / 2 in let x := B2R tof / (2 * PI * sqrt (a ^ 3 / B2R mu)) in
  let n := @nmax_by_periapsis _ (Num_B64 L) rp r1 r2 tof mu in
  is_finite n = true /\
  exists k : Z, B2R n = IZR k /\ exists y : R, Rabs (y - x) <= 12 * / IZR (2 ^ 53) * Rabs x /\ IZR k <= y < IZR k + 1.
Proof. exact B64Path.nmax_ok. Qed.
Print Assumptions C79_revolutions.

Theorem C79_short_way_single : forall (L : libm) (r v r2 : V3 b32), good32v 17 r -> good32v 8 v -> good32v 17 r2 ->
  let D := dot (cross (real32 r) (real32 v)) (cross (real32 r) (real32 r2)) in
  24 * / IZR (2 ^ 24) * (vnorm (real32 r) ^ 2 * vnorm (real32 v) * vnorm (real32 r2)) < Rabs D ->
  (@is_short_way _ (Num_B32 L) r v r2 = true <-> 0 < D).
Proof. exact B32Path.short_iff. Qed.
Print Assumptions C79_short_way_single.

Theorem C79_perigee_single : forall (L : libm) (r v r2 : V3 b32), good32v 17 r -> good32v 8 v -> good32v 17 r2 ->
  forall mu : b32, good32 20 mu -> 0 < B2R mu -> real32 r <> vzero ->
  let R1 := vnorm (real32 r) in let V1 := vnorm (real32 v) in let R2 := vnorm (real32 r2) in
  let e := laplace (B2R mu) (real32 r) (real32 v) in let Q := 2 * R1 * V1 ^ 2 / B2R mu + 1 in
  let n := cross (real32 r) (real32 r2) in
  24 * / IZR (2 ^ 24) * (R1 ^ 2 * V1 * R2) < Rabs (dot (cross (real32 r) (real32 v)) n) ->
  90 * / IZR (2 ^ 24) * (R1 ^ 2 * R2 * Q) < Rabs (dot n (cross (real32 r) e)) ->
  90 * / IZR (2 ^ 24) * (R1 * R2 ^ 2 * Q) < Rabs (dot n (cross e (real32 r2))) ->
  (@pass_perigee _ (Num_B32 L) r v r2 mu = true <->
   (0 < dot n (cross (real32 r) e) /\ 0 < dot n (cross e (real32 r2)) <-> 0 < dot (cross (real32 r) (real32 v)) n)).
Proof. exact B32Path.perigee_iff. Qed.
Print Assumptions C79_perigee_single.

Theorem C79_low_single : forall (L : libm) (r v : V3 b32), good32v 17 r -> good32v 8 v ->
  forall mu : b32, good32 20 mu -> 0 < B2R mu -> real32 r <> vzero ->
  vnorm (real32 r) * vnorm (real32 v) ^ 2 <= 1000 * B2R mu -> forall rmin : b32, is_finite rmin = true ->
  let q := vnorm (real32 r) * vnorm (real32 v) ^ 2 / B2R mu in
  let h := cross (real32 r) (real32 v) in let e := vnorm (laplace (B2R mu) (real32 r) (real32 v)) in
  let rp := dot h h / B2R mu / (1 + e) in
  36 * / IZR (2 ^ 24) * (4 * vnorm (real32 r) * q * (4 * q + 3) / (1 + e) ^ 2) < Rabs (rp - B2R rmin) ->
  (@rp_islower_rmin _ (Num_B32 L) rmin r v mu = true <-> rp < B2R rmin).
Proof. exact B32Path.low_iff. Qed.
Print Assumptions C79_low_single.

Theorem C79_revolutions_single : forall (L : libm) (rp r1 r2 tof mu : b32),
  good32 17 rp -> good32 17 r1 -> good32 17 r2 -> good32 40 tof -> good32 20 mu ->
  0 < B2R rp -> 0 < B2R r1 -> 0 < B2R r2 -> 0 < B2R mu ->
  let a := (Rmax (B2R r1) (B2R r2) + B2R rp) / 2 in let x := B2R tof / (2 * PI * sqrt (a ^ 3 / B2R mu)) in
  let n := @nmax_by_periapsis _ (Num_B32 L) rp r1 r2 tof mu in
  is_finite n = true /\
  exists k : Z, B2R n = IZR k /\ exists y : R, Rabs (y - x) <= 12 * / IZR (2 ^ 24) * Rabs x /\ IZR k <= y < IZR k + 1.
Proof. exact B32Path.nmax_ok. Qed.
Print Assumptions C79_revolutions_single.

(** The same state with the target (-4, 3, 0). *)
Example C79_target : forall L : libm64, let N := Num_B64 L in
  @is_short_way _ N exr64 exv64 exs64 = true /\ @pass_perigee _ N exr64 exv64 exs64 exm64 = false.
Proof. exact ex64_path. Qed.
Example C79_target_single : forall L : libm, let N := Num_B32 L in
  @is_short_way _ N exr32 exv32 exs32 = true /\ @pass_perigee _ N exr32 exv32 exs32 exm32 = false.
Proof. exact ex32_path. Qed.
(** Inside the threshold the decision can be wrong: r1 = (1, 1 + t, 0), r2 = (1 - t, 1, 0) with t = 2^-30 (2^-14 in
    single precision) is a turn by a positive angle, the code says no. *)
Example C79_thin : forall L : libm64, let N := Num_B64 L in
  @is_short_way _ N thin1_64 exv64 thin2_64 = false /\
  0 < dot (cross (real64 thin1_64) (real64 exv64)) (cross (real64 thin1_64) (real64 thin2_64)).
Proof. exact ex64_thin. Qed.
Example C79_thin_single : forall L : libm, let N := Num_B32 L in
  @is_short_way _ N thin1_32 exv32 thin2_32 = false /\
  0 < dot (cross (real32 thin1_32) (real32 exv32)) (cross (real32 thin1_32) (real32 thin2_32)).
Proof. exact ex32_thin. Qed.
Example C79_count : forall L : libm64,
  B2SF (@nmax_by_periapsis _ (Num_B64 L) (b64_dec 1 2) (b64_dec 1 2) (b64_dec 7 2) (b64_Z 129) (b64_Z 1)) = B2SF (b64_Z 7).
Proof. exact ex64_nmax. Qed.
