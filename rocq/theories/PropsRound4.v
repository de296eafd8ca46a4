(** * Property C87: the classical elements from a state, in floating point

    Theorems only; proofs are in [SqrtSqr], [AngReal], [B64Ang], [B32Ang] and [AngExamples].  The [_single] theorems are about
    single precision, the others about double precision (jax_enable_x64).  The math library is only assumed to have an arctan2
    and an arccos accurate to [c <= 40] units of rounding ([SpecFlAng]). *)
From Coq Require Import ZArith Reals Lra Bool List.
From Flocq Require Import Core IEEE754.BinarySingleNaN.
From Verif Require Import Num NumB32 NumB64 NumR Spec SpecFl SpecFl32 SpecFl64 SpecFlV SpecFlAng OrbIntegrals OrbElements AngExamples.
From Verif Require B32Ang B64Ang.
Local Open Scope R_scope.

(** ** C87 *)
(** semiparameter and eccentricity, and the directions of the node, of periapsis and of the position as angles *)
Theorem C87_elements : forall (L : libm64) (c : nat), inverse64 L c -> (c <= 40)%nat -> forall (r v : V3 b64) (mu : b64),
  good64v 100 r -> good64v 100 v -> good64 100 mu -> 0 < B2R mu -> real64 r <> vzero ->
  let X := vnorm (real64 r) in let V := vnorm (real64 v) in let M := B2R mu in X * V ^ 2 <= 1000 * M ->
  let h := cross (real64 r) (real64 v) in let n := cross (mk3 0 0 1) h in let ev := laplace M (real64 r) (real64 v) in
  let k := @rv2coe _ (Num_B64 L) r v mu in let G := 2 * X * V ^ 2 / M + 1 in let turn := 2 * B2R b64_pi in
  off64 20 (4 * X ^ 2 * V ^ 2 / M) (coe_p k) (dot h h / M) /\
  off64 14 (2 * G) (coe_e k) (vnorm ev) /\
  (polar64 (3 * INR c + 90) (2 * (X * V)) (vnorm n) (coe_raan k) (c0 n) (c1 n) /\ 0 <= B2R (coe_raan k) <= turn) /\
  (polar64 (3 * INR c + 139) (8 * (X * V) * G) (vnorm n * vnorm ev) (coe_argp k) (dot n ev) (vnorm (cross n ev)) /\ 0 <= B2R (coe_argp k) <= turn) /\
  (polar64 (3 * INR c + 123) (4 * X * G) (vnorm ev * X) (coe_f k) (dot ev (real64 r)) (vnorm (cross ev (real64 r))) /\ 0 <= B2R (coe_f k) <= turn).
Proof. exact B64Ang.elements_ok. Qed.
Print Assumptions C87_elements.

Theorem C87_elements_single : forall (L : libm) (c : nat), inverse32 L c -> (c <= 40)%nat -> forall (r v : V3 b32) (mu : b32),
  good32v 17 r -> good32v 8 v -> good32 20 mu -> 0 < B2R mu -> real32 r <> vzero ->
  let X := vnorm (real32 r) in let V := vnorm (real32 v) in let M := B2R mu in X * V ^ 2 <= 1000 * M ->
  let h := cross (real32 r) (real32 v) in let n := cross (mk3 0 0 1) h in let ev := laplace M (real32 r) (real32 v) in
  let k := @rv2coe _ (Num_B32 L) r v mu in let G := 2 * X * V ^ 2 / M + 1 in let turn := 2 * B2R b32_pi in
  off 20 (4 * X ^ 2 * V ^ 2 / M) (coe_p k) (dot h h / M) /\
  off 14 (2 * G) (coe_e k) (vnorm ev) /\
  (polar32 (3 * INR c + 90) (2 * (X * V)) (vnorm n) (coe_raan k) (c0 n) (c1 n) /\ 0 <= B2R (coe_raan k) <= turn) /\
  (polar32 (3 * INR c + 139) (8 * (X * V) * G) (vnorm n * vnorm ev) (coe_argp k) (dot n ev) (vnorm (cross n ev)) /\ 0 <= B2R (coe_argp k) <= turn) /\
  (polar32 (3 * INR c + 123) (4 * X * G) (vnorm ev * X) (coe_f k) (dot ev (real32 r)) (vnorm (cross ev (real32 r))) /\ 0 <= B2R (coe_f k) <= turn).
Proof. exact B32Ang.elements_ok. Qed.
Print Assumptions C87_elements_single.

(** the third component of h never exceeds its length after rounding, so arccos is always defined *)
Theorem C87_inclination : forall (L : libm64) (c : nat), inverse64 L c -> (c <= 40)%nat -> forall (r v : V3 b64) (mu : b64),
  good64v 100 r -> good64v 100 v -> good64 100 mu -> 0 < B2R mu ->
  let X := vnorm (real64 r) in let V := vnorm (real64 v) in let h := cross (real64 r) (real64 v) in
  50 * / IZR (2 ^ 53) * (X * V) < vnorm h ->
  let N := Num_B64 L in let i := coe_incl (@rv2coe _ N r v mu) in
  Rabs (B2R (c2 (@angular_momentum _ N r v))) <= B2R (@vector_norm _ N (@angular_momentum _ N r v)) /\
  is_finite i = true /\ 0 <= B2R i <= B2R b64_pi /\ Rabs (vnorm h * cos (B2R i) - c2 h) <= (3 * INR c + 30) * / IZR (2 ^ 53) * (X * V).
Proof. exact B64Ang.inclination_ok. Qed.
Print Assumptions C87_inclination.

Theorem C87_inclination_single : forall (L : libm) (c : nat), inverse32 L c -> (c <= 40)%nat -> forall (r v : V3 b32) (mu : b32),
  good32v 17 r -> good32v 8 v -> good32 20 mu -> 0 < B2R mu ->
  let X := vnorm (real32 r) in let V := vnorm (real32 v) in let h := cross (real32 r) (real32 v) in
  50 * / IZR (2 ^ 24) * (X * V) < vnorm h ->
  let N := Num_B32 L in let i := coe_incl (@rv2coe _ N r v mu) in
  Rabs (B2R (c2 (@angular_momentum _ N r v))) <= B2R (@vector_norm _ N (@angular_momentum _ N r v)) /\
  is_finite i = true /\ 0 <= B2R i <= B2R b32_pi /\ Rabs (vnorm h * cos (B2R i) - c2 h) <= (3 * INR c + 30) * / IZR (2 ^ 24) * (X * V).
Proof. exact B32Ang.inclination_ok. Qed.
Print Assumptions C87_inclination_single.

(** the measure used for the angles bounds the angle itself, up to whole turns *)
Theorem C87_reading : forall (C m q phi : R) (g : b64), 0 < q -> polar64 C m q g (q * cos phi) (q * sin phi) ->
  exists k : Z, Rabs (B2R g - phi - 2 * IZR k * PI) <= 3 * (C * / IZR (2 ^ 53) * m) / q.
Proof. exact B64Ang.polar_reads. Qed.
Print Assumptions C87_reading.

Theorem C87_reading_single : forall (C m q phi : R) (g : b32), 0 < q -> polar32 C m q g (q * cos phi) (q * sin phi) ->
  exists k : Z, Rabs (B2R g - phi - 2 * IZR k * PI) <= 3 * (C * / IZR (2 ^ 24) * m) / q.
Proof. exact B32Ang.polar_reads. Qed.
Print Assumptions C87_reading_single.

(** such libraries exist *)
Example C87_library : inverse64 ang_libm64 24 /\ inverse32 ang_libm32 24.
Proof. exact (conj ang_libm64_ok ang_libm32_ok). Qed.
(** r = (1, 0, 0), v = (0, 0, 1), mu = 2: the apoapsis of an ellipse in the xz plane *)
Example C87_apoapsis : forall (L : libm64), inverse64 L 24 ->
  let k := @rv2coe _ (Num_B64 L) (mk3 (b64_Z 1) (b64_Z 0) (b64_Z 0)) (mk3 (b64_Z 0) (b64_Z 0) (b64_Z 1)) (b64_Z 2) in
  Rabs (B2R (coe_p k) - 1 / 2) <= 40 * / IZR (2 ^ 53) /\ Rabs (B2R (coe_e k) - 1 / 2) <= 56 * / IZR (2 ^ 53) /\
  Rabs (cos (B2R (coe_incl k))) <= 102 * / IZR (2 ^ 53) /\ (exists j : Z, Rabs (B2R (coe_raan k) - 2 * IZR j * PI) <= 1000 * / IZR (2 ^ 53)) /\
  Rabs (B2R (coe_argp k) - PI) <= 21000 * / IZR (2 ^ 53) /\ Rabs (B2R (coe_f k) - PI) <= 10000 * / IZR (2 ^ 53).
Proof. exact ang64_ex. Qed.
Example C87_apoapsis_single : forall (L : libm), inverse32 L 24 ->
  let k := @rv2coe _ (Num_B32 L) (mk3 (b32_Z 1) (b32_Z 0) (b32_Z 0)) (mk3 (b32_Z 0) (b32_Z 0) (b32_Z 1)) (b32_Z 2) in
  Rabs (B2R (coe_p k) - 1 / 2) <= 40 * / IZR (2 ^ 24) /\ Rabs (B2R (coe_e k) - 1 / 2) <= 56 * / IZR (2 ^ 24) /\
  Rabs (cos (B2R (coe_incl k))) <= 102 * / IZR (2 ^ 24) /\ (exists j : Z, Rabs (B2R (coe_raan k) - 2 * IZR j * PI) <= 1000 * / IZR (2 ^ 24)) /\
  Rabs (B2R (coe_argp k) - PI) <= 21000 * / IZR (2 ^ 24) /\ Rabs (B2R (coe_f k) - PI) <= 10000 * / IZR (2 ^ 24).
Proof. exact ang32_ex. Qed.
(** r = (3 2^-60, 0, 0), v = (0, 2^-16, 0) lies outside the range assumed above: the square of h underflows and the cosine of the
    inclination exceeds 1 *)
Example C87_underflow_single : forall (L : libm), let N := Num_B32 L in let h := @angular_momentum _ N tiny_r tiny_v in
  Bltb (b32_Z 1) (@n_div _ N (c2 h) (@vector_norm _ N h)) = true.
Proof. exact ang_underflow. Qed.
(** r = (1, -2^-60, 0), v = (0, 1, 1): the bound 2 pi of the right ascension is reached, although in exact arithmetic it is not (C34) *)
Example C87_full_turn : forall (L : libm64), d_arctan2 L (c1 hair_r) (b64_Z 1) = c1 hair_r ->
  B2SF (coe_raan (@rv2coe _ (Num_B64 L) hair_r hair_v (b64_Z 1))) = B2SF (b64_mul (b64_Z 2) b64_pi).
Proof. exact ang_full_turn. Qed.
