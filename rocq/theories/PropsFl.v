(** * Properties C65 - C68: rounding errors of the closed formulas and of the gravity models in single precision

    Theorems only; proofs are in [B32Closed], [B32Cancel], [B32Grav], [B32Fl].  [off C m g v] (in [SpecFl32])
    says that [g] is finite and within C * 2^-24 * m of [v]; [in_range e v] (in [SpecFl]) says that [v] is zero
    or of size between 2^-e and 2^e, which keeps the exact intermediate values away from overflow and from the
    subnormal numbers.  Fused multiply-add is not modelled. *)
From Coq Require Import ZArith Reals Lra Bool List String.
From Flocq Require Import Core IEEE754.BinarySingleNaN.
From Verif Require Import Num NumR NumB32 SpecFl SpecFl32 LibmRef SpecGrav OrbIntegrals KepEqu Gravity
  B32Closed B32Cancel B32Fl.
Import ListNotations.
Local Open Scope R_scope.

(** ** C65: a few units *)
Theorem C65_period : forall (L : libm) (a mu : b32), let N := Num_B32 L in
  is_finite a = true -> is_finite mu = true -> 0 < B2R a -> 0 < B2R mu ->
  in_range 125 (B2R a ^ 3) -> in_range 125 (B2R a ^ 3 / B2R mu) ->
  let P := 2 * PI * sqrt (B2R a ^ 3 / B2R mu) in off 7 (Rabs P) (@orb_period _ N a mu) P.
Proof. exact period_close. Qed.
Print Assumptions C65_period.

Theorem C65_mean_motion : forall (L : libm) (P : b32), let N := Num_B32 L in
  is_finite P = true -> B2R P <> 0 -> in_range 122 (B2R P) ->
  let n := 2 * PI / B2R P in off 4 (Rabs n) (@mean_motion _ N P) n.
Proof. exact motion_close. Qed.
Print Assumptions C65_mean_motion.

Theorem C65_semiparameter : forall (L : libm) (h mu : b32), let N := Num_B32 L in
  is_finite h = true -> is_finite mu = true -> B2R mu <> 0 ->
  in_range 125 (B2R h ^ 2) -> in_range 125 (B2R h ^ 2 / B2R mu) ->
  let p := B2R h ^ 2 / B2R mu in off 3 (Rabs p) (@semiparameter _ N h mu) p.
Proof. exact semiparameter_close. Qed.
Print Assumptions C65_semiparameter.

Theorem C65_periapsis : forall (L : libm) (p e : b32), let N := Num_B32 L in
  is_finite p = true -> is_finite e = true -> 0 <= B2R e <= IZR (2 ^ 124) ->
  in_range 125 (B2R p / (1 + B2R e)) ->
  let r := B2R p / (1 + B2R e) in off 3 (Rabs r) (@radius_periapsis _ N p e) r.
Proof. exact periapsis_close. Qed.
Print Assumptions C65_periapsis.

(** Also close to e = 1: the difference of the two floats 1 and e has no error to amplify. *)
Theorem C65_apoapsis : forall (L : libm) (p e : b32), let N := Num_B32 L in
  is_finite p = true -> is_finite e = true -> B2R e <> 1 ->
  in_range 125 (1 - B2R e) -> in_range 125 (B2R p / (1 - B2R e)) ->
  let r := B2R p / (1 - B2R e) in off 3 (Rabs r) (@radius_apoapsis _ N p e) r.
Proof. exact apoapsis_close. Qed.
Print Assumptions C65_apoapsis.

Theorem C65_anomaly_elps : forall (L : libm) (a dt mu : b32), let N := Num_B32 L in
  is_finite a = true -> is_finite dt = true -> is_finite mu = true -> 0 < B2R a -> 0 < B2R mu ->
  in_range 125 (B2R a ^ 3) -> in_range 125 (B2R mu / B2R a ^ 3) ->
  in_range 125 (sqrt (B2R mu / B2R a ^ 3) * B2R dt) ->
  let M := sqrt (B2R mu / B2R a ^ 3) * B2R dt in off 5 (Rabs M) (@mean_anomaly_elps _ N a dt mu) M.
Proof. exact anomaly_elps_close. Qed.
Print Assumptions C65_anomaly_elps.

Theorem C65_anomaly_hypb : forall (L : libm) (a dt mu : b32), let N := Num_B32 L in
  is_finite a = true -> is_finite dt = true -> is_finite mu = true -> B2R a < 0 -> 0 < B2R mu ->
  in_range 125 (B2R a ^ 3) -> in_range 125 (B2R mu / (- B2R a ^ 3)) ->
  in_range 125 (sqrt (B2R mu / (- B2R a ^ 3)) * B2R dt) ->
  let M := sqrt (B2R mu / (- B2R a ^ 3)) * B2R dt in off 5 (Rabs M) (@mean_anomaly_hypb _ N a dt mu) M.
Proof. exact anomaly_hypb_close. Qed.
Print Assumptions C65_anomaly_hypb.

Theorem C65_point_mass : forall (L : libm) (x y z mu t : b32) (rest : list b32) (args : list (string * b32)) (g : V3 b32),
  Forall (fun c => is_finite c = true /\ in_range 30 (B2R c)) [x; y; z] ->
  let r := sqrt (B2R x ^ 2 + B2R y ^ 2 + B2R z ^ 2) in 0 < r ->
  is_finite mu = true -> get "mu"%string args = Some mu ->
  let k := B2R mu / r ^ 3 in
  Forall (in_range 125) [k; k * B2R x; k * B2R y; k * B2R z] ->
  @point_mass_grav _ (Num_B32 L) t (x :: y :: z :: rest) args = Ok g ->
  off 14 (Rabs (- k * B2R x)) (c0 g) (- k * B2R x) /\
  off 14 (Rabs (- k * B2R y)) (c1 g) (- k * B2R y) /\
  off 14 (Rabs (- k * B2R z)) (c2 g) (- k * B2R z).
Proof. exact pm_off. Qed.
Print Assumptions C65_point_mass.

(** a = mu = 1: within 7 units of 2 pi, in fact the nearest float *)
Example C65_period_at_1 : forall L : libm, let N := Num_B32 L in
  off 7 (2 * PI) (@orb_period _ N (b32_Z 1) (b32_Z 1)) (2 * PI).
Proof. exact period_at_1. Qed.
Example C65_period_value :
  B2SF (@orb_period _ (Num_B32 ref_libm) (b32_Z 1) (b32_Z 1)) = SpecFloat.S754_finite false 13176795 (-21).
Proof. exact period_value. Qed.
Example C65_point_mass_at_13 : forall L : libm, exists g,
  @point_mass_grav _ (Num_B32 L) (b32_Z 0) [b32_Z 3; b32_Z 4; b32_Z 12] [("mu"%string, b32_Z 1)] = Ok g /\
  off 14 (12 / 2197) (c2 g) (- (12 / 2197)).
Proof. exact pm_at_13. Qed.

(** ** C66: the zonal harmonics, relative to the factor in front of the bracket *)
Theorem C66_j2 : forall (L : libm) (x y z mu t : b32) (rest : list b32) (args : list (string * b32)) (g : V3 b32),
  Forall (fun c => is_finite c = true /\ in_range 30 (B2R c)) [x; y; z] ->
  let r := sqrt (B2R x ^ 2 + B2R y ^ 2 + B2R z ^ 2) in 0 < r ->
  forall J Re : b32, Forall (fun c => is_finite c = true) [mu; J; Re] ->
  get "mu"%string args = Some mu -> get "J2"%string args = Some J -> get "R_eq"%string args = Some Re ->
  let F := -3 / 2 * B2R mu * B2R J * B2R Re ^ 2 / r ^ 5 in let s := (B2R z / r) ^ 2 in
  Forall (in_range 125) [-3 / 2 * B2R mu; -3 / 2 * B2R mu * B2R J; B2R Re ^ 2;
    -3 / 2 * B2R mu * B2R J * B2R Re ^ 2; r ^ 5; F] ->
  Forall (in_range 109) [F * B2R x; F * B2R y; F * B2R z] ->
  @j2_acc _ (Num_B32 L) t (x :: y :: z :: rest) args = Ok g ->
  off 184 (Rabs (F * B2R x)) (c0 g) (F * B2R x * (1 - 5 * s)) /\
  off 184 (Rabs (F * B2R y)) (c1 g) (F * B2R y * (1 - 5 * s)) /\
  off 155 (Rabs (F * B2R z)) (c2 g) (F * B2R z * (3 - 5 * s)).
Proof. exact j2_off. Qed.
Print Assumptions C66_j2.

Theorem C66_j3 : forall (L : libm) (x y z mu t : b32) (rest : list b32) (args : list (string * b32)) (g : V3 b32),
  Forall (fun c => is_finite c = true /\ in_range 30 (B2R c)) [x; y; z] ->
  let r := sqrt (B2R x ^ 2 + B2R y ^ 2 + B2R z ^ 2) in 0 < r ->
  forall J Re : b32, Forall (fun c => is_finite c = true) [mu; J; Re] ->
  get "mu"%string args = Some mu -> get "J3"%string args = Some J -> get "R_eq"%string args = Some Re ->
  let F := -5 / 2 * B2R mu * B2R J * B2R Re ^ 3 / r ^ 7 in let w := B2R z ^ 3 / r ^ 2 in
  Forall (in_range 125) [-5 / 2 * B2R mu; -5 / 2 * B2R mu * B2R J; B2R Re ^ 3;
    -5 / 2 * B2R mu * B2R J * B2R Re ^ 3; r ^ 7; F] ->
  Forall (in_range 122) [B2R z ^ 3; w; 7 * w * B2R z] ->
  Forall (in_range 109) [F * B2R x; F * B2R y; F * B2R x * r; F * B2R y * r; F * r ^ 2] ->
  @j3_acc _ (Num_B32 L) t (x :: y :: z :: rest) args = Ok g ->
  off 472 (Rabs (F * B2R x) * r) (c0 g) (F * B2R x * (3 * B2R z - 7 * w)) /\
  off 472 (Rabs (F * B2R y) * r) (c1 g) (F * B2R y * (3 * B2R z - 7 * w)) /\
  off 649 (Rabs F * r ^ 2) (c2 g) (F * (6 * B2R z ^ 2 - 7 * w * B2R z - 3 / 5 * r ^ 2)).
Proof. exact j3_off. Qed.
Print Assumptions C66_j3.

Theorem C66_j4 : forall (L : libm) (x y z mu t : b32) (rest : list b32) (args : list (string * b32)) (g : V3 b32),
  Forall (fun c => is_finite c = true /\ in_range 30 (B2R c)) [x; y; z] ->
  let r := sqrt (B2R x ^ 2 + B2R y ^ 2 + B2R z ^ 2) in 0 < r ->
  forall J Re : b32, Forall (fun c => is_finite c = true) [mu; J; Re] ->
  get "mu"%string args = Some mu -> get "J4"%string args = Some J -> get "R_eq"%string args = Some Re ->
  let F := 15 / 8 * B2R mu * B2R J * B2R Re ^ 4 / r ^ 7 in let q := B2R z / r in
  Forall (in_range 125) [15 / 8 * B2R mu; 15 / 8 * B2R mu * B2R J; B2R Re ^ 4;
    15 / 8 * B2R mu * B2R J * B2R Re ^ 4; r ^ 7; F] ->
  Forall (in_range 109) [F * B2R x; F * B2R y; F * B2R z] ->
  @j4_acc _ (Num_B32 L) t (x :: y :: z :: rest) args = Ok g ->
  off 1079 (Rabs (F * B2R x)) (c0 g) (F * B2R x * (1 - 14 * q ^ 2 + 21 * q ^ 4)) /\
  off 1079 (Rabs (F * B2R y)) (c1 g) (F * B2R y * (1 - 14 * q ^ 2 + 21 * q ^ 4)) /\
  off 1113 (Rabs (F * B2R z)) (c2 g) (F * B2R z * (5 - 70 * q ^ 2 / 3 + 21 * q ^ 4)).
Proof. exact j4_off. Qed.
Print Assumptions C66_j4.

(** at (3, 4, 12) with mu = R_eq = 1 and J = 1/1024 *)
Example C66_j2_at_13 : forall L : libm, exists g,
  @j2_acc _ (Num_B32 L) (b32_Z 0) [b32_Z 3; b32_Z 4; b32_Z 12]
    [("mu"%string, b32_Z 1); ("J2"%string, b32_dec 1 1024); ("R_eq"%string, b32_Z 1)] = Ok g /\
  off 184 (9 / 2048 / 371293) (c0 g) (9 / 2048 / 371293 * (551 / 169)).
Proof. exact j2_at_13. Qed.
Example C66_j3_at_13 : forall L : libm, exists g,
  @j3_acc _ (Num_B32 L) (b32_Z 0) [b32_Z 3; b32_Z 4; b32_Z 12]
    [("mu"%string, b32_Z 1); ("J3"%string, b32_dec 1 1024); ("R_eq"%string, b32_Z 1)] = Ok g /\
  off 649 (5 / 2048 / 371293) (c2 g) (5 / 2048 / 62748517 * (145152 / 169 + 507 / 5 - 864)).
Proof. exact j3_at_13. Qed.
Example C66_j4_at_13 : forall L : libm, exists g,
  @j4_acc _ (Num_B32 L) (b32_Z 0) [b32_Z 3; b32_Z 4; b32_Z 12]
    [("mu"%string, b32_Z 1); ("J4"%string, b32_dec 1 1024); ("R_eq"%string, b32_Z 1)] = Ok g /\
  off 1079 (45 / 8192 / 62748517) (c0 g) (45 / 8192 / 62748517 * (1 - 14 * (12 / 13) ^ 2 + 21 * (12 / 13) ^ 4)).
Proof. exact j4_at_13. Qed.

(** ** C67: at a distance of 2^19 or more r^7 overflows and the J3 and J4 accelerations are exactly zero *)
Theorem C67_j3_refuted : forall (L : libm) (x y z mu t : b32) (rest : list b32) (args : list (string * b32)) (g : V3 b32),
  Forall (fun c => is_finite c = true /\ in_range 30 (B2R c)) [x; y; z] ->
  let r := sqrt (B2R x ^ 2 + B2R y ^ 2 + B2R z ^ 2) in 0 < r ->
  forall J Re : b32, Forall (fun c => is_finite c = true) [mu; J; Re] ->
  get "mu"%string args = Some mu -> get "J3"%string args = Some J -> get "R_eq"%string args = Some Re ->
  let w := B2R z ^ 3 / r ^ 2 in
  Forall (in_range 125) [-5 / 2 * B2R mu; -5 / 2 * B2R mu * B2R J; B2R Re ^ 3; -5 / 2 * B2R mu * B2R J * B2R Re ^ 3] ->
  Forall (in_range 122) [B2R z ^ 3; w; 7 * w * B2R z] ->
  IZR (2 ^ 19) <= r ->
  @j3_acc _ (Num_B32 L) t (x :: y :: z :: rest) args = Ok g ->
  (is_finite (c0 g) = true /\ B2R (c0 g) = 0) /\ (is_finite (c1 g) = true /\ B2R (c1 g) = 0) /\
  (is_finite (c2 g) = true /\ B2R (c2 g) = 0).
Proof. exact j3_gone. Qed.
Print Assumptions C67_j3_refuted.

Theorem C67_j4_refuted : forall (L : libm) (x y z mu t : b32) (rest : list b32) (args : list (string * b32)) (g : V3 b32),
  Forall (fun c => is_finite c = true /\ in_range 30 (B2R c)) [x; y; z] ->
  let r := sqrt (B2R x ^ 2 + B2R y ^ 2 + B2R z ^ 2) in 0 < r ->
  forall J Re : b32, Forall (fun c => is_finite c = true) [mu; J; Re] ->
  get "mu"%string args = Some mu -> get "J4"%string args = Some J -> get "R_eq"%string args = Some Re ->
  Forall (in_range 125) [15 / 8 * B2R mu; 15 / 8 * B2R mu * B2R J; B2R Re ^ 4; 15 / 8 * B2R mu * B2R J * B2R Re ^ 4] ->
  IZR (2 ^ 19) <= r ->
  @j4_acc _ (Num_B32 L) t (x :: y :: z :: rest) args = Ok g ->
  (is_finite (c0 g) = true /\ B2R (c0 g) = 0) /\ (is_finite (c1 g) = true /\ B2R (c1 g) = 0) /\
  (is_finite (c2 g) = true /\ B2R (c2 g) = 0).
Proof. exact j4_gone. Qed.
Print Assumptions C67_j4_refuted.

(** A low Earth orbit in metres: over the reals the J4 acceleration is below -10^-5 m/s^2, in single precision
    it is zero, and so is J3; J2 is not. *)
Example C67_exact : exists g : V3 R,
  @j4_acc R Num_R 0 [7000000; 0; 0]
    [("mu"%string, 398600441800000); ("J4"%string, -162 / 100000000); ("R_eq"%string, 6378137)] = Ok g /\
  c0 g <= -1 / 10 ^ 5.
Proof. exact leo_j4_exact. Qed.
Example C67_float :
  sf3 (@j4_acc _ (Num_B32 ref_libm) (b32_Z 0) [b32_Z 7000000; b32_Z 0; b32_Z 0] (leo_args "J4" (b32_dec (-162) 100000000)))
  = Some (SpecFloat.S754_zero true, SpecFloat.S754_zero true, SpecFloat.S754_zero true).
Proof. exact leo_j4_zero. Qed.
Example C67_float_j3 :
  sf3 (@j3_acc _ (Num_B32 ref_libm) (b32_Z 0) leo_pos (leo_args "J3" (b32_dec (-2533) 1000000000)))
  = Some (SpecFloat.S754_zero false, SpecFloat.S754_zero false, SpecFloat.S754_zero true).
Proof. exact leo_j3. Qed.
Example C67_float_j2 :
  sf3 (@j2_acc _ (Num_B32 ref_libm) (b32_Z 0) leo_pos (leo_args "J2" (b32_dec 1082635 1000000000)))
  <> Some (SpecFloat.S754_zero true, SpecFloat.S754_zero true, SpecFloat.S754_zero true).
Proof. exact leo_j2. Qed.

(** ** C68: formulas with a difference lose no more than its condition number *)
Theorem C68_semimajor : forall (L : libm) (r v mu : b32), let N := Num_B32 L in
  is_finite r = true -> is_finite v = true -> is_finite mu = true -> 0 < B2R r -> 0 < B2R mu ->
  let A := 2 / B2R r in let B := B2R v ^ 2 / B2R mu in
  Forall (in_range 125) [A; B2R v ^ 2; B] -> in_range 109 (A + B) -> in_range 109 (1 / (A - B)) ->
  A <> B -> 28 * / IZR (2 ^ 24) * (A + B) <= Rabs (A - B) ->
  off (18 * ((A + B) / Rabs (A - B))) (Rabs (1 / (A - B))) (@semimajor_axis _ N r v mu) (1 / (A - B)).
Proof. exact semimajor_close. Qed.
Print Assumptions C68_semimajor.

Theorem C68_semipara_from_ae : forall (L : libm) (a e : b32), let N := Num_B32 L in
  is_finite a = true -> is_finite e = true -> in_range 50 (B2R e) -> in_range 109 (B2R a * (1 + B2R e ^ 2)) ->
  off 7 (Rabs (B2R a) * (1 + B2R e ^ 2)) (@semipara_from_ae _ N a e) (B2R a * (1 - B2R e ^ 2)).
Proof. exact semipara_close. Qed.
Print Assumptions C68_semipara_from_ae.

Theorem C68_a_from_pe : forall (L : libm) (p e : b32), let N := Num_B32 L in
  is_finite p = true -> is_finite e = true -> in_range 50 (B2R e) ->
  B2R e ^ 2 <> 1 -> 16 * / IZR (2 ^ 24) * (1 + B2R e ^ 2) <= Rabs (1 - B2R e ^ 2) ->
  in_range 109 (B2R p / (1 - B2R e ^ 2)) ->
  off (12 * ((1 + B2R e ^ 2) / Rabs (1 - B2R e ^ 2))) (Rabs (B2R p / (1 - B2R e ^ 2)))
    (@a_from_pe _ N p e) (B2R p / (1 - B2R e ^ 2)).
Proof. exact a_from_pe_close. Qed.
Print Assumptions C68_a_from_pe.

(** with a cosine whose absolute error is at most 2^-24 *)
Theorem C68_equ_of_orbit : forall (L : libm) (p e f : b32), let N := Num_B32 L in
  is_finite p = true -> is_finite e = true -> 0 <= B2R e -> in_range 100 (B2R e) ->
  is_finite (m_cos L f) = true -> Rabs (B2R (m_cos L f) - cos (B2R f)) <= / IZR (2 ^ 24) ->
  let D := 1 + B2R e * cos (B2R f) in
  20 * / IZR (2 ^ 24) * (1 + B2R e) <= Rabs D -> D <> 0 -> in_range 109 (B2R p / D) ->
  off (14 * ((1 + B2R e) / Rabs D)) (Rabs (B2R p / D)) (@equ_of_orbit _ N p e f) (B2R p / D).
Proof. exact orbit_close. Qed.
Print Assumptions C68_equ_of_orbit.

Theorem C68_angular_momentum : forall (L : libm) (p v : V3 b32),
  Forall (fun x => is_finite x = true) [c0 p; c1 p; c2 p; c0 v; c1 v; c2 v] ->
  Forall (in_range 50) (map B2R [c0 p; c1 p; c2 p; c0 v; c1 v; c2 v]) ->
  let h := @angular_momentum _ (Num_B32 L) p v in
  let err a b c d g := off 6 (Rabs (B2R a * B2R b) + Rabs (B2R c * B2R d)) g (B2R a * B2R b - B2R c * B2R d) in
  err (c1 p) (c2 v) (c2 p) (c1 v) (c0 h) /\ err (c2 p) (c0 v) (c0 p) (c2 v) (c1 h) /\
  err (c0 p) (c1 v) (c1 p) (c0 v) (c2 h).
Proof. exact momentum_close. Qed.
Print Assumptions C68_angular_momentum.

(** r = v = mu = 1: a = 1.  With a = 1 and e = 1 - 2^-13 the semiparameter comes out as 2^-12 instead of
    2^-12 - 2^-26: the condition number does matter. *)
Example C68_semimajor_at_1 : forall L : libm,
  off 54 1 (@semimajor_axis _ (Num_B32 L) (b32_Z 1) (b32_Z 1) (b32_Z 1)) 1.
Proof. exact semimajor_at_1. Qed.
Example C68_near_parabola :
  B2SF (@semipara_from_ae _ (Num_B32 ref_libm) (b32_Z 1) (b32_sub (b32_Z 1) (b32_dec 1 8192))) =
  SpecFloat.S754_finite false 8388608 (-35).
Proof. exact semipara_near_1. Qed.
