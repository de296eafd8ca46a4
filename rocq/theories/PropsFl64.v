(** * Properties C74 - C76: rounding errors of the closed formulas and of the gravity models in double precision

    Theorems only; proofs are in [B64Closed], [B64Cancel], [B64Grav], [B64Fl].  [off64 C m g v] (in [SpecFl64])
    says that [g] is finite and within C * 2^-53 * m of [v]; [in_range e v] (in [SpecFl]) says that [v] is zero
    or of size between 2^-e and 2^e.  Fused multiply-add is not modelled. *)
From Coq Require Import ZArith Reals Lra Bool List String.
From Flocq Require Import Core IEEE754.BinarySingleNaN.
From Verif Require Import Num NumR NumB64 SpecFl SpecFl64 SpecGrav OrbIntegrals KepEqu Gravity
  B64Closed B64Cancel B64Fl.
Import ListNotations.
Local Open Scope R_scope.

(** ** C74: a few units *)
Theorem C74_period : forall (L : libm64) (a mu : b64), let N := Num_B64 L in
  is_finite a = true -> is_finite mu = true -> 0 < B2R a -> 0 < B2R mu ->
  in_range 1020 (B2R a ^ 3) -> in_range 1020 (B2R a ^ 3 / B2R mu) ->
  let P := 2 * PI * sqrt (B2R a ^ 3 / B2R mu) in off64 7 (Rabs P) (@orb_period _ N a mu) P.
Proof. exact period_close. Qed.
Print Assumptions C74_period.

Theorem C74_mean_motion : forall (L : libm64) (P : b64), let N := Num_B64 L in
  is_finite P = true -> B2R P <> 0 -> in_range 1017 (B2R P) ->
  let n := 2 * PI / B2R P in off64 4 (Rabs n) (@mean_motion _ N P) n.
Proof. exact motion_close. Qed.
Print Assumptions C74_mean_motion.

Theorem C74_semiparameter : forall (L : libm64) (h mu : b64), let N := Num_B64 L in
  is_finite h = true -> is_finite mu = true -> B2R mu <> 0 ->
  in_range 1020 (B2R h ^ 2) -> in_range 1020 (B2R h ^ 2 / B2R mu) ->
  let p := B2R h ^ 2 / B2R mu in off64 3 (Rabs p) (@semiparameter _ N h mu) p.
Proof. exact semiparameter_close. Qed.
Print Assumptions C74_semiparameter.

Theorem C74_periapsis : forall (L : libm64) (p e : b64), let N := Num_B64 L in
  is_finite p = true -> is_finite e = true -> 0 <= B2R e <= IZR (2 ^ 1019) ->
  in_range 1020 (B2R p / (1 + B2R e)) ->
  let r := B2R p / (1 + B2R e) in off64 3 (Rabs r) (@radius_periapsis _ N p e) r.
Proof. exact periapsis_close. Qed.
Print Assumptions C74_periapsis.

(** Also close to e = 1: the difference of the two floats 1 and e has no error to amplify. *)
Theorem C74_apoapsis : forall (L : libm64) (p e : b64), let N := Num_B64 L in
  is_finite p = true -> is_finite e = true -> B2R e <> 1 ->
  in_range 1020 (1 - B2R e) -> in_range 1020 (B2R p / (1 - B2R e)) ->
  let r := B2R p / (1 - B2R e) in off64 3 (Rabs r) (@radius_apoapsis _ N p e) r.
Proof. exact apoapsis_close. Qed.
Print Assumptions C74_apoapsis.

Theorem C74_anomaly_elps : forall (L : libm64) (a dt mu : b64), let N := Num_B64 L in
  is_finite a = true -> is_finite dt = true -> is_finite mu = true -> 0 < B2R a -> 0 < B2R mu ->
  in_range 1020 (B2R a ^ 3) -> in_range 1020 (B2R mu / B2R a ^ 3) ->
  in_range 1020 (sqrt (B2R mu / B2R a ^ 3) * B2R dt) ->
  let M := sqrt (B2R mu / B2R a ^ 3) * B2R dt in off64 5 (Rabs M) (@mean_anomaly_elps _ N a dt mu) M.
Proof. exact anomaly_elps_close. Qed.
Print Assumptions C74_anomaly_elps.

Theorem C74_anomaly_hypb : forall (L : libm64) (a dt mu : b64), let N := Num_B64 L in
  is_finite a = true -> is_finite dt = true -> is_finite mu = true -> B2R a < 0 -> 0 < B2R mu ->
  in_range 1020 (B2R a ^ 3) -> in_range 1020 (B2R mu / (- B2R a ^ 3)) ->
  in_range 1020 (sqrt (B2R mu / (- B2R a ^ 3)) * B2R dt) ->
  let M := sqrt (B2R mu / (- B2R a ^ 3)) * B2R dt in off64 5 (Rabs M) (@mean_anomaly_hypb _ N a dt mu) M.
Proof. exact anomaly_hypb_close. Qed.
Print Assumptions C74_anomaly_hypb.

Theorem C74_point_mass : forall (L : libm64) (x y z mu t : b64) (rest : list b64) (args : list (string * b64)) (g : V3 b64),
  Forall (fun c => is_finite c = true /\ in_range 250 (B2R c)) [x; y; z] ->
  let r := sqrt (B2R x ^ 2 + B2R y ^ 2 + B2R z ^ 2) in 0 < r ->
  is_finite mu = true -> get "mu"%string args = Some mu ->
  let k := B2R mu / r ^ 3 in
  Forall (in_range 1020) [k; k * B2R x; k * B2R y; k * B2R z] ->
  @point_mass_grav _ (Num_B64 L) t (x :: y :: z :: rest) args = Ok g ->
  off64 14 (Rabs (- k * B2R x)) (c0 g) (- k * B2R x) /\
  off64 14 (Rabs (- k * B2R y)) (c1 g) (- k * B2R y) /\
  off64 14 (Rabs (- k * B2R z)) (c2 g) (- k * B2R z).
Proof. exact pm_off. Qed.
Print Assumptions C74_point_mass.

(** a = mu = 1: within 7 units of 2 pi *)
Example C74_period_at_1 : forall L : libm64, let N := Num_B64 L in
  off64 7 (2 * PI) (@orb_period _ N (b64_Z 1) (b64_Z 1)) (2 * PI).
Proof. exact period_at_1. Qed.
Example C74_point_mass_at_13 : forall L : libm64, exists g,
  @point_mass_grav _ (Num_B64 L) (b64_Z 0) [b64_Z 3; b64_Z 4; b64_Z 12] [("mu"%string, b64_Z 1)] = Ok g /\
  off64 14 (12 / 2197) (c2 g) (- (12 / 2197)).
Proof. exact pm_at_13. Qed.

(** ** C75: the zonal harmonics, relative to the factor in front of the bracket *)
Theorem C75_j2 : forall (L : libm64) (x y z mu t : b64) (rest : list b64) (args : list (string * b64)) (g : V3 b64),
  Forall (fun c => is_finite c = true /\ in_range 250 (B2R c)) [x; y; z] ->
  let r := sqrt (B2R x ^ 2 + B2R y ^ 2 + B2R z ^ 2) in 0 < r ->
  forall J Re : b64, Forall (fun c => is_finite c = true) [mu; J; Re] ->
  get "mu"%string args = Some mu -> get "J2"%string args = Some J -> get "R_eq"%string args = Some Re ->
  let F := -3 / 2 * B2R mu * B2R J * B2R Re ^ 2 / r ^ 5 in let s := (B2R z / r) ^ 2 in
  Forall (in_range 1020) [-3 / 2 * B2R mu; -3 / 2 * B2R mu * B2R J; B2R Re ^ 2;
    -3 / 2 * B2R mu * B2R J * B2R Re ^ 2; r ^ 5; F] ->
  Forall (in_range 1000) [F * B2R x; F * B2R y; F * B2R z] ->
  @j2_acc _ (Num_B64 L) t (x :: y :: z :: rest) args = Ok g ->
  off64 184 (Rabs (F * B2R x)) (c0 g) (F * B2R x * (1 - 5 * s)) /\
  off64 184 (Rabs (F * B2R y)) (c1 g) (F * B2R y * (1 - 5 * s)) /\
  off64 155 (Rabs (F * B2R z)) (c2 g) (F * B2R z * (3 - 5 * s)).
Proof. exact j2_off. Qed.
Print Assumptions C75_j2.

Theorem C75_j3 : forall (L : libm64) (x y z mu t : b64) (rest : list b64) (args : list (string * b64)) (g : V3 b64),
  Forall (fun c => is_finite c = true /\ in_range 250 (B2R c)) [x; y; z] ->
  let r := sqrt (B2R x ^ 2 + B2R y ^ 2 + B2R z ^ 2) in 0 < r ->
  forall J Re : b64, Forall (fun c => is_finite c = true) [mu; J; Re] ->
  get "mu"%string args = Some mu -> get "J3"%string args = Some J -> get "R_eq"%string args = Some Re ->
  let F := -5 / 2 * B2R mu * B2R J * B2R Re ^ 3 / r ^ 7 in let w := B2R z ^ 3 / r ^ 2 in
  Forall (in_range 1020) [-5 / 2 * B2R mu; -5 / 2 * B2R mu * B2R J; B2R Re ^ 3;
    -5 / 2 * B2R mu * B2R J * B2R Re ^ 3; r ^ 7; F] ->
  Forall (in_range 1017) [B2R z ^ 3; w; 7 * w * B2R z] ->
  Forall (in_range 1000) [F * B2R x; F * B2R y; F * B2R x * r; F * B2R y * r; F * r ^ 2] ->
  @j3_acc _ (Num_B64 L) t (x :: y :: z :: rest) args = Ok g ->
  off64 472 (Rabs (F * B2R x) * r) (c0 g) (F * B2R x * (3 * B2R z - 7 * w)) /\
  off64 472 (Rabs (F * B2R y) * r) (c1 g) (F * B2R y * (3 * B2R z - 7 * w)) /\
  off64 649 (Rabs F * r ^ 2) (c2 g) (F * (6 * B2R z ^ 2 - 7 * w * B2R z - 3 / 5 * r ^ 2)).
Proof. exact j3_off. Qed.
Print Assumptions C75_j3.

Theorem C75_j4 : forall (L : libm64) (x y z mu t : b64) (rest : list b64) (args : list (string * b64)) (g : V3 b64),
  Forall (fun c => is_finite c = true /\ in_range 250 (B2R c)) [x; y; z] ->
  let r := sqrt (B2R x ^ 2 + B2R y ^ 2 + B2R z ^ 2) in 0 < r ->
  forall J Re : b64, Forall (fun c => is_finite c = true) [mu; J; Re] ->
  get "mu"%string args = Some mu -> get "J4"%string args = Some J -> get "R_eq"%string args = Some Re ->
  let F := 15 / 8 * B2R mu * B2R J * B2R Re ^ 4 / r ^ 7 in let q := B2R z / r in
  Forall (in_range 1020) [15 / 8 * B2R mu; 15 / 8 * B2R mu * B2R J; B2R Re ^ 4;
    15 / 8 * B2R mu * B2R J * B2R Re ^ 4; r ^ 7; F] ->
  Forall (in_range 1000) [F * B2R x; F * B2R y; F * B2R z] ->
  @j4_acc _ (Num_B64 L) t (x :: y :: z :: rest) args = Ok g ->
  off64 1079 (Rabs (F * B2R x)) (c0 g) (F * B2R x * (1 - 14 * q ^ 2 + 21 * q ^ 4)) /\
  off64 1079 (Rabs (F * B2R y)) (c1 g) (F * B2R y * (1 - 14 * q ^ 2 + 21 * q ^ 4)) /\
  off64 1113 (Rabs (F * B2R z)) (c2 g) (F * B2R z * (5 - 70 * q ^ 2 / 3 + 21 * q ^ 4)).
Proof. exact j4_off. Qed.
Print Assumptions C75_j4.

(** at (3, 4, 12) with mu = R_eq = 1 and J = 1/1024 *)
Example C75_j2_at_13 : forall L : libm64, exists g,
  @j2_acc _ (Num_B64 L) (b64_Z 0) [b64_Z 3; b64_Z 4; b64_Z 12]
    [("mu"%string, b64_Z 1); ("J2"%string, b64_dec 1 1024); ("R_eq"%string, b64_Z 1)] = Ok g /\
  off64 184 (9 / 2048 / 371293) (c0 g) (9 / 2048 / 371293 * (551 / 169)).
Proof. exact j2_at_13. Qed.
Example C75_j3_at_13 : forall L : libm64, exists g,
  @j3_acc _ (Num_B64 L) (b64_Z 0) [b64_Z 3; b64_Z 4; b64_Z 12]
    [("mu"%string, b64_Z 1); ("J3"%string, b64_dec 1 1024); ("R_eq"%string, b64_Z 1)] = Ok g /\
  off64 649 (5 / 2048 / 371293) (c2 g) (5 / 2048 / 62748517 * (145152 / 169 + 507 / 5 - 864)).
Proof. exact j3_at_13. Qed.
Example C75_j4_at_13 : forall L : libm64, exists g,
  @j4_acc _ (Num_B64 L) (b64_Z 0) [b64_Z 3; b64_Z 4; b64_Z 12]
    [("mu"%string, b64_Z 1); ("J4"%string, b64_dec 1 1024); ("R_eq"%string, b64_Z 1)] = Ok g /\
  off64 1079 (45 / 8192 / 62748517) (c0 g) (45 / 8192 / 62748517 * (1 - 14 * (12 / 13) ^ 2 + 21 * (12 / 13) ^ 4)).
Proof. exact j4_at_13. Qed.

(** The orbit of C67 in double precision: the J4 acceleration is not lost. *)
Example C75_leo_j4 : forall L : libm64,
  sf3 (@j4_acc _ (Num_B64 L) (b64_Z 0) [b64_Z 7000000; b64_Z 0; b64_Z 0] (leo_args "J4" (b64_dec (-162) 100000000)))
  = Some (SpecFloat.S754_finite true 5026676094499045 (-68), SpecFloat.S754_zero true, SpecFloat.S754_zero true).
Proof. exact leo_j4_kept. Qed.

(** ** C76: formulas with a difference lose no more than its condition number *)
Theorem C76_semimajor : forall (L : libm64) (r v mu : b64), let N := Num_B64 L in
  is_finite r = true -> is_finite v = true -> is_finite mu = true -> 0 < B2R r -> 0 < B2R mu ->
  let A := 2 / B2R r in let B := B2R v ^ 2 / B2R mu in
  Forall (in_range 1020) [A; B2R v ^ 2; B] -> in_range 1000 (A + B) -> in_range 1000 (1 / (A - B)) ->
  A <> B -> 28 * / IZR (2 ^ 53) * (A + B) <= Rabs (A - B) ->
  off64 (18 * ((A + B) / Rabs (A - B))) (Rabs (1 / (A - B))) (@semimajor_axis _ N r v mu) (1 / (A - B)).
Proof. exact semimajor_close. Qed.
Print Assumptions C76_semimajor.

Theorem C76_semipara_from_ae : forall (L : libm64) (a e : b64), let N := Num_B64 L in
  is_finite a = true -> is_finite e = true -> in_range 450 (B2R e) -> in_range 1000 (B2R a * (1 + B2R e ^ 2)) ->
  off64 7 (Rabs (B2R a) * (1 + B2R e ^ 2)) (@semipara_from_ae _ N a e) (B2R a * (1 - B2R e ^ 2)).
Proof. exact semipara_close. Qed.
Print Assumptions C76_semipara_from_ae.

Theorem C76_a_from_pe : forall (L : libm64) (p e : b64), let N := Num_B64 L in
  is_finite p = true -> is_finite e = true -> in_range 450 (B2R e) ->
  B2R e ^ 2 <> 1 -> 16 * / IZR (2 ^ 53) * (1 + B2R e ^ 2) <= Rabs (1 - B2R e ^ 2) ->
  in_range 1000 (B2R p / (1 - B2R e ^ 2)) ->
  off64 (12 * ((1 + B2R e ^ 2) / Rabs (1 - B2R e ^ 2))) (Rabs (B2R p / (1 - B2R e ^ 2)))
    (@a_from_pe _ N p e) (B2R p / (1 - B2R e ^ 2)).
Proof. exact a_from_pe_close. Qed.
Print Assumptions C76_a_from_pe.

(** with a cosine whose absolute error is at most 2^-53 *)
Theorem C76_equ_of_orbit : forall (L : libm64) (p e f : b64), let N := Num_B64 L in
  is_finite p = true -> is_finite e = true -> 0 <= B2R e -> in_range 900 (B2R e) ->
  is_finite (d_cos L f) = true -> Rabs (B2R (d_cos L f) - cos (B2R f)) <= / IZR (2 ^ 53) ->
  let D := 1 + B2R e * cos (B2R f) in
  20 * / IZR (2 ^ 53) * (1 + B2R e) <= Rabs D -> D <> 0 -> in_range 1000 (B2R p / D) ->
  off64 (14 * ((1 + B2R e) / Rabs D)) (Rabs (B2R p / D)) (@equ_of_orbit _ N p e f) (B2R p / D).
Proof. exact orbit_close. Qed.
Print Assumptions C76_equ_of_orbit.

Theorem C76_angular_momentum : forall (L : libm64) (p v : V3 b64),
  Forall (fun x => is_finite x = true) [c0 p; c1 p; c2 p; c0 v; c1 v; c2 v] ->
  Forall (in_range 450) (map B2R [c0 p; c1 p; c2 p; c0 v; c1 v; c2 v]) ->
  let h := @angular_momentum _ (Num_B64 L) p v in
  let err a b c d g := off64 6 (Rabs (B2R a * B2R b) + Rabs (B2R c * B2R d)) g (B2R a * B2R b - B2R c * B2R d) in
  err (c1 p) (c2 v) (c2 p) (c1 v) (c0 h) /\ err (c2 p) (c0 v) (c0 p) (c2 v) (c1 h) /\
  err (c0 p) (c1 v) (c1 p) (c0 v) (c2 h).
Proof. exact momentum_close. Qed.
Print Assumptions C76_angular_momentum.

(** r = v = mu = 1: a = 1 *)
Example C76_semimajor_at_1 : forall L : libm64,
  off64 54 1 (@semimajor_axis _ (Num_B64 L) (b64_Z 1) (b64_Z 1) (b64_Z 1)) 1.
Proof. exact semimajor_at_1. Qed.
