(** * Properties C35-C38: transfer geometry

    Theorems only; proofs are in [PathFacts], [PathMotion], [PathExamples].  Exact real arithmetic. *)
From Coq Require Import Reals Lra ZArith.
From Coquelicot Require Import Coquelicot.
From Verif Require Import Num NumR Spec SpecPath RLib OrbIntegrals OrbFacts PathCheck PathFacts PathMotion PathExamples.
Local Open Scope R_scope.

(** ** C35 *)
Theorem C35_transfer_angle : forall (r1 v1 : vec) (rho t : R),
  cross r1 v1 <> vzero -> 0 < rho -> 0 <= t < 2 * PI ->
  (is_short_way r1 v1 (turn (cross r1 v1) r1 rho t) = true <-> 0 < t < PI).
Proof. exact short_way_angle. Qed.
Print Assumptions C35_transfer_angle.

(** Every target in the orbit plane is of that form. *)
Theorem C35_all_targets : forall r1 v1 r2 : vec,
  cross r1 v1 <> vzero -> r2 <> vzero -> dot r2 (cross r1 v1) = 0 ->
  exists rho t : R, 0 < rho /\ 0 <= t < 2 * PI /\ r2 = turn (cross r1 v1) r1 rho t.
Proof. exact plane_angles. Qed.
Print Assumptions C35_all_targets.

(** Along a motion of less than one revolution: the angle swept is the integral of h / r^2. *)
Theorem C35_motion : forall (mu : R) (r v : R -> vec) (T : R),
  two_body_motion mu r v -> cross (r 0) (v 0) <> vzero -> 0 < T ->
  let swept := RInt (fun t : R => vnorm (cross (r 0) (v 0)) / vnorm (r t) ^ 2) 0 T in
  swept < 2 * PI ->
  (is_short_way (r 0) (v 0) (r T) = true <-> swept < PI).
Proof. exact travelled_short. Qed.
Print Assumptions C35_motion.

Example C35_example :
  is_short_way (mk3 1 0 0) (mk3 0 1 0) (mk3 (-1) 1 0) = true /\
  is_short_way (mk3 1 0 0) (mk3 0 1 0) (mk3 (-1) (-1) 0) = false /\
  is_short_way (mk3 1 0 0) (mk3 0 1 0) (mk3 (-1) 0 0) = false.
Proof. exact short_examples. Qed.

(** ** C36: departure at true anomaly [f], arrival after an angle [d]; missing for the full
    property are half revolutions and arcs that start or end at periapsis. *)
Theorem C36_arc_partial : forall (r1 v1 r2 : vec) (mu f d rho1 rho2 : R),
  let h := cross r1 v1 in let e := eccentricity_vector r1 v1 mu in
  0 < mu -> h <> vzero -> e <> vzero -> 0 <= f < 2 * PI -> 0 < d < 2 * PI ->
  0 < rho1 -> 0 < rho2 -> r1 = turn h e rho1 f -> r2 = turn h e rho2 (f + d) ->
  d <> PI -> f <> 0 -> f + d <> 2 * PI ->
  (pass_perigee r1 v1 r2 mu = true <-> exists phi, f < phi < f + d /\ cos phi = 1).
Proof. exact pass_generic. Qed.
Print Assumptions C36_arc_partial.

Theorem C36_motion_partial : forall (mu : R) (r v : R -> vec) (T : R),
  0 < mu -> two_body_motion mu r v -> cross (r 0) (v 0) <> vzero -> 0 < T ->
  let swept := RInt (fun t : R => vnorm (cross (r 0) (v 0)) / vnorm (r t) ^ 2) 0 T in
  let e := eccentricity_vector (r 0) (v 0) mu in
  swept < 2 * PI -> e <> vzero -> swept <> PI ->
  ~ (exists k, 0 < k /\ r 0 = smul k e) -> ~ (exists k, 0 < k /\ r T = smul k e) ->
  (pass_perigee (r 0) (v 0) (r T) mu = true <-> exists t k, 0 < t < T /\ 0 < k /\ r t = smul k e).
Proof. exact travelled_perigee. Qed.
Print Assumptions C36_motion_partial.

(** What the code decides in the remaining cases: short arcs are taken open, long arcs closed. *)
Theorem C36_short_arcs : forall (r1 v1 r2 : vec) (mu f d rho1 rho2 : R),
  let h := cross r1 v1 in let e := eccentricity_vector r1 v1 mu in
  0 < mu -> h <> vzero -> e <> vzero -> 0 <= f < 2 * PI -> 0 < d < 2 * PI ->
  0 < rho1 -> 0 < rho2 -> r1 = turn h e rho1 f -> r2 = turn h e rho2 (f + d) ->
  d < PI ->
  (pass_perigee r1 v1 r2 mu = true <-> exists phi, f < phi < f + d /\ cos phi = 1).
Proof. exact pass_short. Qed.
Print Assumptions C36_short_arcs.

Theorem C36_long_arcs : forall (r1 v1 r2 : vec) (mu f d rho1 rho2 : R),
  let h := cross r1 v1 in let e := eccentricity_vector r1 v1 mu in
  0 < mu -> h <> vzero -> e <> vzero -> 0 <= f < 2 * PI -> 0 < d < 2 * PI ->
  0 < rho1 -> 0 < rho2 -> r1 = turn h e rho1 f -> r2 = turn h e rho2 (f + d) ->
  PI < d ->
  (pass_perigee r1 v1 r2 mu = true <-> exists phi, f <= phi <= f + d /\ cos phi = 1).
Proof. exact pass_long. Qed.
Print Assumptions C36_long_arcs.

Theorem C36_half_revolution : forall (r1 v1 r2 : vec) (mu f d rho1 rho2 : R),
  let h := cross r1 v1 in let e := eccentricity_vector r1 v1 mu in
  0 < mu -> h <> vzero -> e <> vzero ->
  0 < rho1 -> 0 < rho2 -> r1 = turn h e rho1 f -> r2 = turn h e rho2 (f + d) ->
  d = PI -> pass_perigee r1 v1 r2 mu = true.
Proof. exact pass_half. Qed.
Print Assumptions C36_half_revolution.

(** Every pair of positions in the orbit plane has such angles. *)
Theorem C36_all_positions : forall (r1 v1 r2 : vec) (mu : R), 0 < mu ->
  let h := cross r1 v1 in let e := eccentricity_vector r1 v1 mu in
  h <> vzero -> e <> vzero -> r2 <> vzero -> dot r2 h = 0 ->
  exists rho1 f rho2 g : R, 0 < rho1 /\ 0 <= f < 2 * PI /\ 0 < rho2 /\ 0 <= g < 2 * PI /\
    r1 = turn h e rho1 f /\ r2 = turn h e rho2 g.
Proof. exact perigee_angles. Qed.
Print Assumptions C36_all_positions.

(** The half revolution from the end of the semi-latus rectum over apoapsis does not contain
    periapsis, but is reported as passing it. *)
Theorem C36_refuted : let r1 := mk3 0 1 0 in let v1 := mk3 (-1) (1 / 2) 0 in
  let h := cross r1 v1 in let e := eccentricity_vector r1 v1 1 in
  h <> vzero /\ e <> vzero /\
  r1 = turn h e 2 (PI / 2) /\ mk3 0 (-1) 0 = turn h e 2 (PI / 2 + PI) /\
  pass_perigee r1 v1 (mk3 0 (-1) 0) 1 = true /\
  ~ (exists phi, PI / 2 <= phi <= PI / 2 + PI /\ cos phi = 1).
Proof. exact pass_refuted. Qed.
Print Assumptions C36_refuted.

Example C36_example : let r1 := mk3 0 1 0 in let v1 := mk3 (-1) (1 / 2) 0 in
  pass_perigee r1 v1 (mk3 1 (-1) 0) 1 = false /\
  pass_perigee r1 v1 (mk3 1 1 0) 1 = true /\
  pass_perigee r1 v1 (mk3 (-1) 0 0) 1 = false.
Proof. exact pass_examples. Qed.
Example C36_from_periapsis :
  let r := mk3 (2 / 3) 0 0 in let v := mk3 0 (3 / 2) 0 in
  eccentricity_vector r v 1 = mk3 (1 / 2) 0 0 /\
  pass_perigee r v (mk3 0 1 0) 1 = false /\ pass_perigee r v (mk3 0 (-1) 0) 1 = true.
Proof. exact pass_from_periapsis. Qed.

(** ** C37: points q of the conic |q| = p - e.q in the orbit plane *)
Theorem C37_conic : forall (r v : vec) (mu rmin : R), 0 < mu -> cross r v <> vzero ->
  (rp_islower_rmin rmin r v mu = true <->
   exists q, dot q (cross r v) = 0 /\
     vnorm q = semiparameter (vnorm (cross r v)) mu - dot (eccentricity_vector r v mu) q /\
     vnorm q < rmin).
Proof. exact low_conic. Qed.
Print Assumptions C37_conic.

Theorem C37_motion : forall (r v : vec) (mu rmin : R), 0 < mu -> cross r v <> vzero ->
  (rp_islower_rmin rmin r v mu = true <->
   exists t r' v', flows_to mu t (r, v) (r', v') /\ vnorm r' < rmin).
Proof. exact low_motion. Qed.
Print Assumptions C37_motion.

Example C37_example :
  let r := mk3 0 1 0 in let v := mk3 (-1) (1 / 2) 0 in
  rp_islower_rmin (7 / 10) r v 1 = true /\ rp_islower_rmin (6 / 10) r v 1 = false.
Proof. exact low_examples. Qed.

(** ** C38 *)
Theorem C38_bound : forall rp r1 r2 tof mu : R, 0 < rp -> 0 < r1 -> 0 < r2 -> 0 < mu ->
  forall (a e f1 f2 : R) (n : Z), 0 < a -> 0 <= e < 1 -> (0 <= n)%Z ->
    a * (1 - e ^ 2) / (1 + e * cos f1) = r1 -> a * (1 - e ^ 2) / (1 + e * cos f2) = r2 ->
    rp <= a * (1 - e) -> IZR n * (2 * PI * sqrt (a ^ 3 / mu)) <= tof ->
    IZR n <= nmax_by_periapsis rp r1 r2 tof mu.
Proof. exact nmax_bound. Qed.
Print Assumptions C38_bound.

(** The returned value is an integer, the largest one whose revolutions of the orbit with
    semimajor axis (max(r1, r2) + rp) / 2 fit in [tof]. *)
Theorem C38_largest : forall rp r1 r2 tof mu : R, 0 < rp -> 0 < r1 -> 0 < r2 -> 0 < mu ->
  (exists k : Z, nmax_by_periapsis rp r1 r2 tof mu = IZR k) /\
  forall n : Z, IZR n * (2 * PI * sqrt (((Rmax r1 r2 + rp) / 2) ^ 3 / mu)) <= tof <->
    IZR n <= nmax_by_periapsis rp r1 r2 tof mu.
Proof. exact nmax_is_largest. Qed.
Print Assumptions C38_largest.

(** It is attained whenever both radii are at least the smallest allowed periapsis. *)
Theorem C38_sharp : forall rp r1 r2 tof mu : R, 0 < rp -> 0 < r1 -> 0 < r2 -> 0 < mu ->
  forall n : Z, rp <= Rmin r1 r2 -> (0 <= n)%Z -> IZR n <= nmax_by_periapsis rp r1 r2 tof mu ->
    exists a e f1 f2, 0 < a /\ 0 <= e < 1 /\
      a * (1 - e ^ 2) / (1 + e * cos f1) = r1 /\ a * (1 - e ^ 2) / (1 + e * cos f2) = r2 /\
      rp <= a * (1 - e) /\ IZR n * (2 * PI * sqrt (a ^ 3 / mu)) <= tof.
Proof. exact nmax_sharp. Qed.
Print Assumptions C38_sharp.

Example C38_example : nmax_by_periapsis (1 / 2) (1 / 2) (7 / 2) (41 * PI) 1 = 7.
Proof. exact nmax_example. Qed.
