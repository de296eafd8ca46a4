(** * Properties C71 - C73: Python numbers and int32 and float32 arrays, without jax_enable_x64

    Theorems only; proofs are in [JFacts], [JPy], [JInt], [JScalar].  [Num_J L] is the arithmetic of [NumJ]: [PyI], [PyF] are
    Python numbers, [I32], [F32] arrays, [Exc] an exception.  [stands v x] and [residue] are in [SpecJ]; [off] (in
    [SpecFl32]) and [in_range] (in [SpecFl]) measure errors. *)
From Coq Require Import ZArith Reals Lra Lia Bool List String.
From Flocq Require Import Core IEEE754.BinarySingleNaN.
From Verif Require Import Num NumB32 NumB64 SpecFl SpecFl32 OrbIntegrals KepEqu Uniformulas Gravity NumJ SpecJ
  JFacts JPy JInt JScalar LibmRef.
Import ListNotations.
Local Open Scope R_scope.

(** ** C71: Python constants and defaults do not change float32 results *)
Theorem C71_integrals : forall (L : libm) (a mu r v h P p e f : b32), let J := Num_J L in let B := Num_B32 L in
  @orb_period _ J (F32 a) (F32 mu) = F32 (@orb_period _ B a mu) /\
  @semimajor_axis _ J (F32 r) (F32 v) (F32 mu) = F32 (@semimajor_axis _ B r v mu) /\
  @semiparameter _ J (F32 h) (F32 mu) = F32 (@semiparameter _ B h mu) /\
  @mean_motion _ J (F32 P) = F32 (@mean_motion _ B P) /\
  @equ_of_orbit _ J (F32 p) (F32 e) (F32 f) = F32 (@equ_of_orbit _ B p e f) /\
  @radius_periapsis _ J (F32 p) (F32 e) = F32 (@radius_periapsis _ B p e) /\
  @radius_apoapsis _ J (F32 p) (F32 e) = F32 (@radius_apoapsis _ B p e) /\
  @semipara_from_ae _ J (F32 a) (F32 e) = F32 (@semipara_from_ae _ B a e) /\
  @a_from_pe _ J (F32 p) (F32 e) = F32 (@a_from_pe _ B p e).
Proof. exact arrays_integrals. Qed.
Print Assumptions C71_integrals.

Theorem C71_vectors : forall (L : libm) (x v : V3 b32) (mu : b32), let J := Num_J L in let B := Num_B32 L in
  @angular_momentum _ J (vmap3 F32 x) (vmap3 F32 v) = vmap3 F32 (@angular_momentum _ B x v) /\
  @eccentricity_vector _ J (vmap3 F32 x) (vmap3 F32 v) (F32 mu) = vmap3 F32 (@eccentricity_vector _ B x v mu) /\
  @sigma_fn _ J (vmap3 F32 x) (vmap3 F32 v) (F32 mu) = F32 (@sigma_fn _ B x v mu).
Proof. exact arrays_vectors. Qed.
Print Assumptions C71_vectors.

Theorem C71_kepler_equations : forall (L : libm) (E e M H Nm a dt mu : b32), let J := Num_J L in let B := Num_B32 L in
  @kepler_equ_elps _ J (F32 E) (F32 e) (F32 M) = F32 (@kepler_equ_elps _ B E e M) /\
  @dE _ J (F32 E) (F32 e) = F32 (@dE _ B E e) /\
  @kepler_equ_hypb _ J (F32 H) (F32 e) (F32 Nm) = F32 (@kepler_equ_hypb _ B H e Nm) /\
  @dH _ J (F32 H) (F32 e) = F32 (@dH _ B H e) /\
  @mean_anomaly_elps _ J (F32 a) (F32 dt) (F32 mu) = F32 (@mean_anomaly_elps _ B a dt mu) /\
  @mean_anomaly_hypb _ J (F32 a) (F32 dt) (F32 mu) = F32 (@mean_anomaly_hypb _ B a dt mu).
Proof. exact arrays_kepler. Qed.
Print Assumptions C71_kepler_equations.

Theorem C71_universal : forall (L : libm) (chi alpha : b32), let J := Num_J L in let B := Num_B32 L in
  @ufunc1 _ J (F32 chi) (F32 alpha) = F32 (@ufunc1 _ B chi alpha) /\
  @ufunc2 _ J (F32 chi) (F32 alpha) = F32 (@ufunc2 _ B chi alpha) /\
  @ufunc3 _ J (F32 chi) (F32 alpha) = F32 (@ufunc3 _ B chi alpha) /\
  @ufunc4 _ J (F32 chi) (F32 alpha) = F32 (@ufunc4 _ B chi alpha) /\
  @ufunc5 _ J (F32 chi) (F32 alpha) = F32 (@ufunc5 _ B chi alpha).
Proof. exact arrays_universal. Qed.
Print Assumptions C71_universal.

(** the solvers with their Python default tolerance, and any iteration limit *)
Theorem C71_solve_elps : forall (L : libm) (M e : b32) (k : Z), let J := Num_J L in let B := Num_B32 L in
  @solve_kepler_elps _ J (F32 M) (F32 e) (@default_tol _ J) k = F32 (@solve_kepler_elps _ B M e (@default_tol _ B) k).
Proof. exact elps_arrays. Qed.
Print Assumptions C71_solve_elps.

Theorem C71_solve_hypb : forall (L : libm) (M e : b32) (k : Z), let J := Num_J L in let B := Num_B32 L in
  @solve_kepler_hypb _ J (F32 M) (F32 e) (@default_tol _ J) k = F32 (@solve_kepler_hypb _ B M e (@default_tol _ B) k).
Proof. exact hypb_arrays. Qed.
Print Assumptions C71_solve_hypb.

Theorem C71_solve_uni : forall (L : libm) (t alpha r0 s0 mu : b32) (k : Z), let J := Num_J L in let B := Num_B32 L in
  @solve_kepler_uni _ J (F32 t) (F32 alpha) (F32 r0) (F32 s0) (F32 mu) (@default_tol _ J) k =
  F32 (@solve_kepler_uni _ B t alpha r0 s0 mu (@default_tol _ B) k).
Proof. exact uni_arrays. Qed.
Print Assumptions C71_solve_uni.

(** gravity, with float32 arrays in the dictionary; the same errors are raised *)
Theorem C71_gravity : forall (L : libm) (t : b32) (x : list b32) (d : list (string * b32)),
  let J := Num_J L in let B := Num_B32 L in let X := map F32 x in
  let D := map (fun kv => (fst kv, F32 (snd kv))) d in
  let same (a : res (V3 val)) (b : res (V3 b32)) :=
    a = match b with Ok g => Ok (vmap3 F32 g) | Raise e => Raise e end in
  same (@point_mass_grav _ J (F32 t) X D) (@point_mass_grav _ B t x d) /\
  same (@j2_acc _ J (F32 t) X D) (@j2_acc _ B t x d) /\
  same (@j3_acc _ J (F32 t) X D) (@j3_acc _ B t x d) /\
  same (@j4_acc _ J (F32 t) X D) (@j4_acc _ B t x d).
Proof. exact arrays_gravity. Qed.
Print Assumptions C71_gravity.

(** 3^2 / 2 from arrays, as in single precision *)
Example C71_example : forall L : libm, match @semiparameter _ (Num_J L) (F32 (b32_Z 3)) (F32 (b32_Z 2)) with
  | F32 p => B2SF p = SpecFloat.S754_finite false 9437184 (-21) | _ => False end.
Proof. intros L. vm_compute. reflexivity. Qed.

(** The exception: the constant in [a_from_period] is computed in double precision and then rounded, which is not
    the square of the single precision pi.  Two periods of 2 give different numbers, whatever the cube root. *)
Theorem C71_a_from_period_refuted : forall (L : libm),
  @a_from_period _ (Num_J L) (F32 (b32_Z 2)) (F32 (b32_Z 1)) = F32 (m_cbrt L (b32_div (b32_Z 1) (b32_div (b32_Z 10349030) (b32_Z 1048576)))) /\
  @a_from_period _ (Num_B32 L) (b32_Z 2) (b32_Z 1) = m_cbrt L (b32_div (b32_Z 1) (b32_div (b32_Z 10349031) (b32_Z 1048576))) /\
  b32_div (b32_Z 1) (b32_div (b32_Z 10349030) (b32_Z 1048576)) <> b32_div (b32_Z 1) (b32_div (b32_Z 10349031) (b32_Z 1048576)).
Proof. exact a_from_period_const. Qed.
Print Assumptions C71_a_from_period_refuted.

(** ** C72: Python numbers are accepted wherever arrays are *)

(** When no divisor vanishes, Python floats are computed in double precision ... *)
Theorem C72_apoapsis : forall (L : libm) (L' : libm64) (p e : b64), let J := Num_J L in
  is_finite e = true -> Rabs (B2R e) <= IZR (2 ^ 1000) ->
  (B2R e = 1 -> @radius_apoapsis _ J (PyF p) (PyF e) = Exc ZeroDivisionError) /\
  (B2R e <> 1 -> @radius_apoapsis _ J (PyF p) (PyF e) = PyF (@radius_apoapsis _ (Num_B64 L') p e)).
Proof. exact py_apoapsis. Qed.
Print Assumptions C72_apoapsis.

Theorem C72_periapsis : forall (L : libm) (L' : libm64) (p e : b64), let J := Num_J L in
  is_finite e = true -> Rabs (B2R e) <= IZR (2 ^ 1000) ->
  (B2R e = -1 -> @radius_periapsis _ J (PyF p) (PyF e) = Exc ZeroDivisionError) /\
  (B2R e <> -1 -> @radius_periapsis _ J (PyF p) (PyF e) = PyF (@radius_periapsis _ (Num_B64 L') p e)).
Proof. exact py_periapsis. Qed.
Print Assumptions C72_periapsis.

Theorem C72_semiparameter : forall (L : libm) (L' : libm64) (h mu : b64), let J := Num_J L in
  (is_finite mu = true /\ B2R mu = 0 -> @semiparameter _ J (PyF h) (PyF mu) = Exc ZeroDivisionError) /\
  (~ (is_finite mu = true /\ B2R mu = 0) ->
   @semiparameter _ J (PyF h) (PyF mu) = PyF (@semiparameter _ (Num_B64 L') h mu)).
Proof. exact py_semiparameter. Qed.
Print Assumptions C72_semiparameter.

(** the last disjunct: the float64 value of 2/r - v^2/mu is zero *)
Theorem C72_semimajor : forall (L : libm) (L' : libm64) (r v mu : b64), let J := Num_J L in
  let zero x := is_finite x = true /\ B2R x = 0 in
  let bad := zero r \/ zero mu \/ zero (b64_sub (b64_div (b64_Z 2) r) (b64_div (b64_mul v v) mu)) in
  (bad -> @semimajor_axis _ J (PyF r) (PyF v) (PyF mu) = Exc ZeroDivisionError) /\
  (~ bad -> @semimajor_axis _ J (PyF r) (PyF v) (PyF mu) = PyF (@semimajor_axis _ (Num_B64 L') r v mu)).
Proof. exact py_semimajor. Qed.
Print Assumptions C72_semimajor.

(** Where a function of jax.numpy is involved, Python numbers are first rounded to single precision. *)
Theorem C72_anomalies : forall (L : libm) (E e M H Nm p f : b64), let J := Num_J L in let B := Num_B32 L in
  @kepler_equ_elps _ J (PyF E) (PyF e) (PyF M) = F32 (@kepler_equ_elps _ B (to32 E) (to32 e) (to32 M)) /\
  @dE _ J (PyF E) (PyF e) = F32 (@dE _ B (to32 E) (to32 e)) /\
  @kepler_equ_hypb _ J (PyF H) (PyF e) (PyF Nm) = F32 (@kepler_equ_hypb _ B (to32 H) (to32 e) (to32 Nm)) /\
  @dH _ J (PyF H) (PyF e) = F32 (@dH _ B (to32 H) (to32 e)) /\
  @equ_of_orbit _ J (PyF p) (PyF e) (PyF f) = F32 (@equ_of_orbit _ B (to32 p) (to32 e) (to32 f)).
Proof. exact scalars. Qed.
Print Assumptions C72_anomalies.
Theorem C72_anomalies_int : forall (L : libm) (E e M p f : Z), let J := Num_J L in let B := Num_B32 L in let small z := (- 2 ^ 31 <= z < 2 ^ 31)%Z in
  small E -> small e -> small M -> small p -> small f ->
  @kepler_equ_elps _ J (PyI E) (PyI e) (PyI M) = F32 (@kepler_equ_elps _ B (b32_Z E) (b32_Z e) (b32_Z M)) /\
  @dE _ J (PyI E) (PyI e) = F32 (@dE _ B (b32_Z E) (b32_Z e)) /\
  @equ_of_orbit _ J (PyI p) (PyI e) (PyI f) = F32 (@equ_of_orbit _ B (b32_Z p) (b32_Z e) (b32_Z f)).
Proof. exact int_scalars. Qed.
Print Assumptions C72_anomalies_int.
(** the residual at E = 0, M = 0.1 is the single precision -0.1; a Python int beyond int32 raises *)
Example C72_anomalies_case : match @kepler_equ_elps _ (Num_J ref_libm) (PyF (b64_Z 0)) (PyF (b64_dec 1 2)) (PyF (b64_dec 1 10)) with
    F32 x => B2SF x = SpecFloat.S754_finite true 13421773 (-27) | _ => False end /\
  @kepler_equ_elps _ (Num_J ref_libm) (PyI (2 ^ 31)) (PyI 0) (PyI 0) = Exc OverflowError.
Proof. exact scalar_case. Qed.

(** ... and at the parabola the array is infinite, the Python call raises *)
Theorem C72_parabola_refuted : forall (L : libm) (p64 : b64) (p : b32), let J := Num_J L in
  is_finite p = true -> B2R p <> 0 ->
  @radius_apoapsis _ J (PyF p64) (PyF (b64_Z 1)) = Exc ZeroDivisionError /\
  @radius_apoapsis _ J (F32 p) (F32 (b32_Z 1)) = F32 (B754_infinity (Bsign p)) /\
  @semimajor_axis _ J (PyI 2) (PyI 1) (PyI 1) = Exc ZeroDivisionError /\
  @semimajor_axis _ J (F32 (b32_Z 2)) (F32 (b32_Z 1)) (F32 (b32_Z 1)) = F32 (B754_infinity false).
Proof. exact parabola_python. Qed.
Print Assumptions C72_parabola_refuted.

(** a Python int for [mu] that does not fit into int32 (metres and seconds) raises as soon as an array is involved *)
Theorem C72_big_mu_refuted : forall (L : libm) (x v : V3 b32) (a : b32) (dt : val) (t : R) (mu : Z), let J := Num_J L in
  (2 ^ 31 <= mu)%Z -> stands dt t ->
  @sigma_fn _ J (vmap3 F32 x) (vmap3 F32 v) (PyI mu) = Exc OverflowError /\
  @orb_period _ J (F32 a) (PyI mu) = Exc OverflowError /\
  @mean_anomaly_elps _ J (F32 a) dt (PyI mu) = Exc OverflowError /\
  @semiparameter _ J (F32 a) (PyI mu) = Exc OverflowError.
Proof. exact big_mu. Qed.
Print Assumptions C72_big_mu_refuted.

Example C72_earth_si : forall (L : libm) (a : b32),
  @orb_period _ (Num_J L) (F32 a) (PyI 398600441800000) = Exc OverflowError.
Proof.
  intros L a. apply (big_mu L (mk3 a a a) (mk3 a a a) a (PyI 1) 1); [lia |]. split; [reflexivity | lia].
Qed.

(** ** C73: int32 arrays give the value of the formula *)

(** powers are taken modulo 2^32; this is what comes out, for any kind of positive [mu] *)
Theorem C73_period : forall (L : libm) (a : Z) (mu : val) (m : R), stands mu m -> in_range 60 m -> 0 < m ->
  let s := residue (a ^ 3) in let P := @orb_period _ (Num_J L) (I32 a) mu in
  ((s < 0)%Z -> P = F32 B754_nan) /\
  ((0 < s)%Z -> exists p, P = F32 p /\ off 8 (2 * PI * sqrt (IZR s / m)) p (2 * PI * sqrt (IZR s / m))) /\
  (s = 0%Z -> exists p, P = F32 p /\ is_finite p = true /\ B2R p = 0).
Proof. exact period_int. Qed.
Print Assumptions C73_period.

Theorem C73_semiparameter : forall (L : libm) (h : Z) (mu : val) (m : R), stands mu m -> in_range 60 m -> 0 < m ->
  let s := residue (h ^ 2) in
  exists p, @semiparameter _ (Num_J L) (I32 h) mu = F32 p /\ off 4 (Rabs (IZR s / m)) p (IZR s / m) /\
  ((s < 0)%Z -> B2R p < 0).
Proof. exact semiparameter_int. Qed.
Print Assumptions C73_semiparameter.

Theorem C73_mean_anomaly : forall (L : libm) (a : Z) (dt mu : val) (m t : R),
  stands mu m -> in_range 60 m -> 0 < m -> stands dt t ->
  (residue (a ^ 3) < 0)%Z -> @mean_anomaly_elps _ (Num_J L) (I32 a) dt mu = F32 B754_nan.
Proof. exact mean_anomaly_int. Qed.
Print Assumptions C73_mean_anomaly.

(** right up to a = 1290, NaN from 1291 to 1625 and at 7000, zero at 2048 *)
Theorem C73_refuted : forall (L : libm) (a : Z) (mu : val) (m : R), let J := Num_J L in
  stands mu m -> in_range 60 m -> 0 < m ->
  ((1 <= a <= 1290)%Z -> exists p, @orb_period _ J (I32 a) mu = F32 p /\
     off 8 (2 * PI * sqrt (IZR a ^ 3 / m)) p (2 * PI * sqrt (IZR a ^ 3 / m))) /\
  ((1291 <= a <= 1625)%Z -> @orb_period _ J (I32 a) mu = F32 B754_nan) /\
  (a = 2048%Z -> exists p, @orb_period _ J (I32 a) mu = F32 p /\ B2R p = 0) /\
  (a = 7000%Z -> @orb_period _ J (I32 a) mu = F32 B754_nan).
Proof. exact period_cases. Qed.
Print Assumptions C73_refuted.

Example C73_low_orbit_km : forall L : libm, @orb_period _ (Num_J L) (I32 7000) (PyF (b64_Z 398600)) = F32 B754_nan.
Proof. exact low_orbit. Qed.

Example C73_momentum_km : forall L : libm, exists p, @semiparameter _ (Num_J L) (I32 53000) (I32 398600) = F32 p /\ B2R p < 0.
Proof. exact momentum. Qed.
