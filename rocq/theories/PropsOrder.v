(** * Property C101: rounding keeps the order of the arguments

    Theorems only; proofs are in [OrdFloat] and [OrdMain].  The [_single] theorems are about
    single precision, the others about double precision (jax_enable_x64).  [leq] and [less]
    are the comparisons of the hardware: false if one side is a NaN. *)
From Coq Require Import ZArith Reals Bool List String.
From Flocq Require Import Core IEEE754.BinarySingleNaN.
From Verif Require Import Num NumB32 NumB64 LibmRef LibmRef64 SpecOrd OrbIntegrals KepEqu PathCheck Gravity OrdExamples.
From Verif Require OrdMain.
Import ListNotations.
Local Open Scope Z_scope.

Theorem C101_apsides : forall (L : libm64) (p e : b64), positive p -> nonneg e -> leq e (b64_Z 1) ->
  leq (@radius_periapsis _ (Num_B64 L) p e) p /\ leq p (@a_from_pe _ (Num_B64 L) p e) /\ leq (@a_from_pe _ (Num_B64 L) p e) (@radius_apoapsis _ (Num_B64 L) p e).
Proof. exact (fun L => OrdMain.apsides _ _ _ (near64 L)). Qed.
Print Assumptions C101_apsides.
Example C101_apsides_case : let p := b64_dec 1 10 in let e := b64_dec 1 3 in positive p /\ nonneg e /\ leq e (b64_Z 1) /\
  less (@radius_periapsis _ (Num_B64 ref_libm64) p e) p /\ less p (@a_from_pe _ (Num_B64 ref_libm64) p e) /\ less (@a_from_pe _ (Num_B64 ref_libm64) p e) (@radius_apoapsis _ (Num_B64 ref_libm64) p e) /\
  B2SF (@radius_apoapsis _ (Num_B64 ref_libm64) p (b64_Z 1)) = SpecFloat.S754_infinity false.
Proof. vm_compute. repeat split; reflexivity. Qed.

Theorem C101_orbit_range : forall (L : libm64) (p e f : b64), positive p -> nonneg e -> leq (Bopp (b64_Z 1)) (d_cos L f) -> leq (d_cos L f) (b64_Z 1) ->
  (leq e (b64_Z 1) -> leq (@radius_periapsis _ (Num_B64 L) p e) (@equ_of_orbit _ (Num_B64 L) p e f) /\ leq (@equ_of_orbit _ (Num_B64 L) p e f) (@radius_apoapsis _ (Num_B64 L) p e)) /\
  (less zero (@equ_of_orbit _ (Num_B64 L) p e f) -> leq (@radius_periapsis _ (Num_B64 L) p e) (@equ_of_orbit _ (Num_B64 L) p e f)).
Proof. exact (fun L => OrdMain.orbit_range _ _ _ (near64 L)). Qed.
Print Assumptions C101_orbit_range.
Example C101_orbit_range_case : let p := b64_dec 1 10 in let e := b64_dec 1 3 in let f := b64_Z 2 in positive p /\ nonneg e /\
  leq (Bopp (b64_Z 1)) (d_cos ref_libm64 f) /\ leq (d_cos ref_libm64 f) (b64_Z 1) /\
  less (@radius_periapsis _ (Num_B64 ref_libm64) p e) (@equ_of_orbit _ (Num_B64 ref_libm64) p e f) /\ less (@equ_of_orbit _ (Num_B64 ref_libm64) p e f) (@radius_apoapsis _ (Num_B64 ref_libm64) p e) /\
  B2SF (@equ_of_orbit _ (Num_B64 ref_libm64) p e (b64_Z 0)) = B2SF (@radius_periapsis _ (Num_B64 ref_libm64) p e) /\
  less (@equ_of_orbit _ (Num_B64 ref_libm64) p (b64_Z 3) f) zero /\ less zero (@equ_of_orbit _ (Num_B64 ref_libm64) p (b64_Z 3) (b64_Z 1)).
Proof. vm_compute. repeat split; reflexivity. Qed.

Theorem C101_periapsis : forall (L : libm64) (p p' e e' : b64), positive p -> positive p' -> nonneg e -> nonneg e' -> leq p p' -> leq e' e ->
  leq (@radius_periapsis _ (Num_B64 L) p e) (@radius_periapsis _ (Num_B64 L) p' e').
Proof. exact (fun L => OrdMain.periapsis_mono _ _ _ (near64 L)). Qed.
Print Assumptions C101_periapsis.
Example C101_periapsis_case : less (@radius_periapsis _ (Num_B64 ref_libm64) (b64_dec 1 10) (b64_Z 2)) (@radius_periapsis _ (Num_B64 ref_libm64) (b64_dec 1 9) (b64_dec 1 3)) /\
  positive (b64_dec 1 10) /\ positive (b64_dec 1 9) /\ nonneg (b64_Z 2) /\ nonneg (b64_dec 1 3) /\ less (b64_dec 1 10) (b64_dec 1 9) /\ less (b64_dec 1 3) (b64_Z 2).
Proof. vm_compute. repeat split; reflexivity. Qed.

Theorem C101_apoapsis : forall (L : libm64) (p p' e e' : b64), positive p -> positive p' -> nonneg e -> nonneg e' -> leq p p' -> leq e e' -> leq e' (b64_Z 1) ->
  leq (@radius_apoapsis _ (Num_B64 L) p e) (@radius_apoapsis _ (Num_B64 L) p' e') /\ leq (@a_from_pe _ (Num_B64 L) p e) (@a_from_pe _ (Num_B64 L) p' e').
Proof. exact (fun L => OrdMain.apoapsis_mono _ _ _ (near64 L)). Qed.
Print Assumptions C101_apoapsis.
Example C101_apoapsis_case : let e := b64_dec 1 3 in let e' := b64_dec 1 2 in
  less (@radius_apoapsis _ (Num_B64 ref_libm64) (b64_Z 7) e) (@radius_apoapsis _ (Num_B64 ref_libm64) (b64_Z 7) e') /\ less (@a_from_pe _ (Num_B64 ref_libm64) (b64_Z 7) e) (@a_from_pe _ (Num_B64 ref_libm64) (b64_Z 7) e') /\ less e e' /\ less e' (b64_Z 1).
Proof. vm_compute. repeat split; reflexivity. Qed.

Theorem C101_semiparameter_ae : forall (L : libm64) (a a' e e' : b64), nonneg a -> nonneg a' -> nonneg e -> nonneg e' -> leq a a' -> leq e' e -> leq e (b64_Z 1) ->
  leq (@semipara_from_ae _ (Num_B64 L) a e) (@semipara_from_ae _ (Num_B64 L) a' e') /\ leq (@semipara_from_ae _ (Num_B64 L) a e) a.
Proof. exact (fun L => OrdMain.semipara_mono _ _ _ (near64 L)). Qed.
Print Assumptions C101_semiparameter_ae.
Example C101_semiparameter_ae_case : let e := b64_dec 2 3 in let e' := b64_dec 1 3 in
  less (@semipara_from_ae _ (Num_B64 ref_libm64) (b64_Z 7) e) (@semipara_from_ae _ (Num_B64 ref_libm64) (b64_Z 7) e') /\ less (@semipara_from_ae _ (Num_B64 ref_libm64) (b64_Z 7) e) (b64_Z 7) /\ less e' e.
Proof. vm_compute. repeat split; reflexivity. Qed.

Theorem C101_period : forall (L : libm64) (a a' mu mu' : b64), positive a -> positive a' -> positive mu -> positive mu' -> leq a a' -> leq mu' mu ->
  leq (@orb_period _ (Num_B64 L) a mu) (@orb_period _ (Num_B64 L) a' mu').
Proof. exact (fun L => OrdMain.period_mono _ _ _ (near64 L)). Qed.
Print Assumptions C101_period.
Example C101_period_case : less (@orb_period _ (Num_B64 ref_libm64) (b64_Z 7000) (b64_Z 398600)) (@orb_period _ (Num_B64 ref_libm64) (b64_Z 7001) (b64_Z 398600)) /\
  less (@orb_period _ (Num_B64 ref_libm64) (b64_Z 7000) (b64_Z 398700)) (@orb_period _ (Num_B64 ref_libm64) (b64_Z 7000) (b64_Z 398600)).
Proof. vm_compute. split; reflexivity. Qed.

Theorem C101_mean_motion : forall (L : libm64) (P P' : b64), less zero P -> leq P P' -> leq (@mean_motion _ (Num_B64 L) P') (@mean_motion _ (Num_B64 L) P).
Proof. exact (fun L => OrdMain.motion_mono _ _ _ (near64 L)). Qed.
Print Assumptions C101_mean_motion.
Example C101_mean_motion_case : less (@mean_motion _ (Num_B64 ref_libm64) (b64_Z 5829)) (@mean_motion _ (Num_B64 ref_libm64) (b64_Z 5828)) /\
  leq (@mean_motion _ (Num_B64 ref_libm64) (B754_infinity false)) zero.
Proof. vm_compute. split; reflexivity. Qed.

Theorem C101_a_from_period : forall (L : libm64) (P P' mu mu' : b64), increasing (d_cbrt L) -> positive P -> positive P' -> positive mu -> positive mu' -> leq P P' -> leq mu mu' ->
  leq (@a_from_period _ (Num_B64 L) P mu) (@a_from_period _ (Num_B64 L) P' mu').
Proof. exact (fun L => OrdMain.axis_mono _ _ _ (near64 L)). Qed.
Print Assumptions C101_a_from_period.
Example C101_a_from_period_case : less (@a_from_period _ (Num_B64 ref_libm64) (b64_Z 5828) (b64_Z 398600)) (@a_from_period _ (Num_B64 ref_libm64) (b64_Z 5829) (b64_Z 398601)).
Proof. vm_compute. reflexivity. Qed.
Example C101_a_from_period_library : @increasing 53 1024 (fun x => x).
Proof. exact (fun x y H => H). Qed.

Theorem C101_semiparameter : forall (L : libm64) (h h' mu mu' : b64), nonneg h -> nonneg h' -> positive mu -> positive mu' -> leq h h' -> leq mu' mu ->
  leq (@semiparameter _ (Num_B64 L) h mu) (@semiparameter _ (Num_B64 L) h' mu').
Proof. exact (fun L => OrdMain.semiparameter_mono _ _ _ (near64 L)). Qed.
Print Assumptions C101_semiparameter.
Example C101_semiparameter_case : less (@semiparameter _ (Num_B64 ref_libm64) (b64_Z 52822) (b64_Z 398600)) (@semiparameter _ (Num_B64 ref_libm64) (b64_Z 52823) (b64_Z 398600)).
Proof. vm_compute. reflexivity. Qed.

Theorem C101_semimajor_axis : forall (L : libm64) (r r' v v' mu : b64), positive r -> positive r' -> nonneg v -> nonneg v' -> positive mu -> leq r r' -> leq v v' ->
  number (@semimajor_axis _ (Num_B64 L) r v mu) -> less zero (@semimajor_axis _ (Num_B64 L) r' v' mu) -> leq (@semimajor_axis _ (Num_B64 L) r v mu) (@semimajor_axis _ (Num_B64 L) r' v' mu).
Proof. exact (fun L => OrdMain.energy_mono _ _ _ (near64 L)). Qed.
Print Assumptions C101_semimajor_axis.
Example C101_semimajor_axis_case : let a v := @semimajor_axis _ (Num_B64 ref_libm64) (b64_Z 7000) v (b64_Z 398600) in
  less (a (b64_Z 7)) (a (b64_Z 8)) /\ less zero (a (b64_Z 8)) /\ less (a (b64_Z 11)) zero.
Proof. vm_compute. repeat split; reflexivity. Qed.

Theorem C101_mean_anomaly_time : forall (L : libm64) (a t t' mu : b64), positive a -> positive mu -> is_finite t = true -> is_finite t' = true -> leq t t' ->
  number (@mean_anomaly_elps _ (Num_B64 L) a t mu) -> number (@mean_anomaly_elps _ (Num_B64 L) a t' mu) -> leq (@mean_anomaly_elps _ (Num_B64 L) a t mu) (@mean_anomaly_elps _ (Num_B64 L) a t' mu).
Proof. exact (fun L => OrdMain.anomaly_time_mono _ _ _ (near64 L)). Qed.
Print Assumptions C101_mean_anomaly_time.
Example C101_mean_anomaly_time_case : let m t := @mean_anomaly_elps _ (Num_B64 ref_libm64) (b64_Z 7000) t (b64_Z 398600) in less (m (b64_Z (-5))) (m (b64_Z 3)) /\ less (m (b64_Z (-5))) zero.
Proof. vm_compute. split; reflexivity. Qed.

Theorem C101_mean_anomaly_size : forall (L : libm64) (a a' t mu mu' : b64), positive a -> positive a' -> positive mu -> positive mu' -> positive t -> leq a a' -> leq mu' mu ->
  leq (@mean_anomaly_elps _ (Num_B64 L) a' t mu') (@mean_anomaly_elps _ (Num_B64 L) a t mu).
Proof. exact (fun L => OrdMain.anomaly_size_mono _ _ _ (near64 L)). Qed.
Print Assumptions C101_mean_anomaly_size.
Example C101_mean_anomaly_size_case : less (@mean_anomaly_elps _ (Num_B64 ref_libm64) (b64_Z 7001) (b64_Z 60) (b64_Z 398600)) (@mean_anomaly_elps _ (Num_B64 ref_libm64) (b64_Z 7000) (b64_Z 60) (b64_Z 398600)).
Proof. vm_compute. reflexivity. Qed.

Theorem C101_residuals : forall (L : libm64) (x e m m' : b64), leq m m' ->
  (number (@kepler_equ_elps _ (Num_B64 L) x e m) -> number (@kepler_equ_elps _ (Num_B64 L) x e m') -> leq (@kepler_equ_elps _ (Num_B64 L) x e m') (@kepler_equ_elps _ (Num_B64 L) x e m)) /\
  (number (@kepler_equ_hypb _ (Num_B64 L) x e m) -> number (@kepler_equ_hypb _ (Num_B64 L) x e m') -> leq (@kepler_equ_hypb _ (Num_B64 L) x e m') (@kepler_equ_hypb _ (Num_B64 L) x e m)).
Proof. exact (fun L => OrdMain.residuals_mono _ _ _ (near64 L)). Qed.
Print Assumptions C101_residuals.
Example C101_residuals_case : let k m := @kepler_equ_elps _ (Num_B64 ref_libm64) (b64_Z 1) (b64_dec 1 2) m in let h m := @kepler_equ_hypb _ (Num_B64 ref_libm64) (b64_Z 1) (b64_Z 2) m in
  less (k (b64_Z 2)) (k (b64_Z 1)) /\ less (h (b64_Z 2)) (h (b64_Z 1)).
Proof. vm_compute. split; reflexivity. Qed.

Theorem C101_residual_universal : forall (L : libm64) (chi alpha r0 sigma0 t t' mu : b64), positive mu -> is_finite t = true -> is_finite t' = true -> leq t t' ->
  number (@kepler_equ_uni _ (Num_B64 L) chi alpha r0 sigma0 t mu) -> number (@kepler_equ_uni _ (Num_B64 L) chi alpha r0 sigma0 t' mu) ->
  leq (@kepler_equ_uni _ (Num_B64 L) chi alpha r0 sigma0 t' mu) (@kepler_equ_uni _ (Num_B64 L) chi alpha r0 sigma0 t mu).
Proof. exact (fun L => OrdMain.residual_uni_mono _ _ _ (near64 L)). Qed.
Print Assumptions C101_residual_universal.
Example C101_residual_universal_case : let k t := @kepler_equ_uni _ (Num_B64 ref_libm64) (b64_Z 1) (b64_dec 1 2) (b64_Z 1) (b64_dec 1 4) t (b64_Z 1) in less (k (b64_Z 2)) (k (b64_Z 1)).
Proof. vm_compute. reflexivity. Qed.

Theorem C101_below_minimum : forall (L : libm64) (rmin rmin' mu : b64) (r v : V3 b64), leq rmin rmin' ->
  @rp_islower_rmin _ (Num_B64 L) rmin r v mu = true -> @rp_islower_rmin _ (Num_B64 L) rmin' r v mu = true.
Proof. exact (fun L => OrdMain.lower_mono _ _ _ (near64 L)). Qed.
Print Assumptions C101_below_minimum.
Example C101_below_minimum_case : let f m := @rp_islower_rmin _ (Num_B64 ref_libm64) m (mk3 (b64_Z 7000) (b64_Z 0) (b64_Z 0)) (mk3 (b64_Z 0) (b64_Z 7) (b64_Z 0)) (b64_Z 398600) in f (b64_Z 5000) = false /\ f (b64_Z 6000) = true.
Proof. vm_compute. split; reflexivity. Qed.

Theorem C101_revolutions : forall (L : libm64) (rp rp' r1 r1' r2 r2' t t' mu mu' : b64),
  positive rp -> positive rp' -> positive r1 -> positive r1' -> positive r2 -> positive r2' -> positive t -> positive t' -> positive mu -> positive mu' ->
  leq rp' rp -> leq r1' r1 -> leq r2' r2 -> leq t t' -> leq mu mu' ->
  number (@nmax_by_periapsis _ (Num_B64 L) rp r1 r2 t mu) -> number (@nmax_by_periapsis _ (Num_B64 L) rp' r1' r2' t' mu') ->
  leq (@nmax_by_periapsis _ (Num_B64 L) rp r1 r2 t mu) (@nmax_by_periapsis _ (Num_B64 L) rp' r1' r2' t' mu').
Proof. exact (fun L => OrdMain.nmax_mono _ _ _ (near64 L)). Qed.
Print Assumptions C101_revolutions.
Example C101_revolutions_case : let n rp t := @nmax_by_periapsis _ (Num_B64 ref_libm64) rp (b64_Z 7000) (b64_Z 8000) t (b64_Z 398600) in
  less (n (b64_Z 7000) (b64_Z 12300)) (n (b64_Z 6000) (b64_Z 12300)) /\ less (n (b64_Z 6000) (b64_Z 12300)) (n (b64_Z 6000) (b64_Z 40000)).
Proof. vm_compute. split; reflexivity. Qed.

Theorem C101_radius_event : forall (L : libm64) (t t' x0 x1 x2 y0 y1 y2 rmin rmin' : b64) (xs ys : list b64),
  closer x0 y0 -> closer x1 y1 -> closer x2 y2 -> is_finite rmin = true -> is_finite rmin' = true -> leq rmin' rmin ->
  exists a b, @radius_islow _ (Num_B64 L) t (x0 :: x1 :: x2 :: xs) [("rmin"%string, rmin)] = Ok a /\ @radius_islow _ (Num_B64 L) t' (y0 :: y1 :: y2 :: ys) [("rmin"%string, rmin')] = Ok b /\ leq a b.
Proof. exact (fun L => OrdMain.event_mono _ _ _ (near64 L)). Qed.
Print Assumptions C101_radius_event.
Example C101_radius_event_case : exists a b, @radius_islow _ (Num_B64 ref_libm64) (b64_Z 0) [b64_Z 1; b64_Z (-2); b64_Z 2] [("rmin"%string, b64_Z 4)] = Ok a /\
  @radius_islow _ (Num_B64 ref_libm64) (b64_Z 0) [b64_Z (-3); b64_Z 3; b64_Z 2] [("rmin"%string, b64_Z 4)] = Ok b /\ less a zero /\ less zero b.
Proof. eexists. eexists. split; [reflexivity|]. split; [reflexivity|]. vm_compute. split; reflexivity. Qed.

Theorem C101_point_mass : forall (L : libm64) (t t' x0 x1 x2 y0 y1 y2 mu mu' : b64) (xs ys : list b64),
  closer y0 x0 -> closer y1 x1 -> closer y2 x2 -> positive mu -> positive mu' -> leq mu mu' ->
  exists a b, @point_mass_grav _ (Num_B64 L) t (x0 :: x1 :: x2 :: xs) [("mu"%string, mu)] = Ok a /\ @point_mass_grav _ (Num_B64 L) t' (y0 :: y1 :: y2 :: ys) [("mu"%string, mu')] = Ok b /\
    (y0 = x0 -> number (c0 a) -> number (c0 b) -> pulls x0 (c0 a) (c0 b)) /\ (y1 = x1 -> number (c1 a) -> number (c1 b) -> pulls x1 (c1 a) (c1 b)) /\
    (y2 = x2 -> number (c2 a) -> number (c2 b) -> pulls x2 (c2 a) (c2 b)).
Proof. exact (fun L => OrdMain.point_mass_mono _ _ _ (near64 L)). Qed.
Print Assumptions C101_point_mass.
Example C101_point_mass_case : exists a b, @point_mass_grav _ (Num_B64 ref_libm64) (b64_Z 0) [b64_Z 1; b64_Z (-2); b64_Z 2] [("mu"%string, b64_Z 4)] = Ok a /\
  @point_mass_grav _ (Num_B64 ref_libm64) (b64_Z 0) [b64_Z 1; b64_Z 1; b64_Z 2] [("mu"%string, b64_Z 4)] = Ok b /\ less (c0 b) (c0 a) /\ less (c0 a) zero /\ less (c2 b) (c2 a) /\ less zero (c1 a).
Proof. eexists. eexists. split; [reflexivity|]. split; [reflexivity|]. vm_compute. repeat split; reflexivity. Qed.

Theorem C101_apsides_single : forall (L : libm) (p e : b32), positive p -> nonneg e -> leq e (b32_Z 1) ->
  leq (@radius_periapsis _ (Num_B32 L) p e) p /\ leq p (@a_from_pe _ (Num_B32 L) p e) /\ leq (@a_from_pe _ (Num_B32 L) p e) (@radius_apoapsis _ (Num_B32 L) p e).
Proof. exact (fun L => OrdMain.apsides _ _ _ (near32 L)). Qed.
Print Assumptions C101_apsides_single.
Example C101_apsides_single_case : let p := b32_dec 1 10 in let e := b32_dec 1 3 in positive p /\ nonneg e /\ leq e (b32_Z 1) /\
  less (@radius_periapsis _ (Num_B32 ref_libm) p e) p /\ less p (@a_from_pe _ (Num_B32 ref_libm) p e) /\ less (@a_from_pe _ (Num_B32 ref_libm) p e) (@radius_apoapsis _ (Num_B32 ref_libm) p e) /\
  B2SF (@radius_apoapsis _ (Num_B32 ref_libm) p (b32_Z 1)) = SpecFloat.S754_infinity false.
Proof. vm_compute. repeat split; reflexivity. Qed.

Theorem C101_orbit_range_single : forall (L : libm) (p e f : b32), positive p -> nonneg e -> leq (Bopp (b32_Z 1)) (m_cos L f) -> leq (m_cos L f) (b32_Z 1) ->
  (leq e (b32_Z 1) -> leq (@radius_periapsis _ (Num_B32 L) p e) (@equ_of_orbit _ (Num_B32 L) p e f) /\ leq (@equ_of_orbit _ (Num_B32 L) p e f) (@radius_apoapsis _ (Num_B32 L) p e)) /\
  (less zero (@equ_of_orbit _ (Num_B32 L) p e f) -> leq (@radius_periapsis _ (Num_B32 L) p e) (@equ_of_orbit _ (Num_B32 L) p e f)).
Proof. exact (fun L => OrdMain.orbit_range _ _ _ (near32 L)). Qed.
Print Assumptions C101_orbit_range_single.
Example C101_orbit_range_single_case : let p := b32_dec 1 10 in let e := b32_dec 1 3 in let f := b32_Z 2 in positive p /\ nonneg e /\
  leq (Bopp (b32_Z 1)) (m_cos ref_libm f) /\ leq (m_cos ref_libm f) (b32_Z 1) /\
  less (@radius_periapsis _ (Num_B32 ref_libm) p e) (@equ_of_orbit _ (Num_B32 ref_libm) p e f) /\ less (@equ_of_orbit _ (Num_B32 ref_libm) p e f) (@radius_apoapsis _ (Num_B32 ref_libm) p e) /\
  B2SF (@equ_of_orbit _ (Num_B32 ref_libm) p e (b32_Z 0)) = B2SF (@radius_periapsis _ (Num_B32 ref_libm) p e) /\
  less (@equ_of_orbit _ (Num_B32 ref_libm) p (b32_Z 3) f) zero /\ less zero (@equ_of_orbit _ (Num_B32 ref_libm) p (b32_Z 3) (b32_Z 1)).
Proof. vm_compute. repeat split; reflexivity. Qed.

Theorem C101_periapsis_single : forall (L : libm) (p p' e e' : b32), positive p -> positive p' -> nonneg e -> nonneg e' -> leq p p' -> leq e' e ->
  leq (@radius_periapsis _ (Num_B32 L) p e) (@radius_periapsis _ (Num_B32 L) p' e').
Proof. exact (fun L => OrdMain.periapsis_mono _ _ _ (near32 L)). Qed.
Print Assumptions C101_periapsis_single.
Example C101_periapsis_single_case : less (@radius_periapsis _ (Num_B32 ref_libm) (b32_dec 1 10) (b32_Z 2)) (@radius_periapsis _ (Num_B32 ref_libm) (b32_dec 1 9) (b32_dec 1 3)) /\
  positive (b32_dec 1 10) /\ positive (b32_dec 1 9) /\ nonneg (b32_Z 2) /\ nonneg (b32_dec 1 3) /\ less (b32_dec 1 10) (b32_dec 1 9) /\ less (b32_dec 1 3) (b32_Z 2).
Proof. vm_compute. repeat split; reflexivity. Qed.

Theorem C101_apoapsis_single : forall (L : libm) (p p' e e' : b32), positive p -> positive p' -> nonneg e -> nonneg e' -> leq p p' -> leq e e' -> leq e' (b32_Z 1) ->
  leq (@radius_apoapsis _ (Num_B32 L) p e) (@radius_apoapsis _ (Num_B32 L) p' e') /\ leq (@a_from_pe _ (Num_B32 L) p e) (@a_from_pe _ (Num_B32 L) p' e').
Proof. exact (fun L => OrdMain.apoapsis_mono _ _ _ (near32 L)). Qed.
Print Assumptions C101_apoapsis_single.
Example C101_apoapsis_single_case : let e := b32_dec 1 3 in let e' := b32_dec 1 2 in
  less (@radius_apoapsis _ (Num_B32 ref_libm) (b32_Z 7) e) (@radius_apoapsis _ (Num_B32 ref_libm) (b32_Z 7) e') /\ less (@a_from_pe _ (Num_B32 ref_libm) (b32_Z 7) e) (@a_from_pe _ (Num_B32 ref_libm) (b32_Z 7) e') /\ less e e' /\ less e' (b32_Z 1).
Proof. vm_compute. repeat split; reflexivity. Qed.

Theorem C101_semiparameter_ae_single : forall (L : libm) (a a' e e' : b32), nonneg a -> nonneg a' -> nonneg e -> nonneg e' -> leq a a' -> leq e' e -> leq e (b32_Z 1) ->
  leq (@semipara_from_ae _ (Num_B32 L) a e) (@semipara_from_ae _ (Num_B32 L) a' e') /\ leq (@semipara_from_ae _ (Num_B32 L) a e) a.
Proof. exact (fun L => OrdMain.semipara_mono _ _ _ (near32 L)). Qed.
Print Assumptions C101_semiparameter_ae_single.
Example C101_semiparameter_ae_single_case : let e := b32_dec 2 3 in let e' := b32_dec 1 3 in
  less (@semipara_from_ae _ (Num_B32 ref_libm) (b32_Z 7) e) (@semipara_from_ae _ (Num_B32 ref_libm) (b32_Z 7) e') /\ less (@semipara_from_ae _ (Num_B32 ref_libm) (b32_Z 7) e) (b32_Z 7) /\ less e' e.
Proof. vm_compute. repeat split; reflexivity. Qed.

Theorem C101_period_single : forall (L : libm) (a a' mu mu' : b32), positive a -> positive a' -> positive mu -> positive mu' -> leq a a' -> leq mu' mu ->
  leq (@orb_period _ (Num_B32 L) a mu) (@orb_period _ (Num_B32 L) a' mu').
Proof. exact (fun L => OrdMain.period_mono _ _ _ (near32 L)). Qed.
Print Assumptions C101_period_single.
Example C101_period_single_case : less (@orb_period _ (Num_B32 ref_libm) (b32_Z 7000) (b32_Z 398600)) (@orb_period _ (Num_B32 ref_libm) (b32_Z 7001) (b32_Z 398600)) /\
  less (@orb_period _ (Num_B32 ref_libm) (b32_Z 7000) (b32_Z 398700)) (@orb_period _ (Num_B32 ref_libm) (b32_Z 7000) (b32_Z 398600)).
Proof. vm_compute. split; reflexivity. Qed.

Theorem C101_mean_motion_single : forall (L : libm) (P P' : b32), less zero P -> leq P P' -> leq (@mean_motion _ (Num_B32 L) P') (@mean_motion _ (Num_B32 L) P).
Proof. exact (fun L => OrdMain.motion_mono _ _ _ (near32 L)). Qed.
Print Assumptions C101_mean_motion_single.
Example C101_mean_motion_single_case : less (@mean_motion _ (Num_B32 ref_libm) (b32_Z 5829)) (@mean_motion _ (Num_B32 ref_libm) (b32_Z 5828)) /\
  leq (@mean_motion _ (Num_B32 ref_libm) (B754_infinity false)) zero.
Proof. vm_compute. split; reflexivity. Qed.

Theorem C101_a_from_period_single : forall (L : libm) (P P' mu mu' : b32), increasing (m_cbrt L) -> positive P -> positive P' -> positive mu -> positive mu' -> leq P P' -> leq mu mu' ->
  leq (@a_from_period _ (Num_B32 L) P mu) (@a_from_period _ (Num_B32 L) P' mu').
Proof. exact (fun L => OrdMain.axis_mono _ _ _ (near32 L)). Qed.
Print Assumptions C101_a_from_period_single.
Example C101_a_from_period_single_case : less (@a_from_period _ (Num_B32 ref_libm) (b32_Z 5828) (b32_Z 398600)) (@a_from_period _ (Num_B32 ref_libm) (b32_Z 5829) (b32_Z 398601)).
Proof. vm_compute. reflexivity. Qed.
Example C101_a_from_period_single_library : @increasing 24 128 (fun x => x).
Proof. exact (fun x y H => H). Qed.

Theorem C101_semiparameter_single : forall (L : libm) (h h' mu mu' : b32), nonneg h -> nonneg h' -> positive mu -> positive mu' -> leq h h' -> leq mu' mu ->
  leq (@semiparameter _ (Num_B32 L) h mu) (@semiparameter _ (Num_B32 L) h' mu').
Proof. exact (fun L => OrdMain.semiparameter_mono _ _ _ (near32 L)). Qed.
Print Assumptions C101_semiparameter_single.
Example C101_semiparameter_single_case : less (@semiparameter _ (Num_B32 ref_libm) (b32_Z 52822) (b32_Z 398600)) (@semiparameter _ (Num_B32 ref_libm) (b32_Z 52823) (b32_Z 398600)).
Proof. vm_compute. reflexivity. Qed.

Theorem C101_semimajor_axis_single : forall (L : libm) (r r' v v' mu : b32), positive r -> positive r' -> nonneg v -> nonneg v' -> positive mu -> leq r r' -> leq v v' ->
  number (@semimajor_axis _ (Num_B32 L) r v mu) -> less zero (@semimajor_axis _ (Num_B32 L) r' v' mu) -> leq (@semimajor_axis _ (Num_B32 L) r v mu) (@semimajor_axis _ (Num_B32 L) r' v' mu).
Proof. exact (fun L => OrdMain.energy_mono _ _ _ (near32 L)). Qed.
Print Assumptions C101_semimajor_axis_single.
Example C101_semimajor_axis_single_case : let a v := @semimajor_axis _ (Num_B32 ref_libm) (b32_Z 7000) v (b32_Z 398600) in
  less (a (b32_Z 7)) (a (b32_Z 8)) /\ less zero (a (b32_Z 8)) /\ less (a (b32_Z 11)) zero.
Proof. vm_compute. repeat split; reflexivity. Qed.

Theorem C101_mean_anomaly_time_single : forall (L : libm) (a t t' mu : b32), positive a -> positive mu -> is_finite t = true -> is_finite t' = true -> leq t t' ->
  number (@mean_anomaly_elps _ (Num_B32 L) a t mu) -> number (@mean_anomaly_elps _ (Num_B32 L) a t' mu) -> leq (@mean_anomaly_elps _ (Num_B32 L) a t mu) (@mean_anomaly_elps _ (Num_B32 L) a t' mu).
Proof. exact (fun L => OrdMain.anomaly_time_mono _ _ _ (near32 L)). Qed.
Print Assumptions C101_mean_anomaly_time_single.
Example C101_mean_anomaly_time_single_case : let m t := @mean_anomaly_elps _ (Num_B32 ref_libm) (b32_Z 7000) t (b32_Z 398600) in less (m (b32_Z (-5))) (m (b32_Z 3)) /\ less (m (b32_Z (-5))) zero.
Proof. vm_compute. split; reflexivity. Qed.

Theorem C101_mean_anomaly_size_single : forall (L : libm) (a a' t mu mu' : b32), positive a -> positive a' -> positive mu -> positive mu' -> positive t -> leq a a' -> leq mu' mu ->
  leq (@mean_anomaly_elps _ (Num_B32 L) a' t mu') (@mean_anomaly_elps _ (Num_B32 L) a t mu).
Proof. exact (fun L => OrdMain.anomaly_size_mono _ _ _ (near32 L)). Qed.
Print Assumptions C101_mean_anomaly_size_single.
Example C101_mean_anomaly_size_single_case : less (@mean_anomaly_elps _ (Num_B32 ref_libm) (b32_Z 7001) (b32_Z 60) (b32_Z 398600)) (@mean_anomaly_elps _ (Num_B32 ref_libm) (b32_Z 7000) (b32_Z 60) (b32_Z 398600)).
Proof. vm_compute. reflexivity. Qed.

Theorem C101_residuals_single : forall (L : libm) (x e m m' : b32), leq m m' ->
  (number (@kepler_equ_elps _ (Num_B32 L) x e m) -> number (@kepler_equ_elps _ (Num_B32 L) x e m') -> leq (@kepler_equ_elps _ (Num_B32 L) x e m') (@kepler_equ_elps _ (Num_B32 L) x e m)) /\
  (number (@kepler_equ_hypb _ (Num_B32 L) x e m) -> number (@kepler_equ_hypb _ (Num_B32 L) x e m') -> leq (@kepler_equ_hypb _ (Num_B32 L) x e m') (@kepler_equ_hypb _ (Num_B32 L) x e m)).
Proof. exact (fun L => OrdMain.residuals_mono _ _ _ (near32 L)). Qed.
Print Assumptions C101_residuals_single.
Example C101_residuals_single_case : let k m := @kepler_equ_elps _ (Num_B32 ref_libm) (b32_Z 1) (b32_dec 1 2) m in let h m := @kepler_equ_hypb _ (Num_B32 ref_libm) (b32_Z 1) (b32_Z 2) m in
  less (k (b32_Z 2)) (k (b32_Z 1)) /\ less (h (b32_Z 2)) (h (b32_Z 1)).
Proof. vm_compute. split; reflexivity. Qed.

Theorem C101_residual_universal_single : forall (L : libm) (chi alpha r0 sigma0 t t' mu : b32), positive mu -> is_finite t = true -> is_finite t' = true -> leq t t' ->
  number (@kepler_equ_uni _ (Num_B32 L) chi alpha r0 sigma0 t mu) -> number (@kepler_equ_uni _ (Num_B32 L) chi alpha r0 sigma0 t' mu) ->
  leq (@kepler_equ_uni _ (Num_B32 L) chi alpha r0 sigma0 t' mu) (@kepler_equ_uni _ (Num_B32 L) chi alpha r0 sigma0 t mu).
Proof. exact (fun L => OrdMain.residual_uni_mono _ _ _ (near32 L)). Qed.
Print Assumptions C101_residual_universal_single.
Example C101_residual_universal_single_case : let k t := @kepler_equ_uni _ (Num_B32 ref_libm) (b32_Z 1) (b32_dec 1 2) (b32_Z 1) (b32_dec 1 4) t (b32_Z 1) in less (k (b32_Z 2)) (k (b32_Z 1)).
Proof. vm_compute. reflexivity. Qed.

Theorem C101_below_minimum_single : forall (L : libm) (rmin rmin' mu : b32) (r v : V3 b32), leq rmin rmin' ->
  @rp_islower_rmin _ (Num_B32 L) rmin r v mu = true -> @rp_islower_rmin _ (Num_B32 L) rmin' r v mu = true.
Proof. exact (fun L => OrdMain.lower_mono _ _ _ (near32 L)). Qed.
Print Assumptions C101_below_minimum_single.
Example C101_below_minimum_single_case : let f m := @rp_islower_rmin _ (Num_B32 ref_libm) m (mk3 (b32_Z 7000) (b32_Z 0) (b32_Z 0)) (mk3 (b32_Z 0) (b32_Z 7) (b32_Z 0)) (b32_Z 398600) in f (b32_Z 5000) = false /\ f (b32_Z 6000) = true.
Proof. vm_compute. split; reflexivity. Qed.

Theorem C101_revolutions_single : forall (L : libm) (rp rp' r1 r1' r2 r2' t t' mu mu' : b32),
  positive rp -> positive rp' -> positive r1 -> positive r1' -> positive r2 -> positive r2' -> positive t -> positive t' -> positive mu -> positive mu' ->
  leq rp' rp -> leq r1' r1 -> leq r2' r2 -> leq t t' -> leq mu mu' ->
  number (@nmax_by_periapsis _ (Num_B32 L) rp r1 r2 t mu) -> number (@nmax_by_periapsis _ (Num_B32 L) rp' r1' r2' t' mu') ->
  leq (@nmax_by_periapsis _ (Num_B32 L) rp r1 r2 t mu) (@nmax_by_periapsis _ (Num_B32 L) rp' r1' r2' t' mu').
Proof. exact (fun L => OrdMain.nmax_mono _ _ _ (near32 L)). Qed.
Print Assumptions C101_revolutions_single.
Example C101_revolutions_single_case : let n rp t := @nmax_by_periapsis _ (Num_B32 ref_libm) rp (b32_Z 7000) (b32_Z 8000) t (b32_Z 398600) in
  less (n (b32_Z 7000) (b32_Z 12300)) (n (b32_Z 6000) (b32_Z 12300)) /\ less (n (b32_Z 6000) (b32_Z 12300)) (n (b32_Z 6000) (b32_Z 40000)).
Proof. vm_compute. split; reflexivity. Qed.

Theorem C101_radius_event_single : forall (L : libm) (t t' x0 x1 x2 y0 y1 y2 rmin rmin' : b32) (xs ys : list b32),
  closer x0 y0 -> closer x1 y1 -> closer x2 y2 -> is_finite rmin = true -> is_finite rmin' = true -> leq rmin' rmin ->
  exists a b, @radius_islow _ (Num_B32 L) t (x0 :: x1 :: x2 :: xs) [("rmin"%string, rmin)] = Ok a /\ @radius_islow _ (Num_B32 L) t' (y0 :: y1 :: y2 :: ys) [("rmin"%string, rmin')] = Ok b /\ leq a b.
Proof. exact (fun L => OrdMain.event_mono _ _ _ (near32 L)). Qed.
Print Assumptions C101_radius_event_single.
Example C101_radius_event_single_case : exists a b, @radius_islow _ (Num_B32 ref_libm) (b32_Z 0) [b32_Z 1; b32_Z (-2); b32_Z 2] [("rmin"%string, b32_Z 4)] = Ok a /\
  @radius_islow _ (Num_B32 ref_libm) (b32_Z 0) [b32_Z (-3); b32_Z 3; b32_Z 2] [("rmin"%string, b32_Z 4)] = Ok b /\ less a zero /\ less zero b.
Proof. eexists. eexists. split; [reflexivity|]. split; [reflexivity|]. vm_compute. split; reflexivity. Qed.

Theorem C101_point_mass_single : forall (L : libm) (t t' x0 x1 x2 y0 y1 y2 mu mu' : b32) (xs ys : list b32),
  closer y0 x0 -> closer y1 x1 -> closer y2 x2 -> positive mu -> positive mu' -> leq mu mu' ->
  exists a b, @point_mass_grav _ (Num_B32 L) t (x0 :: x1 :: x2 :: xs) [("mu"%string, mu)] = Ok a /\ @point_mass_grav _ (Num_B32 L) t' (y0 :: y1 :: y2 :: ys) [("mu"%string, mu')] = Ok b /\
    (y0 = x0 -> number (c0 a) -> number (c0 b) -> pulls x0 (c0 a) (c0 b)) /\ (y1 = x1 -> number (c1 a) -> number (c1 b) -> pulls x1 (c1 a) (c1 b)) /\
    (y2 = x2 -> number (c2 a) -> number (c2 b) -> pulls x2 (c2 a) (c2 b)).
Proof. exact (fun L => OrdMain.point_mass_mono _ _ _ (near32 L)). Qed.
Print Assumptions C101_point_mass_single.
Example C101_point_mass_single_case : exists a b, @point_mass_grav _ (Num_B32 ref_libm) (b32_Z 0) [b32_Z 1; b32_Z (-2); b32_Z 2] [("mu"%string, b32_Z 4)] = Ok a /\
  @point_mass_grav _ (Num_B32 ref_libm) (b32_Z 0) [b32_Z 1; b32_Z 1; b32_Z 2] [("mu"%string, b32_Z 4)] = Ok b /\ less (c0 b) (c0 a) /\ less (c0 a) zero /\ less (c2 b) (c2 a) /\ less zero (c1 a).
Proof. eexists. eexists. split; [reflexivity|]. split; [reflexivity|]. vm_compute. repeat split; reflexivity. Qed.
