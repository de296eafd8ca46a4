(** * Property C102: the angles of rv2coe against the true pi

    Theorems only; proofs are in [AngRange].  [leq] is the comparison of the hardware. *)
From Coq Require Import ZArith Reals Bool.
From Flocq Require Import Core IEEE754.BinarySingleNaN.
From Verif Require Import Num NumB32 NumB64 SpecOrd SpecRange OrbElements RangeExamples.
From Verif Require AngRange.
Import AngRange.
Local Open Scope R_scope.

Theorem C102_angles : forall (L : libm64) (r v : V3 b64) (mu : b64), turns64 L -> let k := @rv2coe _ (Num_B64 L) r v mu in
  (number (coe_raan k) -> is_finite (coe_raan k) = true /\ 0 <= B2R (coe_raan k) < 2 * PI) /\
  (number (coe_argp k) -> is_finite (coe_argp k) = true /\ 0 <= B2R (coe_argp k) < 2 * PI) /\
  (number (coe_f k) -> is_finite (coe_f k) = true /\ 0 <= B2R (coe_f k) < 2 * PI).
Proof. exact AngRange.angles_double. Qed.
Print Assumptions C102_angles.
(** a node at about 315 degrees *)
Example C102_angles_case : turns64 range_libm64 /\ let k := @rv2coe _ (Num_B64 range_libm64) (mk3 (b64_Z 1) (b64_Z (-1)) (b64_Z 0)) (mk3 (b64_Z 1) (b64_Z 2) (b64_Z 1)) (b64_Z 10) in
  number (coe_raan k) /\ leq (b64_Z 5) (coe_raan k) /\ number (coe_argp k) /\ number (coe_f k).
Proof. split; [exact (proj1 range64)|]. vm_compute. repeat split; reflexivity. Qed.

Theorem C102_inclination : forall (L : libm64) (r v : V3 b64) (mu : b64), halfturns64 L -> let g := coe_incl (@rv2coe _ (Num_B64 L) r v mu) in
  number g -> is_finite g = true /\ 0 <= B2R g < PI.
Proof. exact AngRange.inclination_double. Qed.
Print Assumptions C102_inclination.
Example C102_inclination_case : halfturns64 range_libm64 /\ let g := coe_incl (@rv2coe _ (Num_B64 range_libm64) (mk3 (b64_Z 1) (b64_Z 0) (b64_Z 0)) (mk3 (b64_Z 0) (b64_Z (-1)) (b64_Z 1)) (b64_Z 1)) in
  number g /\ leq (b64_Z 2) g.
Proof. split; [exact (proj2 range64)|]. vm_compute. split; reflexivity. Qed.

(** in single precision the rounded pi lies above pi *)
Theorem C102_angles_single : forall (L : libm) (r v : V3 b32) (mu : b32), turns32 L -> let k := @rv2coe _ (Num_B32 L) r v mu in
  (number (coe_raan k) -> is_finite (coe_raan k) = true /\ 0 <= B2R (coe_raan k) <= 13176795 / 2097152) /\
  (number (coe_argp k) -> is_finite (coe_argp k) = true /\ 0 <= B2R (coe_argp k) <= 13176795 / 2097152) /\
  (number (coe_f k) -> is_finite (coe_f k) = true /\ 0 <= B2R (coe_f k) <= 13176795 / 2097152).
Proof. exact AngRange.angles_single. Qed.
Print Assumptions C102_angles_single.
Example C102_angles_single_case : turns32 range_libm32 /\ let k := @rv2coe _ (Num_B32 range_libm32) (mk3 (b32_Z 1) (b32_Z (-1)) (b32_Z 0)) (mk3 (b32_Z 1) (b32_Z 2) (b32_Z 1)) (b32_Z 10) in
  number (coe_raan k) /\ leq (b32_Z 5) (coe_raan k) /\ number (coe_argp k) /\ number (coe_f k).
Proof. split; [exact (proj1 range32)|]. vm_compute. repeat split; reflexivity. Qed.

Theorem C102_right_ascension_single : forall (L : libm) (n : V3 b32), turns32 L -> number (@right_ascension _ (Num_B32 L) n) ->
  (2 * PI <= B2R (@right_ascension _ (Num_B32 L) n) <-> - / 4194304 < B2R (m_arctan2 L (c1 n) (c0 n)) < 0).
Proof. exact AngRange.ascension_single. Qed.
Print Assumptions C102_right_ascension_single.
Example C102_right_ascension_single_case : turns32 range_libm32 /\ let a := m_arctan2 range_libm32 (b32_dec (-1) 5000000) (b32_Z 1) in
  less a zero /\ less (b32_dec (-1) 4194304) a /\ number (@right_ascension _ (Num_B32 range_libm32) (mk3 (b32_Z 1) (b32_dec (-1) 5000000) (b32_Z 0))).
Proof. split; [exact (proj1 range32)|]. vm_compute. repeat split; reflexivity. Qed.

(** r = (1, -2^-30, 0), v = (0, 1, 1) with arctan2(-2^-30, 1) rounded correctly; r = (1, 0, 0), v = (0, -1, 0) with arccos(-1) rounded correctly *)
Theorem C102_single_refuted :
  (forall L : libm, m_arctan2 L hair32 (b32_Z 1) = hair32 -> 2 * PI < B2R (coe_raan (@rv2coe _ (Num_B32 L) low_r low_v (b32_Z 1)))) /\
  (forall L : libm, m_arccos L (b32_Z (-1)) = b32_pi -> PI < B2R (coe_incl (@rv2coe _ (Num_B32 L) back_r back_v (b32_Z 1)))).
Proof. exact (conj AngRange.ascension_over AngRange.inclination_over). Qed.
Print Assumptions C102_single_refuted.
Example C102_single_refuted_case : B2SF hair32 = SpecFloat.S754_finite true 8388608 (-53) /\
  (exists L : libm, m_arctan2 L hair32 (b32_Z 1) = hair32 /\ m_arccos L (b32_Z (-1)) = b32_pi).
Proof.
  split; [vm_compute; reflexivity|].
  exists {| m_cbrt := fun x => x; m_sin := fun x => x; m_cos := fun x => x; m_sinh := fun x => x; m_cosh := fun x => x; m_log := fun x => x; m_arccos := fun _ => b32_pi; m_arctan2 := fun y _ => y |}.
  split; reflexivity.
Qed.
