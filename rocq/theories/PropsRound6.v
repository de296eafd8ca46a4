(** * Properties C92 and C93: axis from period, rotation matrices and radius event, in floating point

    Theorems only; proofs are in [B64Per], [B32Per], [PerExamples], [B64Ev], [B32Ev] and [EvExamples].  The [_single] theorems are
    about single precision, the others about double precision (jax_enable_x64). *)
From Coq Require Import ZArith Reals Lra Bool List String.
From Flocq Require Import Core IEEE754.BinarySingleNaN.
From Verif Require Import Num NumB32 NumB64 NumJ NumR Spec SpecGrav SpecFl SpecFl32 SpecFl64 SpecFlV SpecFlStm SpecFlPer.
From Verif Require Import OrbIntegrals RotMat Gravity PerExamples EvExamples.
From Verif Require B32Per B64Per B32Ev B64Ev.
Import ListNotations.
Local Open Scope R_scope.

(** ** C92 *)
(** a_from_period against the axis with 4 pi^2 a^3 = mu P^2 *)
Theorem C92_axis : forall (L : libm64) (c : nat), cube_root64 L c -> (c <= 100)%nat ->
  forall P mu : b64, good64 300 P -> good64 300 mu -> 0 < B2R P -> 0 < B2R mu ->
  forall a : R, 0 < a -> 4 * PI ^ 2 * a ^ 3 = B2R mu * B2R P ^ 2 ->
  off64 (INR c + 5) a (@a_from_period _ (Num_B64 L) P mu) a.
Proof. exact B64Per.axis_ok. Qed.
Print Assumptions C92_axis.

Theorem C92_axis_single : forall (L : libm) (c : nat), cube_root32 L c -> (c <= 100)%nat ->
  forall P mu : b32, good32 30 P -> good32 50 mu -> 0 < B2R P -> 0 < B2R mu ->
  forall a : R, 0 < a -> 4 * PI ^ 2 * a ^ 3 = B2R mu * B2R P ^ 2 ->
  off (INR c + 5) a (@a_from_period _ (Num_B32 L) P mu) a.
Proof. exact B32Per.axis_ok. Qed.
Print Assumptions C92_axis_single.

(** single precision arrays, with jnp.pi**2 computed by Python in double precision and then rounded *)
Theorem C92_axis_python : forall (L : libm) (c : nat), cube_root32 L c -> (c <= 100)%nat ->
  forall P mu : b32, good32 30 P -> good32 50 mu -> 0 < B2R P -> 0 < B2R mu ->
  forall a : R, 0 < a -> 4 * PI ^ 2 * a ^ 3 = B2R mu * B2R P ^ 2 ->
  exists g : b32, @a_from_period _ (Num_J L) (F32 P) (F32 mu) = F32 g /\ off (INR c + 5) a g a.
Proof. exact axis_python. Qed.
Print Assumptions C92_axis_python.

(** from an axis to the period and back *)
Theorem C92_round_trip : forall (L : libm64) (c : nat), cube_root64 L c -> (c <= 100)%nat ->
  forall a mu : b64, good64 300 a -> good64 300 mu -> 0 < B2R a -> 0 < B2R mu -> in_range 550 (B2R a ^ 3 / B2R mu) ->
  off64 (INR c + 9) (B2R a) (@a_from_period _ (Num_B64 L) (@orb_period _ (Num_B64 L) a mu) mu) (B2R a).
Proof. exact B64Per.trip_ok. Qed.
Print Assumptions C92_round_trip.

Theorem C92_round_trip_single : forall (L : libm) (c : nat), cube_root32 L c -> (c <= 100)%nat ->
  forall a mu : b32, good32 40 a -> good32 50 mu -> 0 < B2R a -> 0 < B2R mu -> in_range 54 (B2R a ^ 3 / B2R mu) ->
  off (INR c + 9) (B2R a) (@a_from_period _ (Num_B32 L) (@orb_period _ (Num_B32 L) a mu) mu) (B2R a).
Proof. exact B32Per.trip_ok. Qed.
Print Assumptions C92_round_trip_single.

(** a library with a correctly rounded cube root *)
Example C92_library : cube_root64 cbrt_libm64 1 /\ cube_root32 cbrt_libm32 1.
Proof. exact (conj cbrt_libm64_ok cbrt_libm32_ok). Qed.
(** period 2 with mu = 1 *)
Example C92_period_two : forall (a : R), 0 < a -> PI ^ 2 * a ^ 3 = 1 ->
  off64 6 a (@a_from_period _ (Num_B64 cbrt_libm64) (b64_Z 2) (b64_Z 1)) a /\ off 6 a (@a_from_period _ (Num_B32 cbrt_libm32) (b32_Z 2) (b32_Z 1)) a /\
  exists g : b32, @a_from_period _ (Num_J cbrt_libm32) (F32 (b32_Z 2)) (F32 (b32_Z 1)) = F32 g /\ off 6 a g a.
Proof. exact axis_ex. Qed.
(** 7000 km around the Earth *)
Example C92_low_orbit : off64 10 7000 (@a_from_period _ (Num_B64 cbrt_libm64) (@orb_period _ (Num_B64 cbrt_libm64) (b64_Z 7000) (b64_Z 398600)) (b64_Z 398600)) 7000.
Proof. exact trip64_ex. Qed.
Example C92_low_orbit_single : off 10 7000 (@a_from_period _ (Num_B32 cbrt_libm32) (@orb_period _ (Num_B32 cbrt_libm32) (b32_Z 7000) (b32_Z 398600)) (b32_Z 398600)) 7000.
Proof. exact trip32_ex. Qed.

(** ** C93 *)
(** the rotation matrices *)
Theorem C93_rotations : forall (L : libm64) (c : nat) (T S : R), trig64 L c T S -> forall a : b64, is_finite a = true -> Rabs (B2R a) <= T ->
  let C := cos (B2R a) in let s := sin (B2R a) in
  off64m (INR c) 1 (@rotmat3dx _ (Num_B64 L) a) (mk3 (mk3 1 0 0) (mk3 0 C (- s)) (mk3 0 s C)) /\
  off64m (INR c) 1 (@rotmat3dy _ (Num_B64 L) a) (mk3 (mk3 C 0 s) (mk3 0 1 0) (mk3 (- s) 0 C)) /\
  off64m (INR c) 1 (@rotmat3dz _ (Num_B64 L) a) (mk3 (mk3 C (- s) 0) (mk3 s C 0) (mk3 0 0 1)).
Proof. exact B64Ev.rot_ok. Qed.
Print Assumptions C93_rotations.

Theorem C93_rotations_single : forall (L : libm) (c : nat) (T S : R), trig32 L c T S -> forall a : b32, is_finite a = true -> Rabs (B2R a) <= T ->
  let C := cos (B2R a) in let s := sin (B2R a) in
  off32m (INR c) 1 (@rotmat3dx _ (Num_B32 L) a) (mk3 (mk3 1 0 0) (mk3 0 C (- s)) (mk3 0 s C)) /\
  off32m (INR c) 1 (@rotmat3dy _ (Num_B32 L) a) (mk3 (mk3 C 0 s) (mk3 0 1 0) (mk3 (- s) 0 C)) /\
  off32m (INR c) 1 (@rotmat3dz _ (Num_B32 L) a) (mk3 (mk3 C (- s) 0) (mk3 s C 0) (mk3 0 0 1)).
Proof. exact B32Ev.rot_ok. Qed.
Print Assumptions C93_rotations_single.

(** the radius event: its value, and its sign away from the radius rmin *)
Theorem C93_radius_event : forall (L : libm64) (t : b64) (r : V3 b64) (rest : list b64) (args : list (string * b64)) (rmin : b64),   good64v 100 r -> good64 100 rmin -> get "rmin" args = Some rmin ->
  exists d, @radius_islow _ (Num_B64 L) t (c0 r :: c1 r :: c2 r :: rest) args = Ok d /\
    let q := vnorm (real64 r) in let m := B2R rmin in let u := / IZR (2 ^ 53) in
    off64 6 (q + Rabs m) d (q - m) /\ (q + 4 * u * q < m -> B2R d < 0) /\ (m < q - 4 * u * q -> 0 < B2R d).
Proof. exact B64Ev.event_ok. Qed.
Print Assumptions C93_radius_event.

Theorem C93_radius_event_single : forall (L : libm) (t : b32) (r : V3 b32) (rest : list b32) (args : list (string * b32)) (rmin : b32),   good32v 17 r -> good32 17 rmin -> get "rmin" args = Some rmin ->
  exists d, @radius_islow _ (Num_B32 L) t (c0 r :: c1 r :: c2 r :: rest) args = Ok d /\
    let q := vnorm (real32 r) in let m := B2R rmin in let u := / IZR (2 ^ 24) in
    off 6 (q + Rabs m) d (q - m) /\ (q + 4 * u * q < m -> B2R d < 0) /\ (m < q - 4 * u * q -> 0 < B2R d).
Proof. exact B32Ev.event_ok. Qed.
Print Assumptions C93_radius_event_single.

(** radius 5 with rmin = 6 *)
Example C93_below : forall (L : libm64), exists d, @radius_islow _ (Num_B64 L) (b64_Z 0) [b64_Z 3; b64_Z 0; b64_Z 4; b64_Z 1] [("rmin"%string, b64_Z 6)] = Ok d /\
  off64 6 11 d (-1) /\ B2R d < 0.
Proof. exact event64_ex. Qed.
Example C93_below_single : forall (L : libm), exists d, @radius_islow _ (Num_B32 L) (b32_Z 0) [b32_Z 3; b32_Z 0; b32_Z 4; b32_Z 1] [("rmin"%string, b32_Z 6)] = Ok d /\
  off 6 11 d (-1) /\ B2R d < 0.
Proof. exact event32_ex. Qed.
(** a turn of one radian about the z axis *)
Example C93_one_radian : exists L : libm64,
  off64m 6 1 (@rotmat3dz _ (Num_B64 L) (b64_Z 1)) (mk3 (mk3 (cos 1) (- sin 1) 0) (mk3 (sin 1) (cos 1) 0) (mk3 0 0 1)).
Proof. exact rot64_ex. Qed.
Example C93_one_radian_single : exists L : libm,
  off32m 6 1 (@rotmat3dz _ (Num_B32 L) (b32_Z 1)) (mk3 (mk3 (cos 1) (- sin 1) 0) (mk3 (sin 1) (cos 1) 0) (mk3 0 0 1)).
Proof. exact rot32_ex. Qed.
