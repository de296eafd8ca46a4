(** * SpecFlV: vectors of floats, for the rounding properties. *)
From Coq Require Import ZArith Reals.
From Flocq Require Import Core IEEE754.BinarySingleNaN.
From Verif Require Import Num NumB32 NumB64 Spec SpecFl SpecFl32 SpecFl64.
Local Open Scope R_scope.

(** the real vector a vector of floats stands for *)
Definition real32 (a : V3 b32) : vec := mk3 (B2R (c0 a)) (B2R (c1 a)) (B2R (c2 a)).
Definition real64 (a : V3 b64) : vec := mk3 (B2R (c0 a)) (B2R (c1 a)) (B2R (c2 a)).

(** finite, and zero or of size between 2^-e and 2^e *)
Definition good32 (e : Z) (x : b32) : Prop := is_finite x = true /\ in_range e (B2R x).
Definition good64 (e : Z) (x : b64) : Prop := is_finite x = true /\ in_range e (B2R x).

(** finite, and of length zero or between 2^-e and 2^e *)
Definition good32v (e : Z) (a : V3 b32) : Prop :=
  (is_finite (c0 a) = true /\ is_finite (c1 a) = true /\ is_finite (c2 a) = true) /\ in_range e (vnorm (real32 a)).
Definition good64v (e : Z) (a : V3 b64) : Prop :=
  (is_finite (c0 a) = true /\ is_finite (c1 a) = true /\ is_finite (c2 a) = true) /\ in_range e (vnorm (real64 a)).

(** every component of a computed vector within [C] units of [m] of the component of [v] *)
Definition off32v (C m : R) (g : V3 b32) (v : vec) : Prop :=
  off C m (c0 g) (c0 v) /\ off C m (c1 g) (c1 v) /\ off C m (c2 g) (c2 v).
Definition off64v (C m : R) (g : V3 b64) (v : vec) : Prop :=
  off64 C m (c0 g) (c0 v) /\ off64 C m (c1 g) (c1 v) /\ off64 C m (c2 g) (c2 v).

(** the eccentricity (Laplace-Runge-Lenz) vector of a state *)
Definition laplace (mu : R) (r v : vec) : vec := vminus (smul (/ mu) (cross v (cross r v))) (smul (/ vnorm r) r).

(** position and velocity of the classical elements, in closed form *)
Definition elements_position (p e i O w f : R) : vec :=
  smul (p / (1 + e * cos f))
    (mk3 (cos O * cos (w + f) - sin O * sin (w + f) * cos i)
         (sin O * cos (w + f) + cos O * sin (w + f) * cos i)
         (sin (w + f) * sin i)).
Definition elements_velocity (p e i O w f mu : R) : vec :=
  smul (sqrt (mu / p))
    (mk3 (- cos O * (sin (w + f) + e * sin w) - sin O * (cos (w + f) + e * cos w) * cos i)
         (- sin O * (sin (w + f) + e * sin w) + cos O * (cos (w + f) + e * cos w) * cos i)
         ((cos (w + f) + e * cos w) * sin i)).

(** how much the argument [sqrt |alpha| * chi] of sin, cos, sinh and cosh can amplify an error *)
Definition spread (chi alpha : R) : R :=
  let th := sqrt (Rabs alpha) * Rabs chi in (1 + th) * (if Rlt_dec alpha 0 then cosh th else 1).

(** a math library whose sin and cos are off by at most [c] units of roundoff up to the argument [t], and whose
    sinh and cosh are off by at most [c] units relative to cosh up to the argument [s] *)
Definition trig32 (L : libm) (c : nat) (t s : R) : Prop :=
  (forall x : b32, is_finite x = true -> Rabs (B2R x) <= t ->
    off (INR c) 1 (m_sin L x) (sin (B2R x)) /\ off (INR c) 1 (m_cos L x) (cos (B2R x))) /\
  (forall x : b32, is_finite x = true -> Rabs (B2R x) <= s ->
    off (INR c) (cosh (B2R x)) (m_sinh L x) (sinh (B2R x)) /\ off (INR c) (cosh (B2R x)) (m_cosh L x) (cosh (B2R x))).
Definition trig64 (L : libm64) (c : nat) (t s : R) : Prop :=
  (forall x : b64, is_finite x = true -> Rabs (B2R x) <= t ->
    off64 (INR c) 1 (d_sin L x) (sin (B2R x)) /\ off64 (INR c) 1 (d_cos L x) (cos (B2R x))) /\
  (forall x : b64, is_finite x = true -> Rabs (B2R x) <= s ->
    off64 (INR c) (cosh (B2R x)) (d_sinh L x) (sinh (B2R x)) /\ off64 (INR c) (cosh (B2R x)) (d_cosh L x) (cosh (B2R x))).

(** the scale of the n-th universal function's rounding error *)
Definition uf_size (n : nat) (chi alpha : R) : R :=
  if Req_EM_T alpha 0 then Rabs chi ^ n / INR (fact n) else 2 * spread chi alpha / sqrt (Rabs alpha) ^ n.

(** the state at the universal anomaly [chi]: the Lagrange coefficients applied to the initial state *)
Definition lagrange_state (chi alpha s0 r0 mu : R) (x v : vec) : vec * vec :=
  let U n := universal n chi alpha in
  let r := r0 * U 0%nat + s0 * U 1%nat + U 2%nat in
  (vplus (smul (1 - U 2%nat / r0) x) (smul ((r0 * U 1%nat + s0 * U 2%nat) / sqrt mu) v),
   vplus (smul (- (sqrt mu * U 1%nat / (r * r0))) x) (smul (1 - U 2%nat / r) v)).
