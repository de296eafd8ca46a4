(** * SpecFlAng: how the rounding properties measure angles. *)
From Coq Require Import ZArith Reals.
From Flocq Require Import Core IEEE754.BinarySingleNaN.
From Verif Require Import NumB32 NumB64.
Local Open Scope R_scope.

(** the vector of length [q] in the direction of the angle [g] is within [C] units of [m] of (x, y) *)
Definition polar32 (C m q : R) (g : b32) (x y : R) : Prop :=
  is_finite g = true /\
  Rabs (q * cos (B2R g) - x) <= C * / IZR (2 ^ 24) * m /\ Rabs (q * sin (B2R g) - y) <= C * / IZR (2 ^ 24) * m.
Definition polar64 (C m q : R) (g : b64) (x y : R) : Prop :=
  is_finite g = true /\
  Rabs (q * cos (B2R g) - x) <= C * / IZR (2 ^ 53) * m /\ Rabs (q * sin (B2R g) - y) <= C * / IZR (2 ^ 53) * m.

(** a math library whose arctan2 and arccos are off by at most [c] units of roundoff; arctan2(0, 0) may be anything,
    and the sign of a zero may decide between pi and -pi *)
Definition inverse32 (L : libm) (c : nat) : Prop :=
  (forall y x : b32, is_finite y = true -> is_finite x = true -> let q := sqrt (B2R x ^ 2 + B2R y ^ 2) in
    - B2R b32_pi <= B2R (m_arctan2 L y x) <= B2R b32_pi /\ polar32 (INR c) q q (m_arctan2 L y x) (B2R x) (B2R y)) /\
  (forall x : b32, is_finite x = true -> Rabs (B2R x) <= 1 -> is_finite (m_arccos L x) = true /\
    0 <= B2R (m_arccos L x) <= B2R b32_pi /\ Rabs (cos (B2R (m_arccos L x)) - B2R x) <= INR c * / IZR (2 ^ 24)).
Definition inverse64 (L : libm64) (c : nat) : Prop :=
  (forall y x : b64, is_finite y = true -> is_finite x = true -> let q := sqrt (B2R x ^ 2 + B2R y ^ 2) in
    - B2R b64_pi <= B2R (d_arctan2 L y x) <= B2R b64_pi /\ polar64 (INR c) q q (d_arctan2 L y x) (B2R x) (B2R y)) /\
  (forall x : b64, is_finite x = true -> Rabs (B2R x) <= 1 -> is_finite (d_arccos L x) = true /\
    0 <= B2R (d_arccos L x) <= B2R b64_pi /\ Rabs (cos (B2R (d_arccos L x)) - B2R x) <= INR c * / IZR (2 ^ 53)).
