(** * SpecRange: what a library promises about inverse trigonometric functions. *)
From Coq Require Import ZArith Reals.
From Flocq Require Import Core IEEE754.BinarySingleNaN.
From Verif Require Import NumB32 NumB64 SpecOrd.

(** values are NaN or between minus and plus the rounded pi; between 0 and the rounded pi *)
Definition turns64 (L : libm64) : Prop := forall y x, number (d_arctan2 L y x) -> leq (Bopp b64_pi) (d_arctan2 L y x) /\ leq (d_arctan2 L y x) b64_pi.
Definition turns32 (L : libm) : Prop := forall y x, number (m_arctan2 L y x) -> leq (Bopp b32_pi) (m_arctan2 L y x) /\ leq (m_arctan2 L y x) b32_pi.
Definition halfturns64 (L : libm64) : Prop := forall x, number (d_arccos L x) -> leq zero (d_arccos L x) /\ leq (d_arccos L x) b64_pi.
Definition halfturns32 (L : libm) : Prop := forall x, number (m_arccos L x) -> leq zero (m_arccos L x) /\ leq (m_arccos L x) b32_pi.
