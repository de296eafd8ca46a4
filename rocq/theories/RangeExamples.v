(** * RangeExamples: libraries whose angles are in range, for the examples of C102 *)
From Coq Require Import ZArith Reals Bool.
From Flocq Require Import Core IEEE754.BinarySingleNaN.
From Verif Require Import Num NumB32 NumB64 LibmRef LibmRef64 SpecOrd SpecRange.

Definition guard64 (lo g : b64) : b64 := if Bleb lo g && Bleb g b64_pi then g else B754_nan.
Definition guard32 (lo g : b32) : b32 := if Bleb lo g && Bleb g b32_pi then g else B754_nan.
Definition range_libm64 : libm64 := {|
  d_cbrt := d_cbrt ref_libm64; d_sin := d_sin ref_libm64; d_cos := d_cos ref_libm64; d_sinh := d_sinh ref_libm64; d_cosh := d_cosh ref_libm64; d_log := d_log ref_libm64;
  d_arccos := fun x => guard64 zero (d_arccos ref_libm64 x); d_arctan2 := fun y x => guard64 (Bopp b64_pi) (d_arctan2 ref_libm64 y x) |}.
Definition range_libm32 : libm := {|
  m_cbrt := m_cbrt ref_libm; m_sin := m_sin ref_libm; m_cos := m_cos ref_libm; m_sinh := m_sinh ref_libm; m_cosh := m_cosh ref_libm; m_log := m_log ref_libm;
  m_arccos := fun x => guard32 zero (m_arccos ref_libm x); m_arctan2 := fun y x => guard32 (Bopp b32_pi) (m_arctan2 ref_libm y x) |}.
Lemma guard64_ok (lo g : b64) : number (guard64 lo g) -> leq lo (guard64 lo g) /\ leq (guard64 lo g) b64_pi.
Proof. unfold guard64. destruct (Bleb lo g && Bleb g b64_pi) eqn:E; [|discriminate]. intros _. now apply andb_true_iff in E. Qed.
Lemma guard32_ok (lo g : b32) : number (guard32 lo g) -> leq lo (guard32 lo g) /\ leq (guard32 lo g) b32_pi.
Proof. unfold guard32. destruct (Bleb lo g && Bleb g b32_pi) eqn:E; [|discriminate]. intros _. now apply andb_true_iff in E. Qed.
Lemma range64 : turns64 range_libm64 /\ halfturns64 range_libm64.
Proof. split; [exact (fun y x => guard64_ok _ _)|exact (fun x => guard64_ok _ _)]. Qed.
Lemma range32 : turns32 range_libm32 /\ halfturns32 range_libm32.
Proof. split; [exact (fun y x => guard32_ok _ _)|exact (fun x => guard32_ok _ _)]. Qed.
