(** * PastExamples: libraries and runs behind the examples of C94 *)
From Coq Require Import ZArith Reals Lra Lia Bool List.
From Flocq Require Import Core IEEE754.BinarySingleNaN.
From Verif Require Import Num NumB32 NumB64 LibmRef LibmRef64 NumR KepEqu SolveFacts.
From Verif Require B32Past B64Past B32Fl B64Fl.
Local Open Scope R_scope.

Definition past_libm64 : libm64 := {|
  d_cbrt := d_cbrt ref_libm64; d_sin := d_sin ref_libm64; d_cos := d_cos ref_libm64;
  d_sinh := fun x => match x with B754_infinity s => B754_infinity s | _ => d_sinh ref_libm64 x end; d_cosh := d_cosh ref_libm64;
  d_log := fun x => match x with B754_zero _ => B754_infinity true | _ => d_log ref_libm64 x end;
  d_arccos := d_arccos ref_libm64; d_arctan2 := d_arctan2 ref_libm64 |}.
Definition past_libm32 : libm := {|
  m_cbrt := m_cbrt ref_libm; m_sin := m_sin ref_libm; m_cos := m_cos ref_libm;
  m_sinh := fun x => match x with B754_infinity s => B754_infinity s | _ => m_sinh ref_libm x end; m_cosh := m_cosh ref_libm;
  m_log := fun x => match x with B754_zero _ => B754_infinity true | _ => m_log ref_libm x end;
  m_arccos := m_arccos ref_libm; m_arctan2 := m_arctan2 ref_libm |}.

Lemma past64_ex :
  @solve_kepler_hypb _ (Num_B64 past_libm64) (b64_Z (-200000000)) (b64_Z 2) (@default_tol _ (Num_B64 past_libm64)) hypb_max_iter = B754_infinity true /\
  is_finite (@solve_kepler_hypb _ (Num_B64 past_libm64) (b64_Z 200000000) (b64_Z 2) (@default_tol _ (Num_B64 past_libm64)) hypb_max_iter) = true.
Proof. split; vm_compute; reflexivity. Qed.
Lemma past32_ex :
  @solve_kepler_hypb _ (Num_B32 past_libm32) (b32_Z (-10000)) (b32_Z 2) (@default_tol _ (Num_B32 past_libm32)) hypb_max_iter = B754_infinity true /\
  is_finite (@solve_kepler_hypb _ (Num_B32 past_libm32) (b32_Z 10000) (b32_Z 2) (@default_tol _ (Num_B32 past_libm32)) hypb_max_iter) = true.
Proof. split; vm_compute; reflexivity. Qed.

Lemma past64_refuted (L : libm64) (Nm e tol : b64) (max_iter : Z) :
  (forall s, d_log L (B754_zero s) = B754_infinity true) -> d_sinh L (B754_infinity true) = B754_infinity true ->
  is_finite Nm = true -> is_finite e = true -> 1 < B2R e -> Rabs (B2R Nm) <= IZR (2 ^ 1000) ->
  - (IZR (2 ^ 499) * B2R e) <= B2R Nm <= - (IZR (2 ^ 26) * B2R e) ->
  @solve_kepler_hypb _ (Num_B64 L) Nm e tol max_iter = B754_infinity true /\ exists! H : R, B2R e * sinh H - H = B2R Nm.
Proof.
  intros Hl Hs FN Fe He HN Hr. split; [exact (proj2 (B64Past.past_lost L Nm e FN Fe ltac:(lra) HN Hr Hl Hs tol max_iter))|].
  destruct (hypb_unique (B2R e) (B2R Nm) He) as [H [H1 H2]]. exists H. split.
  - change (B2R e * sinh H - H - B2R Nm = 0) in H1. lra.
  - intros y Hy. apply H2. change (B2R e * sinh y - y - B2R Nm = 0). lra.
Qed.
Lemma past32_refuted (L : libm) (Nm e tol : b32) (max_iter : Z) :
  (forall s, m_log L (B754_zero s) = B754_infinity true) -> m_sinh L (B754_infinity true) = B754_infinity true ->
  is_finite Nm = true -> is_finite e = true -> 1 < B2R e -> Rabs (B2R Nm) <= IZR (2 ^ 120) ->
  - (IZR (2 ^ 59) * B2R e) <= B2R Nm <= - (IZR (2 ^ 12) * B2R e) ->
  @solve_kepler_hypb _ (Num_B32 L) Nm e tol max_iter = B754_infinity true /\ exists! H : R, B2R e * sinh H - H = B2R Nm.
Proof.
  intros Hl Hs FN Fe He HN Hr. split; [exact (proj2 (B32Past.past_lost L Nm e FN Fe ltac:(lra) HN Hr Hl Hs tol max_iter))|].
  destruct (hypb_unique (B2R e) (B2R Nm) He) as [H [H1 H2]]. exists H. split.
  - change (B2R e * sinh H - H - B2R Nm = 0) in H1. lra.
  - intros y Hy. apply H2. change (B2R e * sinh y - y - B2R Nm = 0). lra.
Qed.
