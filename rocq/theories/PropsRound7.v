(** * Properties C94 and C95: the hyperbolic Kepler solver before periapsis, and propagation over no time, in floating point

    Theorems only; proofs are in [SqrtSqr2], [B64Past], [B32Past], [PastExamples], [B64Zero], [B32Zero] and [ZeroExamples].  The [_single] theorems are
    about single precision, the others about double precision (jax_enable_x64). *)
From Coq Require Import ZArith Reals Lra Bool List.
From Flocq Require Import Core IEEE754.BinarySingleNaN.
From Verif Require Import Num NumB32 NumB64 Spec SpecFl SpecFl32 SpecFl64 SpecFlV SpecFlStm LibmRef LibmRef64 KepEqu StateTrans PropKepler PastExamples ZeroExamples.
From Verif Require B32Past B64Past B32Zero B64Zero.
Import ListNotations.
Local Open Scope R_scope.

(** ** C94 *)
Theorem C94_past_refuted : forall (L : libm64) (Nm e tol : b64) (max_iter : Z),
  (forall s, d_log L (B754_zero s) = B754_infinity true) -> d_sinh L (B754_infinity true) = B754_infinity true ->
  is_finite Nm = true -> is_finite e = true -> 1 < B2R e -> Rabs (B2R Nm) <= IZR (2 ^ 1000) ->
  - (IZR (2 ^ 499) * B2R e) <= B2R Nm <= - (IZR (2 ^ 26) * B2R e) ->
  @solve_kepler_hypb _ (Num_B64 L) Nm e tol max_iter = B754_infinity true /\ exists! H : R, B2R e * sinh H - H = B2R Nm.
Proof. exact past64_refuted. Qed.
Print Assumptions C94_past_refuted.

Theorem C94_past_single_refuted : forall (L : libm) (Nm e tol : b32) (max_iter : Z),
  (forall s, m_log L (B754_zero s) = B754_infinity true) -> m_sinh L (B754_infinity true) = B754_infinity true ->
  is_finite Nm = true -> is_finite e = true -> 1 < B2R e -> Rabs (B2R Nm) <= IZR (2 ^ 120) ->
  - (IZR (2 ^ 59) * B2R e) <= B2R Nm <= - (IZR (2 ^ 12) * B2R e) ->
  @solve_kepler_hypb _ (Num_B32 L) Nm e tol max_iter = B754_infinity true /\ exists! H : R, B2R e * sinh H - H = B2R Nm.
Proof. exact past32_refuted. Qed.
Print Assumptions C94_past_single_refuted.

(** At the opposite anomaly the start is the logarithm of exactly twice the rounded 2N/e. *)
Theorem C94_future : forall (L : libm64) (Nm e : b64), is_finite Nm = true -> is_finite e = true -> 0 < B2R e ->
  Rabs (B2R Nm) <= IZR (2 ^ 1000) -> IZR (2 ^ 26) * B2R e <= B2R Nm <= IZR (2 ^ 499) * B2R e ->
  exists y : b64, @hypb_guess _ (Num_B64 L) Nm e = d_log L y /\ is_finite y = true /\
    B2R y = 2 * round radix2 (SpecFloat.fexp 53 1024) ZnearestE (2 * B2R Nm / B2R e).
Proof. exact B64Past.future_kept. Qed.
Print Assumptions C94_future.

Theorem C94_future_single : forall (L : libm) (Nm e : b32), is_finite Nm = true -> is_finite e = true -> 0 < B2R e ->
  Rabs (B2R Nm) <= IZR (2 ^ 120) -> IZR (2 ^ 12) * B2R e <= B2R Nm <= IZR (2 ^ 59) * B2R e ->
  exists y : b32, @hypb_guess _ (Num_B32 L) Nm e = m_log L y /\ is_finite y = true /\
    B2R y = 2 * round radix2 (SpecFloat.fexp 24 128) ZnearestE (2 * B2R Nm / B2R e).
Proof. exact B32Past.future_kept. Qed.
Print Assumptions C94_future_single.

(** e = 2 with the default arguments and a library that meets the hypotheses *)
Example C94_run :
  @solve_kepler_hypb _ (Num_B64 past_libm64) (b64_Z (-200000000)) (b64_Z 2) (@default_tol _ (Num_B64 past_libm64)) hypb_max_iter = B754_infinity true /\
  is_finite (@solve_kepler_hypb _ (Num_B64 past_libm64) (b64_Z 200000000) (b64_Z 2) (@default_tol _ (Num_B64 past_libm64)) hypb_max_iter) = true.
Proof. exact past64_ex. Qed.
Example C94_run_single :
  @solve_kepler_hypb _ (Num_B32 past_libm32) (b32_Z (-10000)) (b32_Z 2) (@default_tol _ (Num_B32 past_libm32)) hypb_max_iter = B754_infinity true /\
  is_finite (@solve_kepler_hypb _ (Num_B32 past_libm32) (b32_Z 10000) (b32_Z 2) (@default_tol _ (Num_B32 past_libm32)) hypb_max_iter) = true.
Proof. exact past32_ex. Qed.

(** ** C95 *)
(** [off64v 0 0 P a]: the components of [P] are finite and equal to those of [a]. *)
Theorem C95_kepler : forall (L : libm64),
  (forall s, d_sin L (B754_zero s) = B754_zero s) -> (forall s, d_cos L (B754_zero s) = b64_Z 1) ->
  (forall s, d_sinh L (B754_zero s) = B754_zero s) -> (forall s, d_cosh L (B754_zero s) = b64_Z 1) ->
  forall (x v : V3 b64) (mu : b64), good64v 100 x -> good64v 100 v -> good64 100 mu -> 0 < B2R mu -> real64 x <> vzero ->
  forall (ts : list b64) (i : nat) (s : bool), nth_error ts i = Some (B754_zero s) ->
  exists P Q : V3 b64, nth_error (@kepler _ (Num_B64 L) ts x v mu) i = Some (P, Q) /\ off64v 0 0 P (real64 x) /\ off64v 0 0 Q (real64 v).
Proof. exact B64Zero.kepler_zero. Qed.
Print Assumptions C95_kepler.

Theorem C95_dxdx0 : forall (L : libm64),
  (forall s, d_sin L (B754_zero s) = B754_zero s) -> (forall s, d_cos L (B754_zero s) = b64_Z 1) ->
  (forall s, d_sinh L (B754_zero s) = B754_zero s) -> (forall s, d_cosh L (B754_zero s) = b64_Z 1) ->
  forall (x v : V3 b64) (mu : b64), good64v 100 x -> good64v 100 v -> good64 100 mu -> 0 < B2R mu -> real64 x <> vzero ->
  forall s : bool, let M := @dxdx0 _ (Num_B64 L) x v x v (B754_zero s) mu in
  off64m 0 0 (b_rr M) ident /\ off64m 0 0 (b_rv M) (mk3 vzero vzero vzero) /\
  off64m 0 0 (b_vr M) (mk3 vzero vzero vzero) /\ off64m 0 0 (b_vv M) ident.
Proof. exact B64Zero.dxdx0_zero. Qed.
Print Assumptions C95_dxdx0.

Theorem C95_kepler_single : forall (L : libm),
  (forall s, m_sin L (B754_zero s) = B754_zero s) -> (forall s, m_cos L (B754_zero s) = b32_Z 1) ->
  (forall s, m_sinh L (B754_zero s) = B754_zero s) -> (forall s, m_cosh L (B754_zero s) = b32_Z 1) ->
  forall (x v : V3 b32) (mu : b32), good32v 17 x -> good32v 8 v -> good32 20 mu -> 0 < B2R mu -> real32 x <> vzero ->
  forall (ts : list b32) (i : nat) (s : bool), nth_error ts i = Some (B754_zero s) ->
  exists P Q : V3 b32, nth_error (@kepler _ (Num_B32 L) ts x v mu) i = Some (P, Q) /\ off32v 0 0 P (real32 x) /\ off32v 0 0 Q (real32 v).
Proof. exact B32Zero.kepler_zero. Qed.
Print Assumptions C95_kepler_single.

Theorem C95_dxdx0_single : forall (L : libm),
  (forall s, m_sin L (B754_zero s) = B754_zero s) -> (forall s, m_cos L (B754_zero s) = b32_Z 1) ->
  (forall s, m_sinh L (B754_zero s) = B754_zero s) -> (forall s, m_cosh L (B754_zero s) = b32_Z 1) ->
  forall (x v : V3 b32) (mu : b32), good32v 17 x -> good32v 8 v -> good32 20 mu -> 0 < B2R mu -> real32 x <> vzero ->
  forall s : bool, let M := @dxdx0 _ (Num_B32 L) x v x v (B754_zero s) mu in
  off32m 0 0 (b_rr M) ident /\ off32m 0 0 (b_rv M) (mk3 vzero vzero vzero) /\
  off32m 0 0 (b_vr M) (mk3 vzero vzero vzero) /\ off32m 0 0 (b_vv M) ident.
Proof. exact B32Zero.dxdx0_zero. Qed.
Print Assumptions C95_dxdx0_single.

(** a library that meets the hypotheses, and the rows at times 0, 60 and -0 *)
Example C95_library : (forall s, d_sin ref_libm64 (B754_zero s) = B754_zero s) /\ (forall s, d_cos ref_libm64 (B754_zero s) = b64_Z 1) /\
  (forall s, d_sinh ref_libm64 (B754_zero s) = B754_zero s) /\ (forall s, d_cosh ref_libm64 (B754_zero s) = b64_Z 1).
Proof. exact ref64_at_zero. Qed.
Example C95_library_single : (forall s, m_sin ref_libm (B754_zero s) = B754_zero s) /\ (forall s, m_cos ref_libm (B754_zero s) = b32_Z 1) /\
  (forall s, m_sinh ref_libm (B754_zero s) = B754_zero s) /\ (forall s, m_cosh ref_libm (B754_zero s) = b32_Z 1).
Proof. exact ref32_at_zero. Qed.
Example C95_rows : match @kepler _ (Num_B64 ref_libm64) [b64_Z 0; b64_Z 60; Bopp (b64_Z 0)] zero64_x zero64_v (b64_Z 398600) with
  | [a; b; c] => sf3 (fst a) = sf3 zero64_x /\ sf3 (snd a) = sf3 zero64_v /\ sf3 (fst c) = sf3 zero64_x /\ sf3 (snd c) = sf3 zero64_v /\ sf3 (fst b) <> sf3 zero64_x
  | _ => False end.
Proof. exact zero64_ex. Qed.
Example C95_rows_single : match @kepler _ (Num_B32 ref_libm) [b32_Z 0; b32_Z 60; Bopp (b32_Z 0)] zero32_x zero32_v (b32_Z 398600) with
  | [a; b; c] => sf3 (fst a) = sf3 zero32_x /\ sf3 (snd a) = sf3 zero32_v /\ sf3 (fst c) = sf3 zero32_x /\ sf3 (snd c) = sf3 zero32_v /\ sf3 (fst b) <> sf3 zero32_x
  | _ => False end.
Proof. exact zero32_ex. Qed.
Example C95_matrix : let M := @dxdx0 _ (Num_B64 ref_libm64) zero64_x zero64_v zero64_x zero64_v (b64_Z 0) (b64_Z 398600) in
  sfm (b_rr M) = sfm (@eye3 _ (Num_B64 ref_libm64)) /\ sfm (b_rv M) = repeat (B2SF (b64_Z 0)) 9 /\ sfm (b_vr M) = repeat (B2SF (b64_Z 0)) 9 /\ sfm (b_vv M) = sfm (@eye3 _ (Num_B64 ref_libm64)).
Proof. exact zero64_stm. Qed.
Example C95_matrix_single : let M := @dxdx0 _ (Num_B32 ref_libm) zero32_x zero32_v zero32_x zero32_v (b32_Z 0) (b32_Z 398600) in
  sfm (b_rr M) = sfm (@eye3 _ (Num_B32 ref_libm)) /\ sfm (b_rv M) = repeat (B2SF (b32_Z 0)) 9 /\ sfm (b_vr M) = repeat (B2SF (b32_Z 0)) 9 /\ sfm (b_vv M) = sfm (@eye3 _ (Num_B32 ref_libm)).
Proof. exact zero32_stm. Qed.
