(** * Properties C90 and C91: the state transition matrix in floating point

    Theorems only; proofs are in [StmReal], [B64Stm], [B32Stm], [B64Dx], [B32Dx] and [StmFlExamples].  The [_single] theorems are
    about single precision, the others about double precision (jax_enable_x64).  The exact matrices [stm_rr], [stm_rv], [stm_vr],
    [stm_vv] and the sizes against which the errors are measured are written in [SpecFlStm]. *)
From Coq Require Import ZArith Reals Lra Bool List.
From Coquelicot Require Import Coquelicot.
Import ListNotations.
From Flocq Require Import Core IEEE754.BinarySingleNaN.
From Verif Require Import Num NumB32 NumB64 NumR Spec SpecFl SpecFl32 SpecFl64 SpecFlV SpecFlStm RoundFn Fine32 Fine64.
From Verif Require Import OrbIntegrals Uniformulas Lagrange KepEqu StateTrans StmFlExamples.
From Verif Require B32Stm B64Stm B32Dx B64Dx.
Local Open Scope R_scope.

(** ** C90 *)
(** the four 3x3 blocks, for given coefficients *)
Theorem C90_blocks : forall (L : libm64) (r v r0 v0 : V3 b64) (F G Ft Gt C mu : b64), good64v 60 r -> good64v 60 v -> good64v 60 r0 -> good64v 60 v0 ->
  good64 60 mu -> 0 < B2R mu -> real64 r <> vzero -> real64 r0 <> vzero ->
  good64 450 F -> good64 450 G -> good64 450 Ft -> good64 450 Gt -> good64 650 C -> 
  let N := Num_B64 L in let M := B2R mu in let q := vnorm (real64 r) in let q0 := vnorm (real64 r0) in let s := vnorm (real64 v) in let s0 := vnorm (real64 v0) in
  off64m 19 (stm_rr_size M q s q0 s0 (Rabs (B2R F)) (Rabs (B2R C))) (@prpr0 _ N r v r0 v0 F C mu) (stm_rr M (real64 r) (real64 v) (real64 r0) (real64 v0) (B2R F) (B2R C)) /\
  off64m 14 (stm_rv_size M q s q0 s0 (Rabs (B2R F)) (Rabs (B2R G)) (Rabs (B2R C))) (@prpv0 _ N r v r0 v0 F G C mu)
    (stm_rv M (real64 r) (real64 v) (real64 r0) (real64 v0) (B2R F) (B2R G) (B2R C)) /\
  off64m 33 (stm_vr_size M q s q0 s0 (Rabs (B2R Ft)) (Rabs (B2R C))) (@pvpr0 _ N r v r0 v0 Ft C mu) (stm_vr M (real64 r) (real64 v) (real64 r0) (real64 v0) (B2R Ft) (B2R C)) /\
  off64m 26 (stm_vv_size M q s q0 s0 (Rabs (B2R F)) (Rabs (B2R Gt)) (Rabs (B2R C))) (@pvpv0 _ N r v r0 v0 F Gt C mu)
    (stm_vv M (real64 r) (real64 v) (real64 r0) (real64 v0) (B2R F) (B2R Gt) (B2R C)).
Proof. exact B64Stm.blocks_ok. Qed.
Print Assumptions C90_blocks.

Theorem C90_blocks_single : forall (L : libm) (r v r0 v0 : V3 b32) (F G Ft Gt C mu : b32), good32v 17 r -> good32v 8 v -> good32v 17 r0 -> good32v 8 v0 ->
  good32 20 mu -> 0 < B2R mu -> real32 r <> vzero -> real32 r0 <> vzero ->
  good32 20 F -> good32 20 G -> good32 20 Ft -> good32 20 Gt -> good32 50 C -> in_range 24 (B2R mu / vnorm (real32 r) ^ 2) ->
  let N := Num_B32 L in let M := B2R mu in let q := vnorm (real32 r) in let q0 := vnorm (real32 r0) in let s := vnorm (real32 v) in let s0 := vnorm (real32 v0) in
  off32m 19 (stm_rr_size M q s q0 s0 (Rabs (B2R F)) (Rabs (B2R C))) (@prpr0 _ N r v r0 v0 F C mu) (stm_rr M (real32 r) (real32 v) (real32 r0) (real32 v0) (B2R F) (B2R C)) /\
  off32m 14 (stm_rv_size M q s q0 s0 (Rabs (B2R F)) (Rabs (B2R G)) (Rabs (B2R C))) (@prpv0 _ N r v r0 v0 F G C mu)
    (stm_rv M (real32 r) (real32 v) (real32 r0) (real32 v0) (B2R F) (B2R G) (B2R C)) /\
  off32m 33 (stm_vr_size M q s q0 s0 (Rabs (B2R Ft)) (Rabs (B2R C))) (@pvpr0 _ N r v r0 v0 Ft C mu) (stm_vr M (real32 r) (real32 v) (real32 r0) (real32 v0) (B2R Ft) (B2R C)) /\
  off32m 26 (stm_vv_size M q s q0 s0 (Rabs (B2R F)) (Rabs (B2R Gt)) (Rabs (B2R C))) (@pvpv0 _ N r v r0 v0 F Gt C mu)
    (stm_vv M (real32 r) (real32 v) (real32 r0) (real32 v0) (B2R F) (B2R Gt) (B2R C)).
Proof. exact B32Stm.blocks_ok. Qed.
Print Assumptions C90_blocks_single.

(** C, G and the generalised anomaly from given universal functions *)
Theorem C90_coefficients : forall (L : libm64) (chi U1 U2 U4 U5 alpha s s0 r0 dt mu : b64), good64 60 chi -> good64 500 U1 -> good64 500 U2 -> good64 500 U4 -> good64 500 U5 ->
  good64 60 alpha -> good64 60 s -> good64 60 s0 -> good64 60 r0 -> good64 60 dt -> good64 60 mu -> 0 < B2R mu ->
  let N := Num_B64 L in let M := sqrt (B2R mu) in let f := @B2R 53 1024 in
  off64 10 ((3 * Rabs (f U5) + Rabs (f chi) * Rabs (f U4) + M * Rabs (f dt) * Rabs (f U2)) / M) (@C_func _ N chi U2 U4 U5 dt mu)
    ((3 * f U5 - f chi * f U4 - M * f dt * f U2) / M) /\
  off64 7 ((Rabs (f r0) * Rabs (f U1) + Rabs (f s0) * Rabs (f U2)) / M) (@lagrange_G _ N U1 U2 s0 r0 mu) ((f r0 * f U1 + f s0 * f U2) / M) /\
  off64 7 (Rabs (f alpha) * M * Rabs (f dt) + Rabs (f s) + Rabs (f s0)) (@generalized_anomaly _ N alpha s s0 dt mu) (f alpha * M * f dt + f s - f s0).
Proof. exact B64Stm.coef_ok. Qed.
Print Assumptions C90_coefficients.

Theorem C90_coefficients_single : forall (L : libm) (chi U1 U2 U4 U5 alpha s s0 r0 dt mu : b32), good32 17 chi -> good32 60 U1 -> good32 60 U2 -> good32 60 U4 -> good32 60 U5 ->
  good32 17 alpha -> good32 17 s -> good32 17 s0 -> good32 17 r0 -> good32 17 dt -> good32 20 mu -> 0 < B2R mu ->
  let N := Num_B32 L in let M := sqrt (B2R mu) in let f := @B2R 24 128 in
  off 10 ((3 * Rabs (f U5) + Rabs (f chi) * Rabs (f U4) + M * Rabs (f dt) * Rabs (f U2)) / M) (@C_func _ N chi U2 U4 U5 dt mu)
    ((3 * f U5 - f chi * f U4 - M * f dt * f U2) / M) /\
  off 7 ((Rabs (f r0) * Rabs (f U1) + Rabs (f s0) * Rabs (f U2)) / M) (@lagrange_G _ N U1 U2 s0 r0 mu) ((f r0 * f U1 + f s0 * f U2) / M) /\
  off 7 (Rabs (f alpha) * M * Rabs (f dt) + Rabs (f s) + Rabs (f s0)) (@generalized_anomaly _ N alpha s s0 dt mu) (f alpha * M * f dt + f s - f s0).
Proof. exact B32Stm.coef_ok. Qed.
Print Assumptions C90_coefficients_single.

(** half a turn of the unit circle with mu = 1 and C = -10 *)
Example C90_half_turn : forall (L : libm64),
  off64m 19 17 (@prpr0 _ (Num_B64 L) (mk3 (b64_Z (-1)) (b64_Z 0) (b64_Z 0)) (mk3 (b64_Z 0) (b64_Z (-1)) (b64_Z 0))
      (mk3 (b64_Z 1) (b64_Z 0) (b64_Z 0)) (mk3 (b64_Z 0) (b64_Z 1) (b64_Z 0)) (b64_Z (-1)) (b64_Z (-10)) (b64_Z 1))
    (mk3 (mk3 (-3) 0 0) (mk3 10 3 0) (mk3 0 0 (-1))).
Proof. exact stm64_ex. Qed.
Example C90_half_turn_single : forall (L : libm),
  off32m 19 17 (@prpr0 _ (Num_B32 L) (mk3 (b32_Z (-1)) (b32_Z 0) (b32_Z 0)) (mk3 (b32_Z 0) (b32_Z (-1)) (b32_Z 0))
      (mk3 (b32_Z 1) (b32_Z 0) (b32_Z 0)) (mk3 (b32_Z 0) (b32_Z 1) (b32_Z 0)) (b32_Z (-1)) (b32_Z (-10)) (b32_Z 1))
    (mk3 (mk3 (-3) 0 0) (mk3 10 3 0) (mk3 0 0 (-1))).
Proof. exact stm32_ex. Qed.
(** ** C91 *)
(** dxdx0 from the two states: each block is Battin's formula at the computed alpha and generalised anomaly *)
Theorem C91_transition : forall (L : libm64) (c : nat), (c <= 8)%nat -> trig64 L c (2 * IZR (2 ^ 30)) (2 * 100) ->
  forall (r v r0 v0 : V3 b64) (dt mu : b64), good64v 60 r -> good64v 60 v -> good64v 60 r0 -> good64v 60 v0 -> good64 60 mu -> 0 < B2R mu ->
  real64 r <> vzero -> real64 r0 <> vzero -> good64 60 dt ->
  let N := Num_B64 L in
  let alpha := @alpha_of _ N (@vector_norm _ N r0) (@vector_norm _ N v0) mu in
  let chi := @generalized_anomaly _ N alpha (@sigma_fn _ N r v mu) (@sigma_fn _ N r0 v0 mu) dt mu in
  good64 100 alpha -> good64 100 chi -> B2R alpha <> 0 ->
  let a := B2R alpha in let x := B2R chi in let th := sqrt (Rabs a) * Rabs x in (0 < a -> th <= IZR (2 ^ 30)) -> (a < 0 -> th <= 100) ->
  let M := B2R mu in let w := sqrt M in let T := B2R dt in
  let q := vnorm (real64 r) in let q0 := vnorm (real64 r0) in let s := vnorm (real64 v) in let s0 := vnorm (real64 v0) in
  let sg := dot (real64 r) (real64 v) / w in let sg0 := dot (real64 r0) (real64 v0) / w in
  let U n := universal n x a in let S n := uf_size n x a in
  let F := 1 - U 2%nat / q0 in let G := (q0 * U 1%nat + sg0 * U 2%nat) / w in let Ft := - (w / q * U 1%nat / q0) in let Gt := 1 - U 2%nat / q in
  let C := (3 * U 5%nat - x * U 4%nat - w * T * U 2%nat) / w in
  let mF := 1 + S 2%nat / q0 in let mG := (q0 * S 1%nat + q0 * s0 / w * S 2%nat) / w in let mFt := w / q * S 1%nat / q0 in let mGt := 1 + S 2%nat / q in
  let mC := c_size x a T M in
  let X := @dxdx0 _ N r v r0 v0 dt mu in
  (real64 v0 <> vzero -> off64 16 (2 / q0 + s0 ^ 2 / M) alpha (2 / q0 - s0 ^ 2 / M)) /\
  off64 10 (Rabs a * w * Rabs T + q * s / w + q0 * s0 / w) chi (a * w * T + sg - sg0) /\
  off64m (INR c + 40) (stm_rr_size M q s q0 s0 mF mC) (b_rr X) (stm_rr M (real64 r) (real64 v) (real64 r0) (real64 v0) F C) /\
  off64m (INR c + 35) (stm_rv_size M q s q0 s0 mF mG mC) (b_rv X) (stm_rv M (real64 r) (real64 v) (real64 r0) (real64 v0) F G C) /\
  off64m (INR c + 54) (stm_vr_size M q s q0 s0 mFt mC) (b_vr X) (stm_vr M (real64 r) (real64 v) (real64 r0) (real64 v0) Ft C) /\
  off64m (INR c + 47) (stm_vv_size M q s q0 s0 mF mGt mC) (b_vv X) (stm_vv M (real64 r) (real64 v) (real64 r0) (real64 v0) F Gt C).
Proof. exact B64Dx.transition_ok. Qed.
Print Assumptions C91_transition.

Theorem C91_transition_single : forall (L : libm) (c : nat), (c <= 8)%nat -> trig32 L c (2 * IZR (2 ^ 10)) (2 * 10) ->
  forall (r v r0 v0 : V3 b32) (dt mu : b32), good32v 17 r -> good32v 8 v -> good32v 17 r0 -> good32v 8 v0 -> good32 20 mu -> 0 < B2R mu ->
  real32 r <> vzero -> real32 r0 <> vzero -> good32 17 dt ->
  let N := Num_B32 L in
  let alpha := @alpha_of _ N (@vector_norm _ N r0) (@vector_norm _ N v0) mu in
  let chi := @generalized_anomaly _ N alpha (@sigma_fn _ N r v mu) (@sigma_fn _ N r0 v0 mu) dt mu in
  good32 17 alpha -> good32 12 chi -> B2R alpha <> 0 ->
  let a := B2R alpha in let x := B2R chi in let th := sqrt (Rabs a) * Rabs x in (0 < a -> th <= IZR (2 ^ 10)) -> (a < 0 -> th <= 10) ->
  let M := B2R mu in let w := sqrt M in let T := B2R dt in
  let q := vnorm (real32 r) in let q0 := vnorm (real32 r0) in let s := vnorm (real32 v) in let s0 := vnorm (real32 v0) in
  let sg := dot (real32 r) (real32 v) / w in let sg0 := dot (real32 r0) (real32 v0) / w in
  let U n := universal n x a in let S n := uf_size n x a in
  let F := 1 - U 2%nat / q0 in let G := (q0 * U 1%nat + sg0 * U 2%nat) / w in let Ft := - (w / q * U 1%nat / q0) in let Gt := 1 - U 2%nat / q in
  let C := (3 * U 5%nat - x * U 4%nat - w * T * U 2%nat) / w in
  let mF := 1 + S 2%nat / q0 in let mG := (q0 * S 1%nat + q0 * s0 / w * S 2%nat) / w in let mFt := w / q * S 1%nat / q0 in let mGt := 1 + S 2%nat / q in
  let mC := c_size x a T M in
  in_range 20 mF -> in_range 20 mG -> in_range 20 mFt -> in_range 20 mGt -> in_range 50 mC -> in_range 24 (M / q ^ 2) ->
  let X := @dxdx0 _ N r v r0 v0 dt mu in
  (real32 v0 <> vzero -> off 16 (2 / q0 + s0 ^ 2 / M) alpha (2 / q0 - s0 ^ 2 / M)) /\
  off 10 (Rabs a * w * Rabs T + q * s / w + q0 * s0 / w) chi (a * w * T + sg - sg0) /\
  off32m (INR c + 40) (stm_rr_size M q s q0 s0 mF mC) (b_rr X) (stm_rr M (real32 r) (real32 v) (real32 r0) (real32 v0) F C) /\
  off32m (INR c + 35) (stm_rv_size M q s q0 s0 mF mG mC) (b_rv X) (stm_rv M (real32 r) (real32 v) (real32 r0) (real32 v0) F G C) /\
  off32m (INR c + 54) (stm_vr_size M q s q0 s0 mFt mC) (b_vr X) (stm_vr M (real32 r) (real32 v) (real32 r0) (real32 v0) Ft C) /\
  off32m (INR c + 47) (stm_vv_size M q s q0 s0 mF mGt mC) (b_vv X) (stm_vv M (real32 r) (real32 v) (real32 r0) (real32 v0) F Gt C).
Proof. exact B32Dx.transition_ok. Qed.
Print Assumptions C91_transition_single.

(** from (1, 0, 0) to (0, 1, 0) on the unit circle with dt = 1, so that the generalised anomaly is 1; the out-of-plane entry *)
Example C91_quarter_turn : forall (L : libm64), trig64 L 6 (2 * IZR (2 ^ 30)) (2 * 100) ->
  off64 46 32 (c2 (c2 (b_rr (@dxdx0 _ (Num_B64 L) (mk3 (b64_Z 0) (b64_Z 1) (b64_Z 0)) (mk3 (b64_Z (-1)) (b64_Z 0) (b64_Z 0))
      (mk3 (b64_Z 1) (b64_Z 0) (b64_Z 0)) (mk3 (b64_Z 0) (b64_Z 1) (b64_Z 0)) (b64_Z 1) (b64_Z 1))))) (cos 1).
Proof. exact dx64_ex. Qed.
Example C91_quarter_turn_single : forall (L : libm), trig32 L 6 (2 * IZR (2 ^ 10)) (2 * 10) ->
  off 46 32 (c2 (c2 (b_rr (@dxdx0 _ (Num_B32 L) (mk3 (b32_Z 0) (b32_Z 1) (b32_Z 0)) (mk3 (b32_Z (-1)) (b32_Z 0) (b32_Z 0))
      (mk3 (b32_Z 1) (b32_Z 0) (b32_Z 0)) (mk3 (b32_Z 0) (b32_Z 1) (b32_Z 0)) (b32_Z 1) (b32_Z 1))))) (cos 1).
Proof. exact dx32_ex. Qed.
