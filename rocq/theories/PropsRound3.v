(** * Property C86: the Kepler propagator in floating point, end to end

    Theorems only; proofs are in [BackReal], [B64Back], [B32Back] and [BackExamples].  [C86_kepler_single] is about single
    precision, [C86_kepler] about double precision (jax_enable_x64).  The math library is only assumed to be accurate to
    [c <= 8] units of rounding on the arguments named. *)
From Coq Require Import ZArith Reals Lra Bool List.
From Coquelicot Require Import Coquelicot.
From Flocq Require Import Core IEEE754.BinarySingleNaN.
From Verif Require Import Num NumB32 NumB64 NumR Spec SpecFl SpecFl32 SpecFl64 SpecFlV OrbIntegrals StateTrans Uniformulas KepEqu PropKepler BackExamples.
From Verif Require B32Back B64Back.
Import ListNotations.
Local Open Scope R_scope.

(** ** C86 *)
Theorem C86_kepler : forall (L : libm64) (c : nat), (c <= 8)%nat -> trig64 L c (2 * IZR (2 ^ 30)) (2 * 100) ->
  forall (x v : V3 b64) (mu t : b64), good64v 100 x -> good64v 100 v -> good64 100 mu -> 0 < B2R mu -> good64 100 t ->
  let X := vnorm (real64 x) in let V := vnorm (real64 v) in let H := vnorm (cross (real64 x) (real64 v)) in
  50 * / IZR (2 ^ 53) * (2 * B2R mu / X + V ^ 2) * X ^ 2 < H ^ 2 ->
  let N := Num_B64 L in let r0 := @vector_norm _ N x in let s0 := @sigma_fn _ N x v mu in let al := @alpha_of _ N r0 (@vector_norm _ N v) mu in
  forall (n : Z) (chi prev : b64), @uni_run _ N t al r0 s0 mu (@default_tol _ N) uni_max_iter = Some (n, chi, prev) -> (n < uni_max_iter)%Z ->
  good64 100 al -> good64 100 r0 -> good64 100 s0 -> good64 100 chi ->
  let th := sqrt (Rabs (B2R al)) * Rabs (B2R chi) in (0 < B2R al -> th <= IZR (2 ^ 30)) -> (B2R al < 0 -> th <= 100) ->
  let U k := universal k (B2R chi) (B2R al) in let S k := uf_size k (B2R chi) (B2R al) in
  let rad := B2R r0 * U 0%nat + B2R s0 * U 1%nat + U 2%nat in let RB := B2R r0 * S 0%nat + Rabs (B2R s0) * S 1%nat + S 2%nat in
  in_range 100 rad -> 3000 * / IZR (2 ^ 53) * RB <= rad ->
  let W := (2 * B2R mu / X + V ^ 2) * X / H in
  exists (t' : R) (x' v' p q : vec), flows_to (B2R mu) t' (x', v') (p, q) /\ vnorm p = rad /\
    sqrt (B2R mu) * Rabs (t' - B2R t) <= B2R (@default_tol _ N) + (INR c + 16) * / IZR (2 ^ 53) * (B2R r0 * S 1%nat + Rabs (B2R s0) * S 2%nat + S 3%nat + sqrt (B2R mu) * Rabs (B2R t)) /\
    vnorm (vminus x' (real64 x)) <= 4 * / IZR (2 ^ 53) * X /\
    vnorm (vminus v' (real64 v)) <= / IZR (2 ^ 53) * (13 * V + 50 * W) /\
    forall (ts : list b64) (i : nat), nth_error ts i = Some t -> exists P Q : V3 b64, nth_error (@kepler _ N ts x v mu) i = Some (P, Q) /\
      off64v (INR c + 50) ((1 + S 2%nat / B2R r0) * X + (B2R r0 * S 1%nat + Rabs (B2R s0) * S 2%nat) / sqrt (B2R mu) * (V + W)) P p /\
      off64v (2 * INR c + 50) (sqrt (B2R mu) * RB / rad ^ 2 * S 1%nat / B2R r0 * X + (1 + S 2%nat * RB / rad ^ 2) * (V + W)) Q q.
Proof. exact B64Back.kepler_back. Qed.
Print Assumptions C86_kepler.

Theorem C86_kepler_single : forall (L : libm) (c : nat), (c <= 8)%nat -> trig32 L c (2 * IZR (2 ^ 10)) (2 * 10) ->
  forall (x v : V3 b32) (mu t : b32), good32v 17 x -> good32v 8 v -> good32 20 mu -> 0 < B2R mu -> good32 40 t ->
  let X := vnorm (real32 x) in let V := vnorm (real32 v) in let H := vnorm (cross (real32 x) (real32 v)) in
  50 * / IZR (2 ^ 24) * (2 * B2R mu / X + V ^ 2) * X ^ 2 < H ^ 2 ->
  let N := Num_B32 L in let r0 := @vector_norm _ N x in let s0 := @sigma_fn _ N x v mu in let al := @alpha_of _ N r0 (@vector_norm _ N v) mu in
  forall (n : Z) (chi prev : b32), @uni_run _ N t al r0 s0 mu (@default_tol _ N) uni_max_iter = Some (n, chi, prev) -> (n < uni_max_iter)%Z ->
  good32 17 al -> good32 17 r0 -> good32 17 s0 -> good32 12 chi ->
  let th := sqrt (Rabs (B2R al)) * Rabs (B2R chi) in (0 < B2R al -> th <= IZR (2 ^ 10)) -> (B2R al < 0 -> th <= 10) ->
  let U k := universal k (B2R chi) (B2R al) in let S k := uf_size k (B2R chi) (B2R al) in
  let rad := B2R r0 * U 0%nat + B2R s0 * U 1%nat + U 2%nat in let RB := B2R r0 * S 0%nat + Rabs (B2R s0) * S 1%nat + S 2%nat in
  in_range 17 rad -> 3000 * / IZR (2 ^ 24) * RB <= rad ->
  let W := (2 * B2R mu / X + V ^ 2) * X / H in
  exists (t' : R) (x' v' p q : vec), flows_to (B2R mu) t' (x', v') (p, q) /\ vnorm p = rad /\
    sqrt (B2R mu) * Rabs (t' - B2R t) <= B2R (@default_tol _ N) + (INR c + 16) * / IZR (2 ^ 24) * (B2R r0 * S 1%nat + Rabs (B2R s0) * S 2%nat + S 3%nat + sqrt (B2R mu) * Rabs (B2R t)) /\
    vnorm (vminus x' (real32 x)) <= 4 * / IZR (2 ^ 24) * X /\
    vnorm (vminus v' (real32 v)) <= / IZR (2 ^ 24) * (13 * V + 50 * W) /\
    forall (ts : list b32) (i : nat), nth_error ts i = Some t -> exists P Q : V3 b32, nth_error (@kepler _ N ts x v mu) i = Some (P, Q) /\
      off32v (INR c + 50) ((1 + S 2%nat / B2R r0) * X + (B2R r0 * S 1%nat + Rabs (B2R s0) * S 2%nat) / sqrt (B2R mu) * (V + W)) P p /\
      off32v (2 * INR c + 50) (sqrt (B2R mu) * RB / rad ^ 2 * S 1%nat / B2R r0 * X + (1 + S 2%nat * RB / rad ^ 2) * (V + W)) Q q.
Proof. exact B32Back.kepler_back. Qed.
Print Assumptions C86_kepler_single.

(** x = (1, 0, 0), v = (0, 2, 0), mu = 2: a parabola from its periapsis, one time unit on *)
Example C86_parabola : forall (L : libm64), trig64 L 6 (2 * IZR (2 ^ 30)) (2 * 100) ->
  exists (t' : R) (x' v' p q : vec) (P Q : V3 b64), flows_to 2 t' (x', v') (p, q) /\ Rabs (t' - 1) <= / 1000000 /\
    vnorm (vminus x' (mk3 1 0 0)) <= 4 * / IZR (2 ^ 53) /\ vnorm (vminus v' (mk3 0 2 0)) <= 226 * / IZR (2 ^ 53) /\
    nth_error (@kepler _ (Num_B64 L) [b64_Z 5; b64_Z 1] (mk3 (b64_Z 1) (b64_Z 0) (b64_Z 0)) (mk3 (b64_Z 0) (b64_Z 2) (b64_Z 0)) (b64_Z 2)) 1 = Some (P, Q) /\
    off64v 56 8 P p /\ off64v 62 10 Q q.
Proof. exact back64_ex. Qed.
Example C86_parabola_single : forall (L : libm), trig32 L 6 (2 * IZR (2 ^ 10)) (2 * 10) ->
  exists (t' : R) (x' v' p q : vec) (P Q : V3 b32), flows_to 2 t' (x', v') (p, q) /\ Rabs (t' - 1) <= / 100000 /\
    vnorm (vminus x' (mk3 1 0 0)) <= 4 * / IZR (2 ^ 24) /\ vnorm (vminus v' (mk3 0 2 0)) <= 226 * / IZR (2 ^ 24) /\
    nth_error (@kepler _ (Num_B32 L) [b32_Z 5; b32_Z 1] (mk3 (b32_Z 1) (b32_Z 0) (b32_Z 0)) (mk3 (b32_Z 0) (b32_Z 2) (b32_Z 0)) (b32_Z 2)) 1 = Some (P, Q) /\
    off32v 56 8 P p /\ off32v 62 10 Q q.
Proof. exact back32_ex. Qed.
