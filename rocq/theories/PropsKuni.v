(** * Property C113: the universal Kepler solver and the propagator on ellipses, in floating point

    Theorems only; proofs are in [UniFloat], [B64Kuni], [B32Kuni] and [KuniExamples].  The double precision theorems are about
    jax_enable_x64, the ones ending in [_single] about the JAX default.  The math library is only assumed to be accurate to
    [c <= 8] units of rounding on the arguments named.  The eccentricity is at most 3/5: its square is
    (1 - alpha r0)^2 + alpha sigma0^2, taken from the computed alpha, r0 and sigma0, except in [C113_eccentricity], which bounds
    the eccentricity of the given state. *)
From Coq Require Import ZArith Reals Lra Bool List.
From Coquelicot Require Import Coquelicot.
From Flocq Require Import Core IEEE754.BinarySingleNaN.
From Verif Require Import Num NumB32 NumB64 NumR Spec SpecFl SpecFl32 SpecFl64 SpecFlV OrbIntegrals StateTrans Uniformulas KepEqu PropKepler Fine32 Fine64 KuniExamples.
From Verif Require B32Kuni B64Kuni.
Import ListNotations.
Local Open Scope R_scope.

(** ** C113 *)
Theorem C113_solver : forall (L : libm64) (dt al r0 s0 mu tol : b64) (c : nat) (max_iter : Z), let N := Num_B64 L in
  (c <= 8)%nat -> trig64 L c (2 * IZR (2 ^ 30)) (2 * 100) ->
  is_finite al = true -> / IZR (2 ^ 100) <= B2R al <= IZR (2 ^ 100) -> good64 100 r0 -> 0 < B2R r0 -> good64 100 s0 -> good64 100 dt -> good64 100 mu -> 0 < B2R mu ->
  is_finite tol = true -> 0 <= B2R tol -> (20 <= max_iter)%Z ->
  (1 - B2R al * B2R r0) ^ 2 + B2R al * B2R s0 ^ 2 <= 9 / 25 ->
  let q := sqrt (B2R al) in let m := q ^ 3 * (sqrt (B2R mu) * B2R dt) in
  / IZR (2 ^ 34) <= Rabs m <= IZR (2 ^ 28) ->
  let chi := @solve_kepler_uni _ N dt al r0 s0 mu tol max_iter in
  let eqn x := B2R r0 * universal 1 x (B2R al) + B2R s0 * universal 2 x (B2R al) + universal 3 x (B2R al) = sqrt (B2R mu) * B2R dt in
  is_finite chi = true /\
  exists x, eqn x /\ (forall y, eqn y -> y = x) /\
    q * Rabs (B2R chi - x) <= 5 / 2 * (q ^ 3 * B2R tol) + 205 * ((INR c + 16) * / IZR (2 ^ 53) * (1 + Rabs m)).
Proof. exact B64Kuni.uni_float. Qed.
Print Assumptions C113_solver.

Theorem C113_stops : forall (L : libm64) (dt al r0 s0 mu tol : b64) (c : nat) (max_iter : Z), let N := Num_B64 L in
  (c <= 8)%nat -> trig64 L c (2 * IZR (2 ^ 30)) (2 * 100) ->
  is_finite al = true -> / IZR (2 ^ 100) <= B2R al <= IZR (2 ^ 100) -> good64 100 r0 -> 0 < B2R r0 -> good64 100 s0 -> good64 100 dt -> good64 100 mu -> 0 < B2R mu ->
  is_finite tol = true -> 0 <= B2R tol -> (20 <= max_iter)%Z ->
  (1 - B2R al * B2R r0) ^ 2 + B2R al * B2R s0 ^ 2 <= 9 / 25 ->
  let q := sqrt (B2R al) in let m := q ^ 3 * (sqrt (B2R mu) * B2R dt) in
  / IZR (2 ^ 34) <= Rabs m <= IZR (2 ^ 28) ->
  350 * ((INR c + 16) * / IZR (2 ^ 53) * (1 + Rabs m)) <= q ^ 3 * B2R tol -> (20 < max_iter)%Z ->
  exists (k : Z) (chi prev : b64), @uni_run _ N dt al r0 s0 mu tol max_iter = Some (k, chi, prev) /\ (0 <= k <= 20)%Z.
Proof. exact B64Kuni.uni_stops. Qed.
Print Assumptions C113_stops.

Theorem C113_kepler : forall (L : libm64) (c : nat), (c <= 8)%nat -> trig64 L c (2 * IZR (2 ^ 30)) (2 * 100) ->
  forall (x v : V3 b64) (mu t : b64), good64v 100 x -> good64v 100 v -> good64 100 mu -> 0 < B2R mu -> good64 100 t ->
  let X := vnorm (real64 x) in let V := vnorm (real64 v) in let H := vnorm (cross (real64 x) (real64 v)) in
  50 * / IZR (2 ^ 53) * (2 * B2R mu / X + V ^ 2) * X ^ 2 < H ^ 2 ->
  let N := Num_B64 L in let r0 := @vector_norm _ N x in let s0 := @sigma_fn _ N x v mu in let al := @alpha_of _ N r0 (@vector_norm _ N v) mu in
  is_finite al = true -> / IZR (2 ^ 99) <= B2R al <= IZR (2 ^ 98) -> good64 100 r0 -> good64 100 s0 ->
  (1 - B2R al * B2R r0) ^ 2 + B2R al * B2R s0 ^ 2 <= 9 / 25 ->
  let q := sqrt (B2R al) in let m := q ^ 3 * (sqrt (B2R mu) * B2R t) in
  / IZR (2 ^ 34) <= Rabs m <= IZR (2 ^ 28) ->
  let T := 1 + Rabs m in let S k := 7 * T / q ^ k in let W := (2 * B2R mu / X + V ^ 2) * X / H in
  exists (t' : R) (x' v' p w : vec), flows_to (B2R mu) t' (x', v') (p, w) /\ 2 / 5 <= B2R al * vnorm p <= 8 / 5 /\
    sqrt (B2R mu) * Rabs (t' - B2R t) <= B2R (@default_tol _ N) + 330 * ((INR c + 16) * / IZR (2 ^ 53) * T) / q ^ 3 /\
    vnorm (vminus x' (real64 x)) <= 4 * / IZR (2 ^ 53) * X /\
    vnorm (vminus v' (real64 v)) <= / IZR (2 ^ 53) * (13 * V + 50 * W) /\
    forall (ts : list b64) (i : nat), nth_error ts i = Some t -> exists P Q : V3 b64, nth_error (@kepler _ N ts x v mu) i = Some (P, Q) /\
      off64v (INR c + 50) ((1 + S 2%nat / B2R r0) * X + (B2R r0 * S 1%nat + Rabs (B2R s0) * S 2%nat) / sqrt (B2R mu) * (V + W)) P p /\
      off64v (2 * INR c + 50) (sqrt (B2R mu) * (140 * T * B2R al) * S 1%nat / B2R r0 * X + (1 + S 2%nat * (140 * T * B2R al)) * (V + W)) Q w.
Proof. exact B64Kuni.kepler_ellipse. Qed.
Print Assumptions C113_kepler.

Theorem C113_eccentricity : forall (L : libm64) (c : nat), (c <= 8)%nat -> trig64 L c (2 * IZR (2 ^ 30)) (2 * 100) ->
  forall (x v : V3 b64) (mu t : b64), good64v 100 x -> good64v 100 v -> good64 100 mu -> 0 < B2R mu -> good64 100 t ->
  let X := vnorm (real64 x) in let V := vnorm (real64 v) in let H := vnorm (cross (real64 x) (real64 v)) in
  let N := Num_B64 L in let r0 := @vector_norm _ N x in let s0 := @sigma_fn _ N x v mu in let al := @alpha_of _ N r0 (@vector_norm _ N v) mu in
  / IZR (2 ^ 97) <= X <= IZR (2 ^ 97) -> good64 100 s0 ->
  vnorm (laplace (B2R mu) (real64 x) (real64 v)) <= 599 / 1000 ->
  let q := sqrt (B2R al) in let m := q ^ 3 * (sqrt (B2R mu) * B2R t) in
  / IZR (2 ^ 34) <= Rabs m <= IZR (2 ^ 28) ->
  let T := 1 + Rabs m in let S k := 7 * T / q ^ k in let W := (2 * B2R mu / X + V ^ 2) * X / H in
  exists (t' : R) (x' v' p w : vec), flows_to (B2R mu) t' (x', v') (p, w) /\ 2 / 5 <= B2R al * vnorm p <= 8 / 5 /\
    sqrt (B2R mu) * Rabs (t' - B2R t) <= B2R (@default_tol _ N) + 330 * ((INR c + 16) * / IZR (2 ^ 53) * T) / q ^ 3 /\
    vnorm (vminus x' (real64 x)) <= 4 * / IZR (2 ^ 53) * X /\
    vnorm (vminus v' (real64 v)) <= / IZR (2 ^ 53) * (13 * V + 50 * W) /\
    forall (ts : list b64) (i : nat), nth_error ts i = Some t -> exists P Q : V3 b64, nth_error (@kepler _ N ts x v mu) i = Some (P, Q) /\
      off64v (INR c + 50) ((1 + S 2%nat / B2R r0) * X + (B2R r0 * S 1%nat + Rabs (B2R s0) * S 2%nat) / sqrt (B2R mu) * (V + W)) P p /\
      off64v (2 * INR c + 50) (sqrt (B2R mu) * (140 * T * B2R al) * S 1%nat / B2R r0 * X + (1 + S 2%nat * (140 * T * B2R al)) * (V + W)) Q w.
Proof. exact B64Kuni.kepler_ellipse_ecc. Qed.
Print Assumptions C113_eccentricity.

Theorem C113_solver_single : forall (L : libm) (dt al r0 s0 mu tol : b32) (c : nat) (max_iter : Z), let N := Num_B32 L in
  (c <= 8)%nat -> trig32 L c (2 * IZR (2 ^ 10)) (2 * 10) ->
  is_finite al = true -> / IZR (2 ^ 14) <= B2R al <= IZR (2 ^ 6) -> good32 17 r0 -> 0 < B2R r0 -> good32 17 s0 -> good32 40 dt -> good32 20 mu -> 0 < B2R mu ->
  is_finite tol = true -> 0 <= B2R tol -> (20 <= max_iter)%Z ->
  (1 - B2R al * B2R r0) ^ 2 + B2R al * B2R s0 ^ 2 <= 9 / 25 ->
  let q := sqrt (B2R al) in let m := q ^ 3 * (sqrt (B2R mu) * B2R dt) in
  / IZR (2 ^ 6) <= Rabs m <= IZR (2 ^ 4) ->
  let chi := @solve_kepler_uni _ N dt al r0 s0 mu tol max_iter in
  let eqn x := B2R r0 * universal 1 x (B2R al) + B2R s0 * universal 2 x (B2R al) + universal 3 x (B2R al) = sqrt (B2R mu) * B2R dt in
  is_finite chi = true /\
  exists x, eqn x /\ (forall y, eqn y -> y = x) /\
    q * Rabs (B2R chi - x) <= 5 / 2 * (q ^ 3 * B2R tol) + 205 * ((INR c + 16) * / IZR (2 ^ 24) * (1 + Rabs m)).
Proof. exact B32Kuni.uni_float. Qed.
Print Assumptions C113_solver_single.

Theorem C113_stops_single : forall (L : libm) (dt al r0 s0 mu tol : b32) (c : nat) (max_iter : Z), let N := Num_B32 L in
  (c <= 8)%nat -> trig32 L c (2 * IZR (2 ^ 10)) (2 * 10) ->
  is_finite al = true -> / IZR (2 ^ 14) <= B2R al <= IZR (2 ^ 6) -> good32 17 r0 -> 0 < B2R r0 -> good32 17 s0 -> good32 40 dt -> good32 20 mu -> 0 < B2R mu ->
  is_finite tol = true -> 0 <= B2R tol -> (20 <= max_iter)%Z ->
  (1 - B2R al * B2R r0) ^ 2 + B2R al * B2R s0 ^ 2 <= 9 / 25 ->
  let q := sqrt (B2R al) in let m := q ^ 3 * (sqrt (B2R mu) * B2R dt) in
  / IZR (2 ^ 6) <= Rabs m <= IZR (2 ^ 4) ->
  350 * ((INR c + 16) * / IZR (2 ^ 24) * (1 + Rabs m)) <= q ^ 3 * B2R tol -> (20 < max_iter)%Z ->
  exists (k : Z) (chi prev : b32), @uni_run _ N dt al r0 s0 mu tol max_iter = Some (k, chi, prev) /\ (0 <= k <= 20)%Z.
Proof. exact B32Kuni.uni_stops. Qed.
Print Assumptions C113_stops_single.

Theorem C113_kepler_single : forall (L : libm) (c : nat), (c <= 8)%nat -> trig32 L c (2 * IZR (2 ^ 10)) (2 * 10) ->
  forall (x v : V3 b32) (mu t : b32), good32v 17 x -> good32v 8 v -> good32 20 mu -> 0 < B2R mu -> good32 40 t ->
  let X := vnorm (real32 x) in let V := vnorm (real32 v) in let H := vnorm (cross (real32 x) (real32 v)) in
  50 * / IZR (2 ^ 24) * (2 * B2R mu / X + V ^ 2) * X ^ 2 < H ^ 2 ->
  let N := Num_B32 L in let r0 := @vector_norm _ N x in let s0 := @sigma_fn _ N x v mu in let al := @alpha_of _ N r0 (@vector_norm _ N v) mu in
  is_finite al = true -> / IZR (2 ^ 14) <= B2R al <= IZR (2 ^ 6) -> good32 17 r0 -> good32 17 s0 ->
  (1 - B2R al * B2R r0) ^ 2 + B2R al * B2R s0 ^ 2 <= 9 / 25 ->
  let q := sqrt (B2R al) in let m := q ^ 3 * (sqrt (B2R mu) * B2R t) in
  / IZR (2 ^ 6) <= Rabs m <= IZR (2 ^ 4) ->
  let T := 1 + Rabs m in let S k := 7 * T / q ^ k in let W := (2 * B2R mu / X + V ^ 2) * X / H in
  exists (t' : R) (x' v' p w : vec), flows_to (B2R mu) t' (x', v') (p, w) /\ 2 / 5 <= B2R al * vnorm p <= 8 / 5 /\
    sqrt (B2R mu) * Rabs (t' - B2R t) <= B2R (@default_tol _ N) + 330 * ((INR c + 16) * / IZR (2 ^ 24) * T) / q ^ 3 /\
    vnorm (vminus x' (real32 x)) <= 4 * / IZR (2 ^ 24) * X /\
    vnorm (vminus v' (real32 v)) <= / IZR (2 ^ 24) * (13 * V + 50 * W) /\
    forall (ts : list b32) (i : nat), nth_error ts i = Some t -> exists P Q : V3 b32, nth_error (@kepler _ N ts x v mu) i = Some (P, Q) /\
      off32v (INR c + 50) ((1 + S 2%nat / B2R r0) * X + (B2R r0 * S 1%nat + Rabs (B2R s0) * S 2%nat) / sqrt (B2R mu) * (V + W)) P p /\
      off32v (2 * INR c + 50) (sqrt (B2R mu) * (140 * T * B2R al) * S 1%nat / B2R r0 * X + (1 + S 2%nat * (140 * T * B2R al)) * (V + W)) Q w.
Proof. exact B32Kuni.kepler_ellipse. Qed.
Print Assumptions C113_kepler_single.

Theorem C113_eccentricity_single : forall (L : libm) (c : nat), (c <= 8)%nat -> trig32 L c (2 * IZR (2 ^ 10)) (2 * 10) ->
  forall (x v : V3 b32) (mu t : b32), good32v 17 x -> good32v 8 v -> good32 20 mu -> 0 < B2R mu -> good32 40 t ->
  let X := vnorm (real32 x) in let V := vnorm (real32 v) in let H := vnorm (cross (real32 x) (real32 v)) in
  let N := Num_B32 L in let r0 := @vector_norm _ N x in let s0 := @sigma_fn _ N x v mu in let al := @alpha_of _ N r0 (@vector_norm _ N v) mu in
  / IZR (2 ^ 5) <= X <= IZR (2 ^ 12) -> good32 17 s0 ->
  vnorm (laplace (B2R mu) (real32 x) (real32 v)) <= 599 / 1000 ->
  let q := sqrt (B2R al) in let m := q ^ 3 * (sqrt (B2R mu) * B2R t) in
  / IZR (2 ^ 6) <= Rabs m <= IZR (2 ^ 4) ->
  let T := 1 + Rabs m in let S k := 7 * T / q ^ k in let W := (2 * B2R mu / X + V ^ 2) * X / H in
  exists (t' : R) (x' v' p w : vec), flows_to (B2R mu) t' (x', v') (p, w) /\ 2 / 5 <= B2R al * vnorm p <= 8 / 5 /\
    sqrt (B2R mu) * Rabs (t' - B2R t) <= B2R (@default_tol _ N) + 330 * ((INR c + 16) * / IZR (2 ^ 24) * T) / q ^ 3 /\
    vnorm (vminus x' (real32 x)) <= 4 * / IZR (2 ^ 24) * X /\
    vnorm (vminus v' (real32 v)) <= / IZR (2 ^ 24) * (13 * V + 50 * W) /\
    forall (ts : list b32) (i : nat), nth_error ts i = Some t -> exists P Q : V3 b32, nth_error (@kepler _ N ts x v mu) i = Some (P, Q) /\
      off32v (INR c + 50) ((1 + S 2%nat / B2R r0) * X + (B2R r0 * S 1%nat + Rabs (B2R s0) * S 2%nat) / sqrt (B2R mu) * (V + W)) P p /\
      off32v (2 * INR c + 50) (sqrt (B2R mu) * (140 * T * B2R al) * S 1%nat / B2R r0 * X + (1 + S 2%nat * (140 * T * B2R al)) * (V + W)) Q w.
Proof. exact B32Kuni.kepler_ellipse_ecc. Qed.
Print Assumptions C113_eccentricity_single.

(** alpha = 1, r0 = 3/4, sigma0 = 1/4 (eccentricity 0.354), mu = dt = 1 *)
Example C113_solver_example : forall (L : libm64), trig64 L 6 (2 * IZR (2 ^ 30)) (2 * 100) -> let N := Num_B64 L in
  let chi := @solve_kepler_uni _ N (b64_Z 1) (b64_Z 1) (b64_dec 3 4) (b64_dec 1 4) (b64_Z 1) (@default_tol _ N) 20 in
  is_finite chi = true /\ exists x, 3 / 4 * sin x + / 4 * (1 - cos x) + (x - sin x) = 1 /\ Rabs (B2R chi - x) <= / 300000.
Proof. exact uni64_ex. Qed.
(** the same with a tolerance above the rounding noise: at most 20 steps *)
Example C113_stops_example : forall (L : libm64), trig64 L 6 (2 * IZR (2 ^ 30)) (2 * 100) -> let N := Num_B64 L in
  exists (k : Z) (chi prev : b64), @uni_run _ N (b64_Z 1) (b64_Z 1) (b64_dec 3 4) (b64_dec 1 4) (b64_Z 1) (b64_dec 1 1048576) 50 = Some (k, chi, prev) /\ (0 <= k <= 20)%Z.
Proof. exact stop64_ex. Qed.
(** x = (1, 0, 0), v = (7, 24, 0), mu = 1024: an ellipse of eccentricity 0.468, at time 1/4 *)
Example C113_kepler_example : forall (L : libm64), trig64 L 6 (2 * IZR (2 ^ 30)) (2 * 100) ->
  exists (t' : R) (x' v' p w : vec) (P Q : V3 b64), flows_to 1024 t' (x', v') (p, w) /\ Rabs (t' - / 4) <= / 1000000 /\ 28 / 100 <= vnorm p <= 12 / 10 /\
    nth_error (@kepler _ (Num_B64 L) [b64_Z 5; b64_dec 1 4] (mk3 (b64_Z 1) (b64_Z 0) (b64_Z 0)) (mk3 (b64_Z 7) (b64_Z 24) (b64_Z 0)) (b64_Z 1024)) 1 = Some (P, Q) /\
    off64v 56 1000 P p /\ off64v 62 40000000 Q w.
Proof. exact prop64_ex. Qed.
(** a library the assumption holds for *)
Example C113_library : trig64 fine_libm64 6 (2 * IZR (2 ^ 30)) (2 * 100).
Proof. apply fine64_ok. lra. Qed.
(** alpha = 1, r0 = 3/4, sigma0 = 1/4 (eccentricity 0.354), mu = dt = 1 *)
Example C113_solver_example_single : forall (L : libm), trig32 L 6 (2 * IZR (2 ^ 10)) (2 * 10) -> let N := Num_B32 L in
  let chi := @solve_kepler_uni _ N (b32_Z 1) (b32_Z 1) (b32_dec 3 4) (b32_dec 1 4) (b32_Z 1) (@default_tol _ N) 20 in
  is_finite chi = true /\ exists x, 3 / 4 * sin x + / 4 * (1 - cos x) + (x - sin x) = 1 /\ Rabs (B2R chi - x) <= / 1000.
Proof. exact uni32_ex. Qed.
(** the same with a tolerance above the rounding noise: at most 20 steps *)
Example C113_stops_example_single : forall (L : libm), trig32 L 6 (2 * IZR (2 ^ 10)) (2 * 10) -> let N := Num_B32 L in
  exists (k : Z) (chi prev : b32), @uni_run _ N (b32_Z 1) (b32_Z 1) (b32_dec 3 4) (b32_dec 1 4) (b32_Z 1) (b32_dec 1 32) 50 = Some (k, chi, prev) /\ (0 <= k <= 20)%Z.
Proof. exact stop32_ex. Qed.
(** x = (1, 0, 0), v = (7, 24, 0), mu = 1024: an ellipse of eccentricity 0.468, at time 1/4 *)
Example C113_kepler_example_single : forall (L : libm), trig32 L 6 (2 * IZR (2 ^ 10)) (2 * 10) ->
  exists (t' : R) (x' v' p w : vec) (P Q : V3 b32), flows_to 1024 t' (x', v') (p, w) /\ Rabs (t' - / 4) <= / 5000 /\ 28 / 100 <= vnorm p <= 12 / 10 /\
    nth_error (@kepler _ (Num_B32 L) [b32_Z 5; b32_dec 1 4] (mk3 (b32_Z 1) (b32_Z 0) (b32_Z 0)) (mk3 (b32_Z 7) (b32_Z 24) (b32_Z 0)) (b32_Z 1024)) 1 = Some (P, Q) /\
    off32v 56 1000 P p /\ off32v 62 40000000 Q w.
Proof. exact prop32_ex. Qed.
(** a library the assumption holds for *)
Example C113_library_single : trig32 fine_libm32 6 (2 * IZR (2 ^ 10)) (2 * 10).
Proof. apply fine32_ok. lra. Qed.
(** the eccentricity of the state propagated in [C113_kepler_example] *)
Example C113_eccentricity_example : vnorm (laplace 1024 (mk3 1 0 0) (mk3 7 24 0)) <= 599 / 1000.
Proof. exact ecc_ex. Qed.
