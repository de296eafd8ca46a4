(** * Properties C105, C106: the kind of conic that [kepler] follows, and parabolas that it straightens

    Theorems only; proofs are in [TinyReal], [B64Flat], [B32Flat] and [FlatExamples]. *)
From Coq Require Import ZArith Reals Lra Bool List.
From Coquelicot Require Import Coquelicot.
From Flocq Require Import Core IEEE754.BinarySingleNaN.
From Verif Require Import Num NumB32 NumB64 NumR Spec SpecFl SpecFl32 SpecFl64 SpecFlV SpecTiny OrbIntegrals StateTrans Uniformulas KepEqu PropKepler FlatExamples.
From Verif Require B32Flat B64Flat.
Import ListNotations.
Local Open Scope R_scope.

(** ** C105 *)
Theorem C105_conic : forall (L : libm64) (x v : V3 b64) (mu : b64), good64v 100 x -> good64v 100 v -> good64 100 mu -> 0 < B2R mu ->
  real64 x <> vzero -> real64 v <> vzero ->
  let E := energy (B2R mu) (real64 x) (real64 v) in let K := dot (real64 v) (real64 v) / 2 + B2R mu / vnorm (real64 x) in
  16 * / IZR (2 ^ 53) * K < Rabs E ->
  let N := Num_B64 L in let al := @alpha_of _ N (@vector_norm _ N x) (@vector_norm _ N v) mu in
  is_finite al = true /\ (E < 0 -> 0 < B2R al) /\ (0 < E -> B2R al < 0).
Proof. exact B64Flat.conic_sign. Qed.
Print Assumptions C105_conic.
Theorem C105_parabola_refuted : ~ exists L : libm64, forall (x v : V3 b64) (mu : b64),
  good64v 100 x -> good64v 100 v -> good64 100 mu -> 0 < B2R mu -> parabolic (B2R mu) (real64 x) (real64 v) ->
  let N := Num_B64 L in B2R (@alpha_of _ N (@vector_norm _ N x) (@vector_norm _ N v) mu) = 0.
Proof. exact zero_double_refuted. Qed.
Print Assumptions C105_parabola_refuted.

Theorem C105_conic_single : forall (L : libm) (x v : V3 b32) (mu : b32), good32v 17 x -> good32v 8 v -> good32 20 mu -> 0 < B2R mu ->
  real32 x <> vzero -> real32 v <> vzero ->
  let E := energy (B2R mu) (real32 x) (real32 v) in let K := dot (real32 v) (real32 v) / 2 + B2R mu / vnorm (real32 x) in
  16 * / IZR (2 ^ 24) * K < Rabs E ->
  let N := Num_B32 L in let al := @alpha_of _ N (@vector_norm _ N x) (@vector_norm _ N v) mu in
  is_finite al = true /\ (E < 0 -> 0 < B2R al) /\ (0 < E -> B2R al < 0).
Proof. exact B32Flat.conic_sign. Qed.
Print Assumptions C105_conic_single.
Theorem C105_parabola_single_refuted : ~ exists L : libm, forall (x v : V3 b32) (mu : b32),
  good32v 17 x -> good32v 8 v -> good32 20 mu -> 0 < B2R mu -> parabolic (B2R mu) (real32 x) (real32 v) ->
  let N := Num_B32 L in B2R (@alpha_of _ N (@vector_norm _ N x) (@vector_norm _ N v) mu) = 0.
Proof. exact zero_single_refuted. Qed.
Print Assumptions C105_parabola_single_refuted.

(** mu = 398600, r = 7000: speed 7 is an ellipse, 11 a hyperbola.  Of three exact parabolas one is recognised, the others are
    taken for a hyperbola and an ellipse. *)
Example C105_case : forall (L : libm64), let N := Num_B64 L in
  let al x v mu := @alpha_of _ N (@vector_norm _ N (mk3 (b64_Z x) (b64_Z 0) (b64_Z 0))) (@vector_norm _ N (mk3 (b64_Z 0) (b64_Z v) (b64_Z 0))) (b64_Z mu) in
  let diag x u w mu := @alpha_of _ N (@vector_norm _ N (mk3 (b64_Z x) (b64_Z 0) (b64_Z 0))) (@vector_norm _ N (mk3 (b64_Z u) (b64_Z w) (b64_Z 0))) (b64_Z mu) in
  Bltb (b64_Z 0) (al 7000%Z 7%Z 398600%Z) = true /\ Bltb (al 7000%Z 11%Z 398600%Z) (b64_Z 0) = true /\
  B2SF (al 1%Z 2%Z 2%Z) = SpecFloat.S754_zero false /\ Bltb (diag 10%Z 1%Z 1%Z 10%Z) (b64_Z 0) = true /\ Bltb (b64_Z 0) (diag 1%Z 3%Z 3%Z 9%Z) = true.
Proof. exact signs64. Qed.
Example C105_case_single : forall (L : libm), let N := Num_B32 L in
  let al x v mu := @alpha_of _ N (@vector_norm _ N (mk3 (b32_Z x) (b32_Z 0) (b32_Z 0))) (@vector_norm _ N (mk3 (b32_Z 0) (b32_Z v) (b32_Z 0))) (b32_Z mu) in
  let diag x u w mu := @alpha_of _ N (@vector_norm _ N (mk3 (b32_Z x) (b32_Z 0) (b32_Z 0))) (@vector_norm _ N (mk3 (b32_Z u) (b32_Z w) (b32_Z 0))) (b32_Z mu) in
  Bltb (b32_Z 0) (al 7000%Z 7%Z 398600%Z) = true /\ Bltb (al 7000%Z 11%Z 398600%Z) (b32_Z 0) = true /\
  B2SF (al 1%Z 2%Z 2%Z) = SpecFloat.S754_zero false /\ Bltb (b32_Z 0) (diag 10%Z 1%Z 1%Z 10%Z) = true.
Proof. exact signs32. Qed.

(** ** C106 *)
Theorem C106_rounded_is_flat : forall L : libm64, rounded64 (d_cos L) cos -> rounded64 (d_cosh L) cosh -> rounded64 (d_sin L) sin -> rounded64 (d_sinh L) sinh -> flat64 L.
Proof. exact B64Flat.rounded_flat. Qed.
Print Assumptions C106_rounded_is_flat.
Theorem C106_straight_line : forall (L : libm64), flat64 L ->
  forall (x v : V3 b64) (mu t : b64), good64v 100 x -> good64v 100 v -> good64 100 mu -> 0 < B2R mu -> good64 100 t ->
  let N := Num_B64 L in let r0 := @vector_norm _ N x in let s0 := @sigma_fn _ N x v mu in let al := @alpha_of _ N r0 (@vector_norm _ N v) mu in
  forall (n : Z) (chi prev : b64), @uni_run _ N t al r0 s0 mu (@default_tol _ N) uni_max_iter = Some (n, chi, prev) -> (n < uni_max_iter)%Z ->
  good64 100 al -> good64 100 r0 -> 0 < B2R r0 -> good64 100 s0 -> good64 100 chi ->
  B2R al <> 0 -> B2R chi <> 0 -> Rabs (B2R al) * B2R chi ^ 2 <= 9 / 10 * / IZR (2 ^ 53) ->
  let b := 2 * (B2R (@default_tol _ N) / sqrt (B2R mu)) * vnorm (real64 v) + 42 * / IZR (2 ^ 53) * (vnorm (real64 x) + Rabs (B2R t) * vnorm (real64 v)) in
  forall (ts : list b64) (i : nat), nth_error ts i = Some t -> exists P Q : V3 b64, nth_error (@kepler _ N ts x v mu) i = Some (P, Q) /\
    Rabs (B2R (c0 P) - (B2R (c0 x) + B2R t * B2R (c0 v))) <= b /\ Rabs (B2R (c1 P) - (B2R (c1 x) + B2R t * B2R (c1 v))) <= b /\
    Rabs (B2R (c2 P) - (B2R (c2 x) + B2R t * B2R (c2 v))) <= b.
Proof. exact B64Flat.straight_line. Qed.
Print Assumptions C106_straight_line.
Theorem C106_parabola_refuted : ~ exists L : libm64, flat64 L /\ forall (x v : V3 b64) (mu t : b64) (P Q : V3 b64) (p q : vec),
  good64v 100 x -> good64v 100 v -> good64 100 mu -> 0 < B2R mu -> good64 100 t -> parabolic (B2R mu) (real64 x) (real64 v) -> cross (real64 x) (real64 v) <> vzero ->
  @kepler _ (Num_B64 L) [t] x v mu = [(P, Q)] -> flows_to (B2R mu) (B2R t) (real64 x, real64 v) (p, q) -> vnorm (vminus (real64 P) p) <= / 20 * vnorm p.
Proof. exact parabola_double_refuted. Qed.
Print Assumptions C106_parabola_refuted.

Theorem C106_rounded_is_flat_single : forall L : libm, rounded32 (m_cos L) cos -> rounded32 (m_cosh L) cosh -> rounded32 (m_sin L) sin -> rounded32 (m_sinh L) sinh -> flat32 L.
Proof. exact B32Flat.rounded_flat. Qed.
Print Assumptions C106_rounded_is_flat_single.
Theorem C106_straight_line_single : forall (L : libm), flat32 L ->
  forall (x v : V3 b32) (mu t : b32), good32v 17 x -> good32v 8 v -> good32 20 mu -> 0 < B2R mu -> good32 40 t ->
  let N := Num_B32 L in let r0 := @vector_norm _ N x in let s0 := @sigma_fn _ N x v mu in let al := @alpha_of _ N r0 (@vector_norm _ N v) mu in
  forall (n : Z) (chi prev : b32), @uni_run _ N t al r0 s0 mu (@default_tol _ N) uni_max_iter = Some (n, chi, prev) -> (n < uni_max_iter)%Z ->
  good32 30 al -> good32 17 r0 -> 0 < B2R r0 -> good32 17 s0 -> good32 12 chi ->
  B2R al <> 0 -> B2R chi <> 0 -> Rabs (B2R al) * B2R chi ^ 2 <= 9 / 10 * / IZR (2 ^ 24) ->
  let b := 2 * (B2R (@default_tol _ N) / sqrt (B2R mu)) * vnorm (real32 v) + 42 * / IZR (2 ^ 24) * (vnorm (real32 x) + Rabs (B2R t) * vnorm (real32 v)) in
  forall (ts : list b32) (i : nat), nth_error ts i = Some t -> exists P Q : V3 b32, nth_error (@kepler _ N ts x v mu) i = Some (P, Q) /\
    Rabs (B2R (c0 P) - (B2R (c0 x) + B2R t * B2R (c0 v))) <= b /\ Rabs (B2R (c1 P) - (B2R (c1 x) + B2R t * B2R (c1 v))) <= b /\
    Rabs (B2R (c2 P) - (B2R (c2 x) + B2R t * B2R (c2 v))) <= b.
Proof. exact B32Flat.straight_line. Qed.
Print Assumptions C106_straight_line_single.
Theorem C106_parabola_single_refuted : ~ exists L : libm, flat32 L /\ forall (x v : V3 b32) (mu t : b32) (P Q : V3 b32) (p q : vec),
  good32v 17 x -> good32v 8 v -> good32 20 mu -> 0 < B2R mu -> good32 40 t -> parabolic (B2R mu) (real32 x) (real32 v) -> cross (real32 x) (real32 v) <> vzero ->
  @kepler _ (Num_B32 L) [t] x v mu = [(P, Q)] -> flows_to (B2R mu) (B2R t) (real32 x, real32 v) (p, q) -> vnorm (vminus (real32 P) p) <= / 20 * vnorm p.
Proof. exact parabola_single_refuted. Qed.
Print Assumptions C106_parabola_single_refuted.

(** x = (10, 0, 0), v = (1, 1, 0), mu = 10, t = 2325/512: the parabola leads to (55/4, 285/64, 0), the straight line to
    (10 + t, t, 0), and the code, with any library that is correctly rounded on tiny arguments, to the line.  Its alpha is
    -2^-55 (double) and 2^-26 (single) instead of 0. *)
Example C106_truth : parabolic 10 (mk3 10 0 0) (mk3 1 1 0) /\
  flows_to 10 (2325 / 512) (mk3 10 0 0, mk3 1 1 0) (mk3 (55 / 4) (285 / 64) 0, mk3 (128 / 185) (176 / 185) 0).
Proof. exact true_parabola. Qed.
Example C106_case : forall L : libm64, flat64 L -> let N := Num_B64 L in
  let x := mk3 (b64_Z 10) (b64_Z 0) (b64_Z 0) in let v := mk3 (b64_Z 1) (b64_Z 1) (b64_Z 0) in
  exists P Q : V3 b64, @kepler _ N [b64_dec 2325 512] x v (b64_Z 10) = [(P, Q)] /\ B2R (c0 P) = 7445 / 512 /\ B2R (c1 P) = 2325 / 512 - / 1125899906842624 /\ B2R (c2 P) = 0 /\
    B2R (c1 Q) = 1 /\ B2R (@alpha_of _ N (@vector_norm _ N x) (@vector_norm _ N v) (b64_Z 10)) = - / IZR (2 ^ 55).
Proof. exact line64. Qed.
Example C106_case_single : forall L : libm, flat32 L -> let N := Num_B32 L in
  let x := mk3 (b32_Z 10) (b32_Z 0) (b32_Z 0) in let v := mk3 (b32_Z 1) (b32_Z 1) (b32_Z 0) in
  exists P Q : V3 b32, @kepler _ N [b32_dec 2325 512] x v (b32_Z 10) = [(P, Q)] /\ B2R (c0 P) = 7445 / 512 /\ B2R (c1 P) = 2325 / 512 - / 2097152 /\ B2R (c2 P) = 0 /\
    B2R (c1 Q) = 1 /\ B2R (@alpha_of _ N (@vector_norm _ N x) (@vector_norm _ N v) (b32_Z 10)) = / IZR (2 ^ 26).
Proof. exact line32. Qed.
Example C106_flat_exists : flat64 id64 /\ flat32 id32.
Proof. exact (conj id64_flat id32_flat). Qed.
