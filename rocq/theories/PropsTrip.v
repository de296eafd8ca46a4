(** * Properties C103 and C104: conversions there and back, and whole revolutions, in floating point

    Theorems only; proofs are in [B64Trip], [B32Trip] and [TripExamples].  [off C m g v]: the computed [g] is finite and
    within [C] units of roundoff of [m] of [v]. *)
From Coq Require Import ZArith Reals.
From Flocq Require Import Core IEEE754.BinarySingleNaN.
From Verif Require Import Num NumR NumB32 NumB64 SpecFl SpecFl32 SpecFl64 SpecFlV OrbIntegrals KepEqu PathCheck LibmRef LibmRef64.
From Verif Require B64Trip B32Trip TripExamples.
Local Open Scope R_scope.

Theorem C103_axis : forall (L : libm64) (a e : b64), good64 200 a -> is_finite e = true -> Rabs (B2R e) <= IZR (2 ^ 400) -> Rabs (B2R e) <> 1 ->
  off64 3 (Rabs (B2R a)) (@a_from_pe _ (Num_B64 L) (@semipara_from_ae _ (Num_B64 L) a e) e) (B2R a).
Proof. exact B64Trip.axis_trip. Qed.
Print Assumptions C103_axis.
(** an ellipse one rounding step from a parabola *)
Example C103_axis_case : let N := Num_B64 ref_libm64 in let e := Bpred (b64_Z 1) in
  B2SF (@semipara_from_ae _ N (b64_Z 7000) e) <> B2SF (b64_Z 0) /\
  B2SF (@a_from_pe _ N (@semipara_from_ae _ N (b64_Z 7000) e) e) = B2SF (b64_Z 7000).
Proof. vm_compute. split; [discriminate | reflexivity]. Qed.

Theorem C103_semiparameter : forall (L : libm64) (p e : b64), good64 200 p -> is_finite e = true -> Rabs (B2R e) <= IZR (2 ^ 400) -> Rabs (B2R e) <> 1 ->
  off64 3 (Rabs (B2R p)) (@semipara_from_ae _ (Num_B64 L) (@a_from_pe _ (Num_B64 L) p e) e) (B2R p).
Proof. exact B64Trip.semiparameter_trip. Qed.
Print Assumptions C103_semiparameter.
(** a rounding step is lost on the way *)
Example C103_semiparameter_case : let N := Num_B64 ref_libm64 in let e := b64_dec 1 10 in
  exists p, B2SF (@semipara_from_ae _ N (@a_from_pe _ N (b64_Z p) e) e) = B2SF (Bpred (b64_Z p)).
Proof. exists 255%Z. vm_compute. reflexivity. Qed.

(** eccentricity one: NaN whatever the other argument *)
Theorem C103_parabola : forall (L : libm64) (x e : b64), is_finite e = true -> Rabs (B2R e) = 1 ->
  @a_from_pe _ (Num_B64 L) (@semipara_from_ae _ (Num_B64 L) x e) e = B754_nan /\ @semipara_from_ae _ (Num_B64 L) (@a_from_pe _ (Num_B64 L) x e) e = B754_nan.
Proof. exact B64Trip.parabola_trips. Qed.
Print Assumptions C103_parabola.
Example C103_parabola_case : @a_from_pe _ (Num_B64 ref_libm64) (@semipara_from_ae _ (Num_B64 ref_libm64) (b64_Z 7000) (b64_Z 1)) (b64_Z 1) = B754_nan.
Proof. vm_compute. reflexivity. Qed.

Theorem C103_one_period : forall (L : libm64) (a mu : b64), good64 300 a -> good64 100 mu -> 0 < B2R a -> 0 < B2R mu ->
  off64 11 (2 * PI) (@mean_anomaly_elps _ (Num_B64 L) a (@orb_period _ (Num_B64 L) a mu) mu) (2 * PI).
Proof. exact B64Trip.one_period. Qed.
Print Assumptions C103_one_period.
(** the computed anomaly falls short of the rounded 2 pi *)
Example C103_one_period_case : let N := Num_B64 ref_libm64 in let a := b64_Z 6602 in let mu := b64_Z 398600 in
  Bltb (@mean_anomaly_elps _ N a (@orb_period _ N a mu) mu) (@n_mul _ N (b64_Z 2) (@n_pi _ N)) = true.
Proof. vm_compute. reflexivity. Qed.

Theorem C103_axis_single : forall (L : libm) (a e : b32), good32 50 a -> is_finite e = true -> Rabs (B2R e) <= IZR (2 ^ 30) -> Rabs (B2R e) <> 1 ->
  off 3 (Rabs (B2R a)) (@a_from_pe _ (Num_B32 L) (@semipara_from_ae _ (Num_B32 L) a e) e) (B2R a).
Proof. exact B32Trip.axis_trip. Qed.
Print Assumptions C103_axis_single.
(** an ellipse one rounding step from a parabola *)
Example C103_axis_single_case : let N := Num_B32 ref_libm in let e := Bpred (b32_Z 1) in
  B2SF (@semipara_from_ae _ N (b32_Z 7000) e) <> B2SF (b32_Z 0) /\
  B2SF (@a_from_pe _ N (@semipara_from_ae _ N (b32_Z 7000) e) e) = B2SF (b32_Z 7000).
Proof. vm_compute. split; [discriminate | reflexivity]. Qed.

Theorem C103_semiparameter_single : forall (L : libm) (p e : b32), good32 50 p -> is_finite e = true -> Rabs (B2R e) <= IZR (2 ^ 30) -> Rabs (B2R e) <> 1 ->
  off 3 (Rabs (B2R p)) (@semipara_from_ae _ (Num_B32 L) (@a_from_pe _ (Num_B32 L) p e) e) (B2R p).
Proof. exact B32Trip.semiparameter_trip. Qed.
Print Assumptions C103_semiparameter_single.
(** a rounding step is lost on the way *)
Example C103_semiparameter_single_case : let N := Num_B32 ref_libm in let e := b32_dec 1 10 in
  exists p, B2SF (@semipara_from_ae _ N (@a_from_pe _ N (b32_Z p) e) e) = B2SF (Bpred (b32_Z p)).
Proof. exists 1%Z. vm_compute. reflexivity. Qed.

(** eccentricity one: NaN whatever the other argument *)
Theorem C103_parabola_single : forall (L : libm) (x e : b32), is_finite e = true -> Rabs (B2R e) = 1 ->
  @a_from_pe _ (Num_B32 L) (@semipara_from_ae _ (Num_B32 L) x e) e = B754_nan /\ @semipara_from_ae _ (Num_B32 L) (@a_from_pe _ (Num_B32 L) x e) e = B754_nan.
Proof. exact B32Trip.parabola_trips. Qed.
Print Assumptions C103_parabola_single.
Example C103_parabola_single_case : @a_from_pe _ (Num_B32 ref_libm) (@semipara_from_ae _ (Num_B32 ref_libm) (b32_Z 7000) (b32_Z 1)) (b32_Z 1) = B754_nan.
Proof. vm_compute. reflexivity. Qed.

Theorem C103_one_period_single : forall (L : libm) (a mu : b32), good32 30 a -> good32 20 mu -> 0 < B2R a -> 0 < B2R mu ->
  off 11 (2 * PI) (@mean_anomaly_elps _ (Num_B32 L) a (@orb_period _ (Num_B32 L) a mu) mu) (2 * PI).
Proof. exact B32Trip.one_period. Qed.
Print Assumptions C103_one_period_single.
(** the computed anomaly falls short of the rounded 2 pi *)
Example C103_one_period_single_case : let N := Num_B32 ref_libm in let a := b32_Z 6600 in let mu := b32_Z 398600 in
  Bltb (@mean_anomaly_elps _ N a (@orb_period _ N a mu) mu) (@n_mul _ N (b32_Z 2) (@n_pi _ N)) = true.
Proof. vm_compute. reflexivity. Qed.

(** In exact arithmetic n periods of the smallest orbit count as n revolutions. *)
Theorem C104_exact : forall (rp r1 r2 mu : R) (n : Z), 0 < rp -> 0 < r1 -> 0 < r2 -> 0 < mu ->
  nmax_by_periapsis rp r1 r2 (IZR n * (2 * PI * sqrt (((Rmax r1 r2 + rp) / 2) ^ 3 / mu))) mu = IZR n.
Proof. exact TripExamples.exact_count. Qed.
Print Assumptions C104_exact.
Example C104_exact_case : nmax_by_periapsis 1 2 3 (IZR 5 * (2 * PI * sqrt (((Rmax 2 3 + 1) / 2) ^ 3 / 1))) 1 = 5.
Proof. apply C104_exact; apply IZR_lt; reflexivity. Qed.

(** Near a whole number of revolutions: within thirteen units the count may go either way, outside it is right. *)
Theorem C104_margin : forall (L : libm64) (rp r1 r2 tof mu : b64), good64 100 rp -> good64 100 r1 -> good64 100 r2 -> good64 100 tof -> good64 100 mu ->
  0 < B2R rp -> 0 < B2R r1 -> 0 < B2R r2 -> 0 < B2R mu -> 0 <= B2R tof ->
  forall a P : R, a = (Rmax (B2R r1) (B2R r2) + B2R rp) / 2 -> P = 2 * PI * sqrt (a ^ 3 / B2R mu) ->
  forall n : Z, (0 <= n)%Z ->
    (IZR n * P * (1 + 13 * / IZR (2 ^ 53)) <= B2R tof -> IZR n <= B2R (@nmax_by_periapsis _ (Num_B64 L) rp r1 r2 tof mu)) /\
    (IZR n <= B2R (@nmax_by_periapsis _ (Num_B64 L) rp r1 r2 tof mu) -> IZR n * P <= B2R tof * (1 + 13 * / IZR (2 ^ 53))).
Proof. exact B64Trip.revolutions_margin. Qed.
Print Assumptions C104_margin.
(** one second more than the period counts *)
Example C104_margin_case : let N := Num_B64 ref_libm64 in let a := b64_Z 6601 in let mu := b64_Z 398600 in
  B2SF (@nmax_by_periapsis _ N a a a (@n_add _ N (@orb_period _ N a mu) (b64_Z 1)) mu) = B2SF (b64_Z 1).
Proof. vm_compute. reflexivity. Qed.

(** The claim itself fails with every math library. *)
Theorem C104_refuted : ~ exists L : libm64, forall a mu : b64, good64 100 a -> good64 100 mu -> 0 < B2R a -> 0 < B2R mu ->
  1 <= B2R (@nmax_by_periapsis _ (Num_B64 L) a a a (@orb_period _ (Num_B64 L) a mu) mu).
Proof. exact TripExamples.double_refuted. Qed.
Print Assumptions C104_refuted.
Example C104_refuted_case : forall L : libm64, let a := b64_Z 6601 in let mu := b64_Z 398600 in
  B2SF (@nmax_by_periapsis _ (Num_B64 L) a a a (@orb_period _ (Num_B64 L) a mu) mu) = B2SF (b64_Z 0).
Proof. exact TripExamples.lost_double. Qed.

(** Near a whole number of revolutions: within thirteen units the count may go either way, outside it is right. *)
Theorem C104_margin_single : forall (L : libm) (rp r1 r2 tof mu : b32), good32 17 rp -> good32 17 r1 -> good32 17 r2 -> good32 40 tof -> good32 20 mu ->
  0 < B2R rp -> 0 < B2R r1 -> 0 < B2R r2 -> 0 < B2R mu -> 0 <= B2R tof ->
  forall a P : R, a = (Rmax (B2R r1) (B2R r2) + B2R rp) / 2 -> P = 2 * PI * sqrt (a ^ 3 / B2R mu) ->
  forall n : Z, (0 <= n)%Z ->
    (IZR n * P * (1 + 13 * / IZR (2 ^ 24)) <= B2R tof -> IZR n <= B2R (@nmax_by_periapsis _ (Num_B32 L) rp r1 r2 tof mu)) /\
    (IZR n <= B2R (@nmax_by_periapsis _ (Num_B32 L) rp r1 r2 tof mu) -> IZR n * P <= B2R tof * (1 + 13 * / IZR (2 ^ 24))).
Proof. exact B32Trip.revolutions_margin. Qed.
Print Assumptions C104_margin_single.
(** one second more than the period counts *)
Example C104_margin_single_case : let N := Num_B32 ref_libm in let a := b32_Z 6600 in let mu := b32_Z 398600 in
  B2SF (@nmax_by_periapsis _ N a a a (@n_add _ N (@orb_period _ N a mu) (b32_Z 1)) mu) = B2SF (b32_Z 1).
Proof. vm_compute. reflexivity. Qed.

(** The claim itself fails with every math library. *)
Theorem C104_single_refuted : ~ exists L : libm, forall a mu : b32, good32 20 a -> good32 20 mu -> 0 < B2R a -> 0 < B2R mu ->
  1 <= B2R (@nmax_by_periapsis _ (Num_B32 L) a a a (@orb_period _ (Num_B32 L) a mu) mu).
Proof. exact TripExamples.single_refuted. Qed.
Print Assumptions C104_single_refuted.
Example C104_single_refuted_case : forall L : libm, let a := b32_Z 6600 in let mu := b32_Z 398600 in
  B2SF (@nmax_by_periapsis _ (Num_B32 L) a a a (@orb_period _ (Num_B32 L) a mu) mu) = B2SF (b32_Z 0).
Proof. exact TripExamples.lost_single. Qed.
