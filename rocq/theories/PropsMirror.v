(** * Properties C96-C98: mirrored states, reversed time and opposite anomalies in floating point

    Theorems only; proofs are in [SgnCalc], [SgnCalc2], [SgnCalc3], [SgnFloat], [B64Mirror], [B32Mirror], [MirrorExamples], [SgnCalc4], [B64Odd], [B32Odd] and [OddExamples].  The [_single] theorems are
    about single precision, the others about double precision (jax_enable_x64). *)
From Coq Require Import ZArith Reals Bool List String.
From Flocq Require Import Core IEEE754.BinarySingleNaN.
From Verif Require Import Num NumB32 NumB64 Spec SpecFl SpecFl32 SpecFl64 SpecFlV SpecFlStm LibmRef LibmRef64 SpecMirror.
From Verif Require Import OrbIntegrals Uniformulas PathCheck Gravity KepEqu StateTrans PropKepler ZeroExamples MirrorExamples OddExamples.
From Verif Require B32Mirror B64Mirror B32Odd B64Odd.
Import ListNotations.
Local Open Scope R_scope.

(** ** C96 *)
(** [reflect s] reflects in the chosen coordinate planes; [vsame] and [msame] compare all entries, allowing a zero of the other sign. *)
Theorem C96_kepler : forall (L : libm64) (s : V3 bool) (ts : list b64) (x v : V3 b64) (mu : b64),
  Forall2 (fun p q => vsame (reflect s (fst p)) (fst q) /\ vsame (reflect s (snd p)) (snd q))
    (@kepler _ (Num_B64 L) ts x v mu) (@kepler _ (Num_B64 L) ts (reflect s x) (reflect s v) mu).
Proof. exact B64Mirror.kepler_mirror. Qed.
Print Assumptions C96_kepler.

Theorem C96_dxdx0 : forall (L : libm64) (s : V3 bool) (r v r0 v0 : V3 b64) (t mu : b64),
  let M := @dxdx0 _ (Num_B64 L) r v r0 v0 t mu in let M' := @dxdx0 _ (Num_B64 L) (reflect s r) (reflect s v) (reflect s r0) (reflect s v0) t mu in
  msame (mreflect false s (b_rr M)) (b_rr M') /\ msame (mreflect false s (b_rv M)) (b_rv M') /\
  msame (mreflect false s (b_vr M)) (b_vr M') /\ msame (mreflect false s (b_vv M)) (b_vv M').
Proof. exact B64Mirror.dxdx0_mirrored. Qed.
Print Assumptions C96_dxdx0.

Theorem C96_elements : forall (L : libm64) (s : V3 bool) (x v : V3 b64) (mu rmin : b64),
  @vector_norm _ (Num_B64 L) (reflect s x) = @vector_norm _ (Num_B64 L) x /\ @vector_norm _ (Num_B64 L) (reflect s v) = @vector_norm _ (Num_B64 L) v /\
  @vector_norm _ (Num_B64 L) (@angular_momentum _ (Num_B64 L) (reflect s x) (reflect s v)) = @vector_norm _ (Num_B64 L) (@angular_momentum _ (Num_B64 L) x v) /\
  @vector_norm _ (Num_B64 L) (@eccentricity_vector _ (Num_B64 L) (reflect s x) (reflect s v) mu) = @vector_norm _ (Num_B64 L) (@eccentricity_vector _ (Num_B64 L) x v mu) /\
  vsame (reflect s (@eccentricity_vector _ (Num_B64 L) x v mu)) (@eccentricity_vector _ (Num_B64 L) (reflect s x) (reflect s v) mu) /\
  @sigma_fn _ (Num_B64 L) (reflect s x) (reflect s v) mu = @sigma_fn _ (Num_B64 L) x v mu /\
  @rp_islower_rmin _ (Num_B64 L) rmin (reflect s x) (reflect s v) mu = @rp_islower_rmin _ (Num_B64 L) rmin x v mu.
Proof. exact B64Mirror.elements_mirror. Qed.
Print Assumptions C96_elements.

Theorem C96_path_checks : forall (L : libm64) (s : V3 bool) (r1 v1 r2 : V3 b64) (mu : b64),
  @is_short_way _ (Num_B64 L) (reflect s r1) (reflect s v1) (reflect s r2) = @is_short_way _ (Num_B64 L) r1 v1 r2 /\
  @pass_perigee _ (Num_B64 L) (reflect s r1) (reflect s v1) (reflect s r2) mu = @pass_perigee _ (Num_B64 L) r1 v1 r2 mu.
Proof. exact B64Mirror.checks_mirror. Qed.
Print Assumptions C96_path_checks.

(** [rest]: what follows the position in the state array.  The third harmonic changes sign with z. *)
Theorem C96_gravity : forall (L : libm64) (s : V3 bool) (x : V3 b64) (rest rest' : list b64) (t t' : b64) (args : list (string * b64)),
  let st := fun (a : V3 b64) (l : list b64) => c0 a :: c1 a :: c2 a :: l in
  let same := fun (k : V3 bool) (a b : res (V3 b64)) => match a, b with Ok u, Ok w => vsame (reflect k u) w | Raise e, Raise e' => e = e' | _, _ => False end in
  same s (@point_mass_grav _ (Num_B64 L) t (st x rest) args) (@point_mass_grav _ (Num_B64 L) t' (st (reflect s x) rest') args) /\
  same s (@j2_acc _ (Num_B64 L) t (st x rest) args) (@j2_acc _ (Num_B64 L) t' (st (reflect s x) rest') args) /\
  same (mk3 (xorb (c2 s) (c0 s)) (xorb (c2 s) (c1 s)) false) (@j3_acc _ (Num_B64 L) t (st x rest) args) (@j3_acc _ (Num_B64 L) t' (st (reflect s x) rest') args) /\
  same s (@j4_acc _ (Num_B64 L) t (st x rest) args) (@j4_acc _ (Num_B64 L) t' (st (reflect s x) rest') args) /\
  @radius_islow _ (Num_B64 L) t' (st (reflect s x) rest') args = @radius_islow _ (Num_B64 L) t (st x rest) args.
Proof. exact B64Mirror.gravity_mirror. Qed.
Print Assumptions C96_gravity.

Theorem C96_kepler_single : forall (L : libm) (s : V3 bool) (ts : list b32) (x v : V3 b32) (mu : b32),
  Forall2 (fun p q => vsame (reflect s (fst p)) (fst q) /\ vsame (reflect s (snd p)) (snd q))
    (@kepler _ (Num_B32 L) ts x v mu) (@kepler _ (Num_B32 L) ts (reflect s x) (reflect s v) mu).
Proof. exact B32Mirror.kepler_mirror. Qed.
Print Assumptions C96_kepler_single.

Theorem C96_dxdx0_single : forall (L : libm) (s : V3 bool) (r v r0 v0 : V3 b32) (t mu : b32),
  let M := @dxdx0 _ (Num_B32 L) r v r0 v0 t mu in let M' := @dxdx0 _ (Num_B32 L) (reflect s r) (reflect s v) (reflect s r0) (reflect s v0) t mu in
  msame (mreflect false s (b_rr M)) (b_rr M') /\ msame (mreflect false s (b_rv M)) (b_rv M') /\
  msame (mreflect false s (b_vr M)) (b_vr M') /\ msame (mreflect false s (b_vv M)) (b_vv M').
Proof. exact B32Mirror.dxdx0_mirrored. Qed.
Print Assumptions C96_dxdx0_single.

Theorem C96_elements_single : forall (L : libm) (s : V3 bool) (x v : V3 b32) (mu rmin : b32),
  @vector_norm _ (Num_B32 L) (reflect s x) = @vector_norm _ (Num_B32 L) x /\ @vector_norm _ (Num_B32 L) (reflect s v) = @vector_norm _ (Num_B32 L) v /\
  @vector_norm _ (Num_B32 L) (@angular_momentum _ (Num_B32 L) (reflect s x) (reflect s v)) = @vector_norm _ (Num_B32 L) (@angular_momentum _ (Num_B32 L) x v) /\
  @vector_norm _ (Num_B32 L) (@eccentricity_vector _ (Num_B32 L) (reflect s x) (reflect s v) mu) = @vector_norm _ (Num_B32 L) (@eccentricity_vector _ (Num_B32 L) x v mu) /\
  vsame (reflect s (@eccentricity_vector _ (Num_B32 L) x v mu)) (@eccentricity_vector _ (Num_B32 L) (reflect s x) (reflect s v) mu) /\
  @sigma_fn _ (Num_B32 L) (reflect s x) (reflect s v) mu = @sigma_fn _ (Num_B32 L) x v mu /\
  @rp_islower_rmin _ (Num_B32 L) rmin (reflect s x) (reflect s v) mu = @rp_islower_rmin _ (Num_B32 L) rmin x v mu.
Proof. exact B32Mirror.elements_mirror. Qed.
Print Assumptions C96_elements_single.

Theorem C96_path_checks_single : forall (L : libm) (s : V3 bool) (r1 v1 r2 : V3 b32) (mu : b32),
  @is_short_way _ (Num_B32 L) (reflect s r1) (reflect s v1) (reflect s r2) = @is_short_way _ (Num_B32 L) r1 v1 r2 /\
  @pass_perigee _ (Num_B32 L) (reflect s r1) (reflect s v1) (reflect s r2) mu = @pass_perigee _ (Num_B32 L) r1 v1 r2 mu.
Proof. exact B32Mirror.checks_mirror. Qed.
Print Assumptions C96_path_checks_single.

(** [rest]: what follows the position in the state array.  The third harmonic changes sign with z. *)
Theorem C96_gravity_single : forall (L : libm) (s : V3 bool) (x : V3 b32) (rest rest' : list b32) (t t' : b32) (args : list (string * b32)),
  let st := fun (a : V3 b32) (l : list b32) => c0 a :: c1 a :: c2 a :: l in
  let same := fun (k : V3 bool) (a b : res (V3 b32)) => match a, b with Ok u, Ok w => vsame (reflect k u) w | Raise e, Raise e' => e = e' | _, _ => False end in
  same s (@point_mass_grav _ (Num_B32 L) t (st x rest) args) (@point_mass_grav _ (Num_B32 L) t' (st (reflect s x) rest') args) /\
  same s (@j2_acc _ (Num_B32 L) t (st x rest) args) (@j2_acc _ (Num_B32 L) t' (st (reflect s x) rest') args) /\
  same (mk3 (xorb (c2 s) (c0 s)) (xorb (c2 s) (c1 s)) false) (@j3_acc _ (Num_B32 L) t (st x rest) args) (@j3_acc _ (Num_B32 L) t' (st (reflect s x) rest') args) /\
  same s (@j4_acc _ (Num_B32 L) t (st x rest) args) (@j4_acc _ (Num_B32 L) t' (st (reflect s x) rest') args) /\
  @radius_islow _ (Num_B32 L) t' (st (reflect s x) rest') args = @radius_islow _ (Num_B32 L) t (st x rest) args.
Proof. exact B32Mirror.gravity_mirror. Qed.
Print Assumptions C96_gravity_single.

(** ten minutes ahead on a low orbit, mirrored in z = 0 *)
Example C96_rows : match @kepler _ (Num_B64 sym_libm64) [b64_Z 600] zero64_x zero64_v (b64_Z 398600),
                          @kepler _ (Num_B64 sym_libm64) [b64_Z 600] (reflect (mk3 false false true) zero64_x) (reflect (mk3 false false true) zero64_v) (b64_Z 398600) with
  | [a], [b] => sf3 (reflect (mk3 false false true) (fst a)) = sf3 (fst b) /\ sf3 (reflect (mk3 false false true) (snd a)) = sf3 (snd b) /\
                sf3 (fst a) <> sf3 (fst b) /\ sf3 (fst a) <> sf3 zero64_x
  | _, _ => False end.
Proof. exact mirror64_ex. Qed.
Example C96_rows_single : match @kepler _ (Num_B32 sym_libm32) [b32_Z 600] zero32_x zero32_v (b32_Z 398600),
                          @kepler _ (Num_B32 sym_libm32) [b32_Z 600] (reflect (mk3 false false true) zero32_x) (reflect (mk3 false false true) zero32_v) (b32_Z 398600) with
  | [a], [b] => sf3 (reflect (mk3 false false true) (fst a)) = sf3 (fst b) /\ sf3 (reflect (mk3 false false true) (snd a)) = sf3 (snd b) /\
                sf3 (fst a) <> sf3 (fst b) /\ sf3 (fst a) <> sf3 zero32_x
  | _, _ => False end.
Proof. exact mirror32_ex. Qed.
Example C96_third_harmonic : match @j3_acc _ (Num_B64 sym_libm64) (b64_Z 0) [b64_Z 3; b64_Z 1; b64_Z 2] [("mu", b64_Z 1); ("J3", b64_dec 1 4); ("R_eq", b64_Z 1)]%string,
                    @j3_acc _ (Num_B64 sym_libm64) (b64_Z 0) [b64_Z 3; b64_Z 1; b64_Z (-2)] [("mu", b64_Z 1); ("J3", b64_dec 1 4); ("R_eq", b64_Z 1)]%string with
  | Ok a, Ok b => sf3 (reflect (mk3 true true false) a) = sf3 b /\ sf3 a <> sf3 b | _, _ => False end.
Proof. exact j3_ex. Qed.

(** ** C97 *)
Theorem C97_kepler : forall (L : libm64),
  (forall a, d_sin L (Bopp a) = Bopp (d_sin L a)) -> (forall a, d_cos L (Bopp a) = d_cos L a) ->
  (forall a, d_sinh L (Bopp a) = Bopp (d_sinh L a)) -> (forall a, d_cosh L (Bopp a) = d_cosh L a) ->
  (forall s, d_sin L (B754_zero s) = B754_zero s) -> (forall s, d_sinh L (B754_zero s) = B754_zero s) ->
  forall (x v : V3 b64) (mu : b64), good64v 100 x -> good64v 100 v -> good64 100 mu -> 0 < B2R mu -> real64 x <> vzero ->
  forall ts : list b64,
  Forall2 (fun p q => vsame (fst p) (fst q) /\ vsame (@vneg _ (Num_B64 L) (snd p)) (snd q))
    (@kepler _ (Num_B64 L) ts x v mu) (@kepler _ (Num_B64 L) (map Bopp ts) x (@vneg _ (Num_B64 L) v) mu).
Proof. exact B64Mirror.kepler_reversed. Qed.
Print Assumptions C97_kepler.

Theorem C97_dxdx0 : forall (L : libm64),
  (forall a, d_sin L (Bopp a) = Bopp (d_sin L a)) -> (forall a, d_cos L (Bopp a) = d_cos L a) ->
  (forall a, d_sinh L (Bopp a) = Bopp (d_sinh L a)) -> (forall a, d_cosh L (Bopp a) = d_cosh L a) ->
  (forall s, d_sin L (B754_zero s) = B754_zero s) -> (forall s, d_sinh L (B754_zero s) = B754_zero s) ->
  forall (r v r0 v0 : V3 b64) (t mu : b64), let k := mk3 false false false in
  let M := @dxdx0 _ (Num_B64 L) r v r0 v0 t mu in let M' := @dxdx0 _ (Num_B64 L) r (@vneg _ (Num_B64 L) v) r0 (@vneg _ (Num_B64 L) v0) (Bopp t) mu in
  msame (b_rr M) (b_rr M') /\ msame (mreflect true k (b_rv M)) (b_rv M') /\
  msame (mreflect true k (b_vr M)) (b_vr M') /\ msame (b_vv M) (b_vv M').
Proof. exact B64Mirror.dxdx0_reversed. Qed.
Print Assumptions C97_dxdx0.

Theorem C97_kepler_single : forall (L : libm),
  (forall a, m_sin L (Bopp a) = Bopp (m_sin L a)) -> (forall a, m_cos L (Bopp a) = m_cos L a) ->
  (forall a, m_sinh L (Bopp a) = Bopp (m_sinh L a)) -> (forall a, m_cosh L (Bopp a) = m_cosh L a) ->
  (forall s, m_sin L (B754_zero s) = B754_zero s) -> (forall s, m_sinh L (B754_zero s) = B754_zero s) ->
  forall (x v : V3 b32) (mu : b32), good32v 17 x -> good32v 8 v -> good32 20 mu -> 0 < B2R mu -> real32 x <> vzero ->
  forall ts : list b32,
  Forall2 (fun p q => vsame (fst p) (fst q) /\ vsame (@vneg _ (Num_B32 L) (snd p)) (snd q))
    (@kepler _ (Num_B32 L) ts x v mu) (@kepler _ (Num_B32 L) (map Bopp ts) x (@vneg _ (Num_B32 L) v) mu).
Proof. exact B32Mirror.kepler_reversed. Qed.
Print Assumptions C97_kepler_single.

Theorem C97_dxdx0_single : forall (L : libm),
  (forall a, m_sin L (Bopp a) = Bopp (m_sin L a)) -> (forall a, m_cos L (Bopp a) = m_cos L a) ->
  (forall a, m_sinh L (Bopp a) = Bopp (m_sinh L a)) -> (forall a, m_cosh L (Bopp a) = m_cosh L a) ->
  (forall s, m_sin L (B754_zero s) = B754_zero s) -> (forall s, m_sinh L (B754_zero s) = B754_zero s) ->
  forall (r v r0 v0 : V3 b32) (t mu : b32), let k := mk3 false false false in
  let M := @dxdx0 _ (Num_B32 L) r v r0 v0 t mu in let M' := @dxdx0 _ (Num_B32 L) r (@vneg _ (Num_B32 L) v) r0 (@vneg _ (Num_B32 L) v0) (Bopp t) mu in
  msame (b_rr M) (b_rr M') /\ msame (mreflect true k (b_rv M)) (b_rv M') /\
  msame (mreflect true k (b_vr M)) (b_vr M') /\ msame (b_vv M) (b_vv M').
Proof. exact B32Mirror.dxdx0_reversed. Qed.
Print Assumptions C97_dxdx0_single.

(** a library that meets the hypotheses, and ten minutes ahead and back *)
Example C97_library : (forall a, d_sin sym_libm64 (Bopp a) = Bopp (d_sin sym_libm64 a)) /\ (forall a, d_cos sym_libm64 (Bopp a) = d_cos sym_libm64 a) /\
  (forall a, d_sinh sym_libm64 (Bopp a) = Bopp (d_sinh sym_libm64 a)) /\ (forall a, d_cosh sym_libm64 (Bopp a) = d_cosh sym_libm64 a) /\
  (forall s, d_sin sym_libm64 (B754_zero s) = B754_zero s) /\ (forall s, d_sinh sym_libm64 (B754_zero s) = B754_zero s).
Proof. exact sym64_ok. Qed.
Example C97_library_single : (forall a, m_sin sym_libm32 (Bopp a) = Bopp (m_sin sym_libm32 a)) /\ (forall a, m_cos sym_libm32 (Bopp a) = m_cos sym_libm32 a) /\
  (forall a, m_sinh sym_libm32 (Bopp a) = Bopp (m_sinh sym_libm32 a)) /\ (forall a, m_cosh sym_libm32 (Bopp a) = m_cosh sym_libm32 a) /\
  (forall s, m_sin sym_libm32 (B754_zero s) = B754_zero s) /\ (forall s, m_sinh sym_libm32 (B754_zero s) = B754_zero s).
Proof. exact sym32_ok. Qed.
Example C97_rows : match @kepler _ (Num_B64 sym_libm64) [b64_Z 600] zero64_x zero64_v (b64_Z 398600),
                          @kepler _ (Num_B64 sym_libm64) [b64_Z (-600)] zero64_x (@vneg _ (Num_B64 sym_libm64) zero64_v) (b64_Z 398600) with
  | [a], [b] => sf3 (fst a) = sf3 (fst b) /\ sf3 (@vneg _ (Num_B64 sym_libm64) (snd a)) = sf3 (snd b) /\ sf3 (fst a) <> sf3 zero64_x /\ sf3 (snd a) <> sf3 (snd b)
  | _, _ => False end.
Proof. exact reverse64_ex. Qed.
Example C97_rows_single : match @kepler _ (Num_B32 sym_libm32) [b32_Z 600] zero32_x zero32_v (b32_Z 398600),
                          @kepler _ (Num_B32 sym_libm32) [b32_Z (-600)] zero32_x (@vneg _ (Num_B32 sym_libm32) zero32_v) (b32_Z 398600) with
  | [a], [b] => sf3 (fst a) = sf3 (fst b) /\ sf3 (@vneg _ (Num_B32 sym_libm32) (snd a)) = sf3 (snd b) /\ sf3 (fst a) <> sf3 zero32_x /\ sf3 (snd a) <> sf3 (snd b)
  | _, _ => False end.
Proof. exact reverse32_ex. Qed.

(** ** C98 *)
Theorem C98_elliptic : forall (L : libm64),
  (forall a, d_sin L (Bopp a) = Bopp (d_sin L a)) -> (forall a, d_cos L (Bopp a) = d_cos L a) -> (forall s, d_sin L (B754_zero s) = B754_zero s) ->
  forall (M e : b64) (max_iter : Z), Rabs (B2R (@elps_guess _ (Num_B64 L) M e)) <> 34359738368 ->
  fsame (Bopp (@solve_kepler_elps _ (Num_B64 L) M e (@default_tol _ (Num_B64 L)) max_iter))
        (@solve_kepler_elps _ (Num_B64 L) (Bopp M) e (@default_tol _ (Num_B64 L)) max_iter).
Proof. exact B64Odd.elps_odd. Qed.
Print Assumptions C98_elliptic.

Theorem C98_start_refuted : exists (L : libm64) (M e : b64),
  ((forall a, d_sin L (Bopp a) = Bopp (d_sin L a)) /\ (forall a, d_cos L (Bopp a) = d_cos L a) /\ (forall s, d_sin L (B754_zero s) = B754_zero s)) /\
  ~ fsame (Bopp (@solve_kepler_elps _ (Num_B64 L) M e (@default_tol _ (Num_B64 L)) elps_max_iter)) (@solve_kepler_elps _ (Num_B64 L) (Bopp M) e (@default_tol _ (Num_B64 L)) elps_max_iter).
Proof. exact odd64_refuted. Qed.
Print Assumptions C98_start_refuted.

Theorem C98_elliptic_single : forall (L : libm),
  (forall a, m_sin L (Bopp a) = Bopp (m_sin L a)) -> (forall a, m_cos L (Bopp a) = m_cos L a) -> (forall s, m_sin L (B754_zero s) = B754_zero s) ->
  forall (M e : b32) (max_iter : Z), Rabs (B2R (@elps_guess _ (Num_B32 L) M e)) <> 64 ->
  fsame (Bopp (@solve_kepler_elps _ (Num_B32 L) M e (@default_tol _ (Num_B32 L)) max_iter))
        (@solve_kepler_elps _ (Num_B32 L) (Bopp M) e (@default_tol _ (Num_B32 L)) max_iter).
Proof. exact B32Odd.elps_odd. Qed.
Print Assumptions C98_elliptic_single.

Theorem C98_start_single_refuted : exists (L : libm) (M e : b32),
  ((forall a, m_sin L (Bopp a) = Bopp (m_sin L a)) /\ (forall a, m_cos L (Bopp a) = m_cos L a) /\ (forall s, m_sin L (B754_zero s) = B754_zero s)) /\
  ~ fsame (Bopp (@solve_kepler_elps _ (Num_B32 L) M e (@default_tol _ (Num_B32 L)) elps_max_iter)) (@solve_kepler_elps _ (Num_B32 L) (Bopp M) e (@default_tol _ (Num_B32 L)) elps_max_iter).
Proof. exact odd32_refuted. Qed.
Print Assumptions C98_start_single_refuted.

(** 64 against -64.0099, and 2^35 against -(2^35 + 0.0295) *)
Example C98_run : let N := Num_B64 sym_libm64 in
  B2SF (@solve_kepler_elps _ N odd_M64 (b64_dec 3 4) (@default_tol _ N) elps_max_iter) = SpecFloat.S754_finite false 4503599627370496 (-17) /\
  B2SF (@solve_kepler_elps _ N (Bopp odd_M64) (b64_dec 3 4) (@default_tol _ N) elps_max_iter) = SpecFloat.S754_finite true 4503599627374365 (-17).
Proof. exact odd64_ex. Qed.
Example C98_run_single : let N := Num_B32 sym_libm32 in
  B2SF (@solve_kepler_elps _ N odd_M32 (b32_dec 1 2) (@default_tol _ N) elps_max_iter) = SpecFloat.S754_finite false 8388608 (-17) /\
  B2SF (@solve_kepler_elps _ N (Bopp odd_M32) (b32_dec 1 2) (@default_tol _ N) elps_max_iter) = SpecFloat.S754_finite true 8389906 (-17).
Proof. exact odd32_ex. Qed.
Example C98_plain : let N := Num_B32 sym_libm32 in
  B2SF (@solve_kepler_elps _ N (b32_Z 2) (b32_dec 1 2) (@default_tol _ N) elps_max_iter) =
  SpecFloat.SFopp (B2SF (@solve_kepler_elps _ N (b32_Z (-2)) (b32_dec 1 2) (@default_tol _ N) elps_max_iter)).
Proof. exact odd_plain. Qed.
