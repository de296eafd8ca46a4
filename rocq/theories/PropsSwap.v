(** * Property C107: exchanging the axes x and y in floating point

    Theorems only; proofs are in [SgnSwap], [SwapFloat] and [SwapExamples].  The [_single] theorems are
    about single precision, the others about double precision (jax_enable_x64). *)
From Coq Require Import ZArith Reals Bool List String.
From Flocq Require Import Core IEEE754.BinarySingleNaN.
From Verif Require Import Num NumB32 NumB64 LibmRef LibmRef64 SpecMirror SpecSwap.
From Verif Require Import OrbIntegrals Uniformulas PathCheck Gravity StateTrans PropKepler SwapFloat ZeroExamples SwapExamples.
Import ListNotations.

(** ** C107 *)
(** [exchange] exchanges the first two entries, [mexchange] the first two rows and columns.  Equality is that of the bits, up to the payload of a NaN. *)
Theorem C107_kepler : forall (L : libm64) (ts : list b64) (x v : V3 b64) (mu : b64),
  @kepler _ (Num_B64 L) ts (exchange x) (exchange v) mu = map (fun p => (exchange (fst p), exchange (snd p))) (@kepler _ (Num_B64 L) ts x v mu).
Proof. exact kepler_exchange64. Qed.
Print Assumptions C107_kepler.

Theorem C107_dxdx0 : forall (L : libm64) (r v r0 v0 : V3 b64) (t mu : b64),
  let M := @dxdx0 _ (Num_B64 L) r v r0 v0 t mu in let M' := @dxdx0 _ (Num_B64 L) (exchange r) (exchange v) (exchange r0) (exchange v0) t mu in
  b_rr M' = mexchange (b_rr M) /\ b_rv M' = mexchange (b_rv M) /\ b_vr M' = mexchange (b_vr M) /\ b_vv M' = mexchange (b_vv M).
Proof. exact dxdx0_exchange64. Qed.
Print Assumptions C107_dxdx0.

(** the exchange turns left into right: the angular momentum also changes its sign; [vsame] allows a zero of the other sign *)
Theorem C107_elements : forall (L : libm64) (x v : V3 b64) (mu rmin : b64),
  @vector_norm _ (Num_B64 L) (exchange x) = @vector_norm _ (Num_B64 L) x /\
  @sigma_fn _ (Num_B64 L) (exchange x) (exchange v) mu = @sigma_fn _ (Num_B64 L) x v mu /\
  (let h := @angular_momentum _ (Num_B64 L) x v in let h' := @angular_momentum _ (Num_B64 L) (exchange x) (exchange v) in
   vsame (exchange (mk3 (Bopp (c0 h)) (Bopp (c1 h)) (Bopp (c2 h)))) h' /\ @vector_norm _ (Num_B64 L) h' = @vector_norm _ (Num_B64 L) h) /\
  (let e := @eccentricity_vector _ (Num_B64 L) x v mu in let e' := @eccentricity_vector _ (Num_B64 L) (exchange x) (exchange v) mu in
   vsame (exchange e) e' /\ @vector_norm _ (Num_B64 L) e' = @vector_norm _ (Num_B64 L) e) /\
  @rp_islower_rmin _ (Num_B64 L) rmin (exchange x) (exchange v) mu = @rp_islower_rmin _ (Num_B64 L) rmin x v mu.
Proof. exact elements_exchange64. Qed.
Print Assumptions C107_elements.

Theorem C107_path_checks : forall (L : libm64) (r1 v1 r2 : V3 b64) (mu : b64),
  @is_short_way _ (Num_B64 L) (exchange r1) (exchange v1) (exchange r2) = @is_short_way _ (Num_B64 L) r1 v1 r2 /\
  @pass_perigee _ (Num_B64 L) (exchange r1) (exchange v1) (exchange r2) mu = @pass_perigee _ (Num_B64 L) r1 v1 r2 mu.
Proof. exact checks_exchange64. Qed.
Print Assumptions C107_path_checks.

(** [rest]: what follows the position in the state array *)
Theorem C107_gravity : forall (L : libm64) (x : V3 b64) (rest rest' : list b64) (t t' : b64) (args : list (string * b64)),
  let st := fun (a : V3 b64) (l : list b64) => c0 a :: c1 a :: c2 a :: l in
  let ex := fun a : res (V3 b64) => match a with Ok u => Ok (exchange u) | Raise e => Raise e end in
  @point_mass_grav _ (Num_B64 L) t' (st (exchange x) rest') args = ex (@point_mass_grav _ (Num_B64 L) t (st x rest) args) /\
  @j2_acc _ (Num_B64 L) t' (st (exchange x) rest') args = ex (@j2_acc _ (Num_B64 L) t (st x rest) args) /\
  @j3_acc _ (Num_B64 L) t' (st (exchange x) rest') args = ex (@j3_acc _ (Num_B64 L) t (st x rest) args) /\
  @j4_acc _ (Num_B64 L) t' (st (exchange x) rest') args = ex (@j4_acc _ (Num_B64 L) t (st x rest) args) /\
  @radius_islow _ (Num_B64 L) t' (st (exchange x) rest') args = @radius_islow _ (Num_B64 L) t (st x rest) args.
Proof. exact gravity_exchange64. Qed.
Print Assumptions C107_gravity.

(** a quarter turn about the z axis, with C96 *)
Theorem C107_quarter_turn : forall (L : libm64) (ts : list b64) (x v : V3 b64) (mu : b64),
  let turn := fun a : V3 b64 => mk3 (Bopp (c1 a)) (c0 a) (c2 a) in
  Forall2 (fun p q => vsame (turn (fst p)) (fst q) /\ vsame (turn (snd p)) (snd q))
    (@kepler _ (Num_B64 L) ts x v mu) (@kepler _ (Num_B64 L) ts (turn x) (turn v) mu).
Proof. exact kepler_turn64. Qed.
Print Assumptions C107_quarter_turn.

(** exchanging y and z is not exact: already the norm changes *)
Theorem C107_last_axes_differ : forall L : libm64, exists x : V3 b64, @vector_norm _ (Num_B64 L) (exchange_last x) <> @vector_norm _ (Num_B64 L) x.
Proof. exact last_64_differ. Qed.
Print Assumptions C107_last_axes_differ.

Theorem C107_kepler_single : forall (L : libm) (ts : list b32) (x v : V3 b32) (mu : b32),
  @kepler _ (Num_B32 L) ts (exchange x) (exchange v) mu = map (fun p => (exchange (fst p), exchange (snd p))) (@kepler _ (Num_B32 L) ts x v mu).
Proof. exact kepler_exchange32. Qed.
Print Assumptions C107_kepler_single.

Theorem C107_dxdx0_single : forall (L : libm) (r v r0 v0 : V3 b32) (t mu : b32),
  let M := @dxdx0 _ (Num_B32 L) r v r0 v0 t mu in let M' := @dxdx0 _ (Num_B32 L) (exchange r) (exchange v) (exchange r0) (exchange v0) t mu in
  b_rr M' = mexchange (b_rr M) /\ b_rv M' = mexchange (b_rv M) /\ b_vr M' = mexchange (b_vr M) /\ b_vv M' = mexchange (b_vv M).
Proof. exact dxdx0_exchange32. Qed.
Print Assumptions C107_dxdx0_single.

(** the exchange turns left into right: the angular momentum also changes its sign; [vsame] allows a zero of the other sign *)
Theorem C107_elements_single : forall (L : libm) (x v : V3 b32) (mu rmin : b32),
  @vector_norm _ (Num_B32 L) (exchange x) = @vector_norm _ (Num_B32 L) x /\
  @sigma_fn _ (Num_B32 L) (exchange x) (exchange v) mu = @sigma_fn _ (Num_B32 L) x v mu /\
  (let h := @angular_momentum _ (Num_B32 L) x v in let h' := @angular_momentum _ (Num_B32 L) (exchange x) (exchange v) in
   vsame (exchange (mk3 (Bopp (c0 h)) (Bopp (c1 h)) (Bopp (c2 h)))) h' /\ @vector_norm _ (Num_B32 L) h' = @vector_norm _ (Num_B32 L) h) /\
  (let e := @eccentricity_vector _ (Num_B32 L) x v mu in let e' := @eccentricity_vector _ (Num_B32 L) (exchange x) (exchange v) mu in
   vsame (exchange e) e' /\ @vector_norm _ (Num_B32 L) e' = @vector_norm _ (Num_B32 L) e) /\
  @rp_islower_rmin _ (Num_B32 L) rmin (exchange x) (exchange v) mu = @rp_islower_rmin _ (Num_B32 L) rmin x v mu.
Proof. exact elements_exchange32. Qed.
Print Assumptions C107_elements_single.

Theorem C107_path_checks_single : forall (L : libm) (r1 v1 r2 : V3 b32) (mu : b32),
  @is_short_way _ (Num_B32 L) (exchange r1) (exchange v1) (exchange r2) = @is_short_way _ (Num_B32 L) r1 v1 r2 /\
  @pass_perigee _ (Num_B32 L) (exchange r1) (exchange v1) (exchange r2) mu = @pass_perigee _ (Num_B32 L) r1 v1 r2 mu.
Proof. exact checks_exchange32. Qed.
Print Assumptions C107_path_checks_single.

(** [rest]: what follows the position in the state array *)
Theorem C107_gravity_single : forall (L : libm) (x : V3 b32) (rest rest' : list b32) (t t' : b32) (args : list (string * b32)),
  let st := fun (a : V3 b32) (l : list b32) => c0 a :: c1 a :: c2 a :: l in
  let ex := fun a : res (V3 b32) => match a with Ok u => Ok (exchange u) | Raise e => Raise e end in
  @point_mass_grav _ (Num_B32 L) t' (st (exchange x) rest') args = ex (@point_mass_grav _ (Num_B32 L) t (st x rest) args) /\
  @j2_acc _ (Num_B32 L) t' (st (exchange x) rest') args = ex (@j2_acc _ (Num_B32 L) t (st x rest) args) /\
  @j3_acc _ (Num_B32 L) t' (st (exchange x) rest') args = ex (@j3_acc _ (Num_B32 L) t (st x rest) args) /\
  @j4_acc _ (Num_B32 L) t' (st (exchange x) rest') args = ex (@j4_acc _ (Num_B32 L) t (st x rest) args) /\
  @radius_islow _ (Num_B32 L) t' (st (exchange x) rest') args = @radius_islow _ (Num_B32 L) t (st x rest) args.
Proof. exact gravity_exchange32. Qed.
Print Assumptions C107_gravity_single.

(** a quarter turn about the z axis, with C96 *)
Theorem C107_quarter_turn_single : forall (L : libm) (ts : list b32) (x v : V3 b32) (mu : b32),
  let turn := fun a : V3 b32 => mk3 (Bopp (c1 a)) (c0 a) (c2 a) in
  Forall2 (fun p q => vsame (turn (fst p)) (fst q) /\ vsame (turn (snd p)) (snd q))
    (@kepler _ (Num_B32 L) ts x v mu) (@kepler _ (Num_B32 L) ts (turn x) (turn v) mu).
Proof. exact kepler_turn32. Qed.
Print Assumptions C107_quarter_turn_single.

(** exchanging y and z is not exact: already the norm changes *)
Theorem C107_last_axes_differ_single : forall L : libm, exists x : V3 b32, @vector_norm _ (Num_B32 L) (exchange_last x) <> @vector_norm _ (Num_B32 L) x.
Proof. exact last_32_differ. Qed.
Print Assumptions C107_last_axes_differ_single.

(** ten minutes ahead on a low orbit *)
Example C107_rows : match @kepler _ (Num_B64 ref_libm64) [b64_Z 600] zero64_x zero64_v (b64_Z 398600),
                        @kepler _ (Num_B64 ref_libm64) [b64_Z 600] (exchange zero64_x) (exchange zero64_v) (b64_Z 398600) with
  | [a], [b] => sf3 (fst b) = sf3 (exchange (fst a)) /\ sf3 (snd b) = sf3 (exchange (snd a)) /\ sf3 (fst a) <> sf3 (fst b) /\ sf3 (fst a) <> sf3 zero64_x
  | _, _ => False end.
Proof. exact swap64_ex. Qed.
Example C107_rows_single : match @kepler _ (Num_B32 ref_libm) [b32_Z 600] zero32_x zero32_v (b32_Z 398600),
                        @kepler _ (Num_B32 ref_libm) [b32_Z 600] (exchange zero32_x) (exchange zero32_v) (b32_Z 398600) with
  | [a], [b] => sf3 (fst b) = sf3 (exchange (fst a)) /\ sf3 (snd b) = sf3 (exchange (snd a)) /\ sf3 (fst a) <> sf3 (fst b) /\ sf3 (fst a) <> sf3 zero32_x
  | _, _ => False end.
Proof. exact swap32_ex. Qed.
Example C107_eccentricity : let N := Num_B64 ref_libm64 in
  let e := @eccentricity_vector _ N zero64_x zero64_v (b64_Z 398600) in let e' := @eccentricity_vector _ N (exchange zero64_x) (exchange zero64_v) (b64_Z 398600) in
  sf3 e' = sf3 (exchange e) /\ sf3 e' <> sf3 e.
Proof. exact swap_ecc. Qed.
Example C107_last_case : forall L : libm64, B2SF (@vector_norm _ (Num_B64 L) (mk3 (b64_dec 12303 10) (b64_dec 63945 10) (b64_dec 3716 10))) <>
  B2SF (@vector_norm _ (Num_B64 L) (exchange_last (mk3 (b64_dec 12303 10) (b64_dec 63945 10) (b64_dec 3716 10)))).
Proof. exact last_64. Qed.
Example C107_last_case_single : forall L : libm, B2SF (@vector_norm _ (Num_B32 L) (mk3 (b32_Z 2942) (b32_Z 845) (b32_Z 2943))) <>
  B2SF (@vector_norm _ (Num_B32 L) (exchange_last (mk3 (b32_Z 2942) (b32_Z 845) (b32_Z 2943)))).
Proof. exact last_32. Qed.
