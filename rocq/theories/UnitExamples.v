(** * UnitExamples: an [arctan2] that does not depend on units, and runs behind the examples of C99 and C100 *)
From Coq Require Import ZArith Reals Lra Lia Bool List String.
From Flocq Require Import Core IEEE754.BinarySingleNaN.
From Verif Require Import Num NumW NumB32 NumB64 LibmRef LibmRef64 SpecUnits UnitFloat UnitCalc OrbIntegrals OrbElements PathCheck Gravity KepEqu StateTrans PropKepler ZeroExamples MirrorExamples.
Import ListNotations.
Local Open Scope Z_scope.

Lemma ieee64 (L : libm64) : ieee prec53 max1024 (Num_B64 L). Proof. constructor; reflexivity. Qed.
Lemma ieee32 (L : libm) : ieee prec24 max128 (Num_B32 L). Proof. constructor; reflexivity. Qed.
Lemma tol64 (L : libm64) : is_finite (@default_tol _ (Num_B64 L)) = true. Proof. vm_compute. reflexivity. Qed.
Lemma tol32 (L : libm) : is_finite (@default_tol _ (Num_B32 L)) = true. Proof. vm_compute. reflexivity. Qed.

(** ** an [arctan2] computed from the quotient *)
Section Quot.
  Context {prec emax : Z} (Hp : FLX.Prec_gt_0 prec) (Hm : Prec_lt_emax prec emax).
  Notation bf := (binary_float prec emax).
  Definition quot2 (one : bf) (f : bf -> bf -> bf) (y x : bf) : bf :=
    if is_zero x then (if is_zero y then f y x else f (if Bsign y then Bopp one else one) x)
    else f (Bdiv mode_NE y (Babs x)) (if Bsign x then Bopp one else one).
  Lemma is_zero_R (x : bf) : is_finite x = true -> is_zero x = false -> B2R x <> 0%R.
  Proof using.
    destruct x as [s|s| |s m e B]; try discriminate. intros _ _. cbn [B2R]. intros H. apply eq_0_F2R in H. destruct s; discriminate.
  Qed.
  Lemma div_same (k : Z) (y y' x x' : bf) : scaled k y y' -> scaled k x x' -> is_zero x = false -> Bdiv mode_NE y' x' = Bdiv mode_NE y x.
  Proof using.
    intros (Fy & Fy' & Sy & Ry) (Fx & Fx' & Sx & Rx) Zx. pose proof (is_zero_R x Fx Zx) as X0. pose proof (bpow_gt_0 radix2 k) as Bk.
    assert (X0' : B2R x' <> 0%R) by (rewrite Rx; apply Rmult_integral_contrapositive_currified; lra).
    assert (Q : (B2R y' / B2R x' = B2R y / B2R x)%R) by (rewrite Ry, Rx; field; split; first [exact X0|lra]).
    pose proof (Bdiv_correct prec emax _ _ mode_NE y x X0) as C. pose proof (Bdiv_correct prec emax _ _ mode_NE y' x' X0') as C'. rewrite Q in C'.
    destruct (Rlt_bool _ _).
    - destruct C as (C1 & C2 & C3), C' as (C1' & C2' & C3'). rewrite Fy in C2. rewrite Fy' in C2'.
      assert (nn : forall z : bf, is_finite z = true -> is_nan z = false) by now destruct z.
      apply B2R_Bsign_inj; try assumption; [rewrite C1, C1'; reflexivity|]. rewrite C3, C3' by (now apply nn). now rewrite Sy, Sx.
    - apply B2SF_inj. rewrite C, C'. now rewrite Sy, Sx.
  Qed.
  Lemma quot_hom (one : bf) (f : bf -> bf -> bf) : hom2 (quot2 one f).
  Proof using.
    intros k y y' x x' Y X. unfold quot2.
    assert (Z : forall a b : bf, scaled k a b -> is_zero b = is_zero a).
    { intros a b S. destruct (is_zero a) eqn:E; [now rewrite (scaled_is_zero _ _ k a b S E)|]. destruct S as (Fa & Fb & _ & R).
      destruct (is_zero b) eqn:E'; [|reflexivity]. destruct (zero_R _ _ b E') as [_ Eb]. pose proof (is_zero_R a Fa E) as A0. pose proof (bpow_gt_0 radix2 k).
      rewrite Eb in R. symmetry in R. apply Rmult_integral in R. destruct R as [R|R]; [contradiction|lra]. }
    rewrite (Z _ _ X), (Z _ _ Y). destruct (is_zero x) eqn:Ex.
    - rewrite (scaled_is_zero _ _ k x x' X Ex). destruct (is_zero y) eqn:Ey; [now rewrite (scaled_is_zero _ _ k y y' Y Ey)|]. destruct Y as (_ & _ & -> & _). reflexivity.
    - rewrite (div_same k y y' (Babs x) (Babs x')); [|exact Y|apply sc_abs, X|now destruct x]. destruct X as (_ & _ & -> & _). reflexivity.
  Qed.
End Quot.
Definition hom_libm64 : libm64 := {|
  d_cbrt := d_cbrt ref_libm64; d_sin := d_sin ref_libm64; d_cos := d_cos ref_libm64;
  d_sinh := d_sinh ref_libm64; d_cosh := d_cosh ref_libm64; d_log := d_log ref_libm64;
  d_arccos := d_arccos ref_libm64; d_arctan2 := quot2 prec53 max1024 (b64_Z 1) (d_arctan2 ref_libm64) |}.
Definition hom_libm32 : libm := {|
  m_cbrt := m_cbrt ref_libm; m_sin := m_sin ref_libm; m_cos := m_cos ref_libm;
  m_sinh := m_sinh ref_libm; m_cosh := m_cosh ref_libm; m_log := m_log ref_libm;
  m_arccos := m_arccos ref_libm; m_arctan2 := quot2 prec24 max128 (b32_Z 1) (m_arctan2 ref_libm) |}.
Lemma hom64_ok : hom2 (d_arctan2 hom_libm64). Proof. apply quot_hom. Qed.
Lemma hom32_ok : hom2 (m_arctan2 hom_libm32). Proof. apply quot_hom. Qed.

(** ** runs *)
Definition up64 (k : Z) (a : b64) : b64 := b64_mul a (if (0 <=? k) then b64_Z (2 ^ k) else b64_div (b64_Z 1) (b64_Z (2 ^ (- k)))).
Definition up32 (k : Z) (a : b32) : b32 := b32_mul a (if (0 <=? k) then b32_Z (2 ^ k) else b32_div (b32_Z 1) (b32_Z (2 ^ (- k)))).
Definition all3 {A : Type} (a : V3 (option A)) : bool := match a with mk3 (Some _) (Some _) (Some _) => true | _ => false end.
Definition allm {A : Type} (a : M3 (option A)) : bool := all3 (c0 a) && all3 (c1 a) && all3 (c2 a).
Definition is_some {A : Type} (a : option A) : bool := match a with Some _ => true | None => false end.
Definition G64 (K : Z) : Num (option b64) := @Num_W 53 1024 (Num_B64 hom_libm64) K.
Definition G32 (K : Z) : Num (option b32) := @Num_W 24 128 (Num_B32 hom_libm32) K.
Definition some64 (a : V3 b64) : V3 (option b64) := @vsome 53 1024 a.
Definition some32 (a : V3 b32) : V3 (option b32) := @vsome 24 128 a.
Definition moved {p e : Z} (f : binary_float p e -> binary_float p e) (x : V3 (binary_float p e)) (l l' : list (V3 (binary_float p e) * V3 (binary_float p e))) : Prop :=
  match l, l' with
  | [a; b], [a'; b'] => sf3 (fst a') = sf3 (fst a) /\ sf3 (snd a') = sf3 (vmap3 f (snd a)) /\ sf3 (fst b') = sf3 (fst b) /\ sf3 (snd b') = sf3 (vmap3 f (snd b)) /\
      sf3 (fst a) <> sf3 x /\ sf3 (fst a) <> sf3 (fst b)
  | _, _ => False end.
(** a time unit 1024 times shorter *)
Lemma kepler64_ex :
  forallb (fun g => all3 (fst g) && all3 (snd g)) (@kepler _ (G64 40) [Some (b64_Z 600); Some (b64_Z (-300))] (some64 zero64_x) (some64 zero64_v) (Some (b64_Z 398600))) = true /\
  moved (up64 (-10)) zero64_x (@kepler _ (Num_B64 hom_libm64) [b64_Z 600; b64_Z (-300)] zero64_x zero64_v (b64_Z 398600))
        (@kepler _ (Num_B64 hom_libm64) [up64 10 (b64_Z 600); up64 10 (b64_Z (-300))] zero64_x (vmap3 (up64 (-10)) zero64_v) (up64 (-20) (b64_Z 398600))).
Proof. vm_compute. repeat split; discriminate. Qed.
Definition can_x : V3 b32 := mk3 (b32_Z 1) (b32_dec 1 8) (b32_Z 0).
Definition can_v : V3 b32 := mk3 (b32_Z 0) (b32_dec 3 4) (b32_dec 1 2).
Lemma kepler32_ex :
  forallb (fun g => all3 (fst g) && all3 (snd g)) (@kepler _ (G32 40) [Some (b32_dec 1 4); Some (b32_dec (-1) 2)] (some32 can_x) (some32 can_v) (Some (b32_Z 1))) = true /\
  moved (up32 (-10)) can_x (@kepler _ (Num_B32 hom_libm32) [b32_dec 1 4; b32_dec (-1) 2] can_x can_v (b32_Z 1))
        (@kepler _ (Num_B32 hom_libm32) [up32 10 (b32_dec 1 4); up32 10 (b32_dec (-1) 2)] can_x (vmap3 (up32 (-10)) can_v) (up32 (-20) (b32_Z 1))).
Proof. vm_compute. repeat split; discriminate. Qed.
(** the equality of every entry with the entry of another run times [2^k] *)
Definition eqb3 {p e : Z} (f : binary_float p e -> binary_float p e) (a b : V3 (binary_float p e)) : Prop := sf3 (vmap3 f a) = sf3 b.
Definition eqbm {p e : Z} (f : binary_float p e -> binary_float p e) (a b : M3 (binary_float p e)) : Prop := eqb3 f (c0 a) (c0 b) /\ eqb3 f (c1 a) (c1 b) /\ eqb3 f (c2 a) (c2 b).
Definition eqb6 {p e : Z} (u d : binary_float p e -> binary_float p e) (a b : @M6 (binary_float p e)) : Prop :=
  eqbm (fun x => x) (b_rr a) (b_rr b) /\ eqbm u (b_rv a) (b_rv b) /\ eqbm d (b_vr a) (b_vr b) /\ eqbm (fun x => x) (b_vv a) (b_vv b) /\ sf3 (c0 (b_rv a)) <> sf3 (c0 (b_rv b)).
Definition all6 {A : Type} (a : @M6 (option A)) : bool := allm (b_rr a) && allm (b_rv a) && allm (b_vr a) && allm (b_vv a).
(** lengths times 4, times times 8: the matrix from a state to the state ten minutes later *)
Definition later64 : V3 b64 * V3 b64 := hd (zero64_x, zero64_v) (@kepler _ (Num_B64 hom_libm64) [b64_Z 600] zero64_x zero64_v (b64_Z 398600)).
Lemma dxdx0_64_ex : all6 (@dxdx0 _ (G64 40) (some64 (fst later64)) (some64 (snd later64)) (some64 zero64_x) (some64 zero64_v) (Some (b64_Z 600)) (Some (b64_Z 398600))) = true /\
  eqb6 (up64 3) (up64 (-3)) (@dxdx0 _ (Num_B64 hom_libm64) (fst later64) (snd later64) zero64_x zero64_v (b64_Z 600) (b64_Z 398600))
    (@dxdx0 _ (Num_B64 hom_libm64) (vmap3 (up64 2) (fst later64)) (vmap3 (up64 (-1)) (snd later64)) (vmap3 (up64 2) zero64_x) (vmap3 (up64 (-1)) zero64_v) (up64 3 (b64_Z 600)) (b64_Z 398600)).
Proof. vm_compute. repeat split; discriminate. Qed.
Definition later32 : V3 b32 * V3 b32 := hd (can_x, can_v) (@kepler _ (Num_B32 hom_libm32) [b32_dec 1 4] can_x can_v (b32_Z 1)).
Lemma dxdx0_32_ex : all6 (@dxdx0 _ (G32 40) (some32 (fst later32)) (some32 (snd later32)) (some32 can_x) (some32 can_v) (Some (b32_dec 1 4)) (Some (b32_Z 1))) = true /\
  eqb6 (up32 3) (up32 (-3)) (@dxdx0 _ (Num_B32 hom_libm32) (fst later32) (snd later32) can_x can_v (b32_dec 1 4) (b32_Z 1))
    (@dxdx0 _ (Num_B32 hom_libm32) (vmap3 (up32 2) (fst later32)) (vmap3 (up32 (-1)) (snd later32)) (vmap3 (up32 2) can_x) (vmap3 (up32 (-1)) can_v) (up32 3 (b32_dec 1 4)) (b32_Z 1)).
Proof. vm_compute. repeat split; discriminate. Qed.
(** the solver with the tolerance in the new units: [l = 2], [tau = 1] *)
Lemma solver64_ex : is_some (@solve_kepler_uni _ (G64 40) (Some (b64_Z 1)) (Some (b64_dec 1 2)) (Some (b64_Z 1)) (Some (b64_dec 1 4)) (Some (b64_Z 1)) (Some (b64_dec 1 1000000)) 50) = true /\
  let a := @solve_kepler_uni _ (Num_B64 hom_libm64) (b64_Z 1) (b64_dec 1 2) (b64_Z 1) (b64_dec 1 4) (b64_Z 1) (b64_dec 1 1000000) 50 in
  let b := @solve_kepler_uni _ (Num_B64 hom_libm64) (b64_Z 2) (b64_dec 1 32) (b64_Z 16) (b64_Z 1) (b64_Z 1024) (up64 6 (b64_dec 1 1000000)) 50 in
  B2SF b = B2SF (up64 2 a) /\ B2SF b <> B2SF a.
Proof. vm_compute. repeat split; discriminate. Qed.
Lemma solver32_ex : is_some (@solve_kepler_uni _ (G32 40) (Some (b32_Z 1)) (Some (b32_dec 1 2)) (Some (b32_Z 1)) (Some (b32_dec 1 4)) (Some (b32_Z 1)) (Some (b32_dec 1 1000000)) 50) = true /\
  let a := @solve_kepler_uni _ (Num_B32 hom_libm32) (b32_Z 1) (b32_dec 1 2) (b32_Z 1) (b32_dec 1 4) (b32_Z 1) (b32_dec 1 1000000) 50 in
  let b := @solve_kepler_uni _ (Num_B32 hom_libm32) (b32_Z 2) (b32_dec 1 32) (b32_Z 16) (b32_Z 1) (b32_Z 1024) (up32 6 (b32_dec 1 1000000)) 50 in
  B2SF b = B2SF (up32 2 a) /\ B2SF b <> B2SF a.
Proof. vm_compute. repeat split; discriminate. Qed.
(** elements: lengths times 8, times times 2 *)
Definition somes {A : Type} (c : @coe (option A)) : bool := is_some (coe_p c) && is_some (coe_e c) && is_some (coe_incl c) && is_some (coe_raan c) && is_some (coe_argp c) && is_some (coe_f c).
Definition sfc {p e : Z} (c : @coe (binary_float p e)) := [B2SF (coe_e c); B2SF (coe_incl c); B2SF (coe_raan c); B2SF (coe_argp c); B2SF (coe_f c)].
Lemma coe64_ex : somes (@rv2coe _ (G64 40) (some64 zero64_x) (some64 zero64_v) (Some (b64_Z 398600))) = true /\
  let a := @rv2coe _ (Num_B64 hom_libm64) zero64_x zero64_v (b64_Z 398600) in
  let b := @rv2coe _ (Num_B64 hom_libm64) (vmap3 (up64 3) zero64_x) (vmap3 (up64 2) zero64_v) (up64 7 (b64_Z 398600)) in
  sfc b = sfc a /\ B2SF (coe_p b) = B2SF (up64 3 (coe_p a)) /\ B2SF (coe_p b) <> B2SF (coe_p a).
Proof. vm_compute. repeat split; discriminate. Qed.
Lemma coe32_ex : somes (@rv2coe _ (G32 40) (some32 zero32_x) (some32 zero32_v) (Some (b32_Z 398600))) = true /\
  let a := @rv2coe _ (Num_B32 hom_libm32) zero32_x zero32_v (b32_Z 398600) in
  let b := @rv2coe _ (Num_B32 hom_libm32) (vmap3 (up32 3) zero32_x) (vmap3 (up32 2) zero32_v) (up32 7 (b32_Z 398600)) in
  sfc b = sfc a /\ B2SF (coe_p b) = B2SF (up32 3 (coe_p a)) /\ B2SF (coe_p b) <> B2SF (coe_p a).
Proof. vm_compute. repeat split; discriminate. Qed.
Lemma vectors64_ex : all3 (@angular_momentum _ (G64 40) (some64 zero64_x) (some64 zero64_v)) && all3 (@eccentricity_vector _ (G64 40) (some64 zero64_x) (some64 zero64_v) (Some (b64_Z 398600))) &&
    is_some (@semimajor_axis _ (G64 40) (@vector_norm _ (G64 40) (some64 zero64_x)) (@vector_norm _ (G64 40) (some64 zero64_v)) (Some (b64_Z 398600))) = true /\
  sf3 (@eccentricity_vector _ (Num_B64 hom_libm64) (vmap3 (up64 3) zero64_x) (vmap3 (up64 2) zero64_v) (up64 7 (b64_Z 398600))) = sf3 (@eccentricity_vector _ (Num_B64 hom_libm64) zero64_x zero64_v (b64_Z 398600)).
Proof. vm_compute. repeat split; discriminate. Qed.
Lemma vectors32_ex : all3 (@angular_momentum _ (G32 40) (some32 zero32_x) (some32 zero32_v)) && all3 (@eccentricity_vector _ (G32 40) (some32 zero32_x) (some32 zero32_v) (Some (b32_Z 398600))) &&
    is_some (@semimajor_axis _ (G32 40) (@vector_norm _ (G32 40) (some32 zero32_x)) (@vector_norm _ (G32 40) (some32 zero32_v)) (Some (b32_Z 398600))) = true /\
  sf3 (@eccentricity_vector _ (Num_B32 hom_libm32) (vmap3 (up32 3) zero32_x) (vmap3 (up32 2) zero32_v) (up32 7 (b32_Z 398600))) = sf3 (@eccentricity_vector _ (Num_B32 hom_libm32) zero32_x zero32_v (b32_Z 398600)).
Proof. vm_compute. repeat split; discriminate. Qed.
Lemma coe2rv64_ex : let G := @coe2rv _ (G64 40) (Some (b64_Z 7000)) (Some (b64_dec 1 10)) (Some (b64_Z 1)) (Some (b64_Z 2)) (Some (b64_Z 3)) (Some (b64_dec 1 3)) (Some (b64_Z 398600)) in
  let A := @coe2rv _ (Num_B64 hom_libm64) (b64_Z 7000) (b64_dec 1 10) (b64_Z 1) (b64_Z 2) (b64_Z 3) (b64_dec 1 3) (b64_Z 398600) in
  let B := @coe2rv _ (Num_B64 hom_libm64) (up64 3 (b64_Z 7000)) (b64_dec 1 10) (b64_Z 1) (b64_Z 2) (b64_Z 3) (b64_dec 1 3) (up64 7 (b64_Z 398600)) in
  all3 (fst G) && all3 (snd G) = true /\ sf3 (fst B) = sf3 (vmap3 (up64 3) (fst A)) /\ sf3 (snd B) = sf3 (vmap3 (up64 2) (snd A)).
Proof. vm_compute. repeat split; discriminate. Qed.
Lemma coe2rv32_ex : let G := @coe2rv _ (G32 40) (Some (b32_Z 7000)) (Some (b32_dec 1 10)) (Some (b32_Z 1)) (Some (b32_Z 2)) (Some (b32_Z 3)) (Some (b32_dec 1 3)) (Some (b32_Z 398600)) in
  let A := @coe2rv _ (Num_B32 hom_libm32) (b32_Z 7000) (b32_dec 1 10) (b32_Z 1) (b32_Z 2) (b32_Z 3) (b32_dec 1 3) (b32_Z 398600) in
  let B := @coe2rv _ (Num_B32 hom_libm32) (up32 3 (b32_Z 7000)) (b32_dec 1 10) (b32_Z 1) (b32_Z 2) (b32_Z 3) (b32_dec 1 3) (up32 7 (b32_Z 398600)) in
  all3 (fst G) && all3 (snd G) = true /\ sf3 (fst B) = sf3 (vmap3 (up32 3) (fst A)) /\ sf3 (snd B) = sf3 (vmap3 (up32 2) (snd A)).
Proof. vm_compute. repeat split; discriminate. Qed.
Lemma scalars64_ex : is_some (@orb_period _ (G64 40) (Some (b64_Z 7000)) (Some (b64_Z 398600))) && is_some (@mean_anomaly_elps _ (G64 40) (Some (b64_Z 7000)) (Some (b64_Z 60)) (Some (b64_Z 398600))) &&
    is_some (@mean_anomaly_hypb _ (G64 40) (Some (b64_Z (-7000))) (Some (b64_Z 60)) (Some (b64_Z 398600))) && is_some (@nmax_by_periapsis _ (G64 40) (Some (b64_Z 6500)) (Some (b64_Z 7000)) (Some (b64_Z 8000)) (Some (b64_Z 20000)) (Some (b64_Z 398600))) = true /\
  B2SF (@orb_period _ (Num_B64 hom_libm64) (b64_Z 56000) (up64 7 (b64_Z 398600))) = B2SF (up64 1 (@orb_period _ (Num_B64 hom_libm64) (b64_Z 7000) (b64_Z 398600))) /\
  B2SF (@nmax_by_periapsis _ (Num_B64 hom_libm64) (b64_Z 6500) (b64_Z 7000) (b64_Z 8000) (b64_Z 20000) (b64_Z 398600)) = B2SF (b64_Z 3).
Proof. vm_compute. repeat split; discriminate. Qed.
Lemma scalars32_ex : is_some (@orb_period _ (G32 40) (Some (b32_Z 7000)) (Some (b32_Z 398600))) && is_some (@mean_anomaly_elps _ (G32 40) (Some (b32_Z 7000)) (Some (b32_Z 60)) (Some (b32_Z 398600))) &&
    is_some (@mean_anomaly_hypb _ (G32 40) (Some (b32_Z (-7000))) (Some (b32_Z 60)) (Some (b32_Z 398600))) && is_some (@nmax_by_periapsis _ (G32 40) (Some (b32_Z 6500)) (Some (b32_Z 7000)) (Some (b32_Z 8000)) (Some (b32_Z 20000)) (Some (b32_Z 398600))) = true /\
  B2SF (@orb_period _ (Num_B32 hom_libm32) (b32_Z 56000) (up32 7 (b32_Z 398600))) = B2SF (up32 1 (@orb_period _ (Num_B32 hom_libm32) (b32_Z 7000) (b32_Z 398600))) /\
  B2SF (@nmax_by_periapsis _ (Num_B32 hom_libm32) (b32_Z 6500) (b32_Z 7000) (b32_Z 8000) (b32_Z 20000) (b32_Z 398600)) = B2SF (b32_Z 3).
Proof. vm_compute. repeat split; discriminate. Qed.
(** path checks *)
Lemma path64_ex : let n := G64 40 in let x := some64 zero64_x in let v := some64 zero64_v in let y := some64 (mk3 (b64_Z (-5000)) (b64_Z 4000) (b64_Z 100)) in
  let e := @eccentricity_vector _ n x v (Some (b64_Z 398600)) in
  is_some (@vinner _ n (@vcross _ n x v) (@vcross _ n x y)) && is_some (@vinner _ n (@vcross _ n x y) (@vcross _ n x e)) && is_some (@vinner _ n (@vcross _ n x y) (@vcross _ n e y)) &&
  is_some (@radius_periapsis _ n (@semiparameter _ n (@vector_norm _ n (@angular_momentum _ n x v)) (Some (b64_Z 398600))) (@vector_norm _ n e)) = true /\
  @is_short_way _ (Num_B64 hom_libm64) zero64_x zero64_v (mk3 (b64_Z (-5000)) (b64_Z 4000) (b64_Z 100)) = true.
Proof. vm_compute. split; reflexivity. Qed.
Lemma path32_ex : let n := G32 40 in let x := some32 zero32_x in let v := some32 zero32_v in let y := some32 (mk3 (b32_Z (-5000)) (b32_Z 4000) (b32_Z 100)) in
  let e := @eccentricity_vector _ n x v (Some (b32_Z 398600)) in
  is_some (@vinner _ n (@vcross _ n x v) (@vcross _ n x y)) && is_some (@vinner _ n (@vcross _ n x y) (@vcross _ n x e)) && is_some (@vinner _ n (@vcross _ n x y) (@vcross _ n e y)) &&
  is_some (@radius_periapsis _ n (@semiparameter _ n (@vector_norm _ n (@angular_momentum _ n x v)) (Some (b32_Z 398600))) (@vector_norm _ n e)) = true /\
  @is_short_way _ (Num_B32 hom_libm32) zero32_x zero32_v (mk3 (b32_Z (-5000)) (b32_Z 4000) (b32_Z 100)) = true.
Proof. vm_compute. split; reflexivity. Qed.
(** forces: lengths times 8, times times 2; in single precision r^7 leaves little room *)
Definition allr {A : Type} (r : res (V3 (option A))) : bool := match r with Ok a => all3 a | Raise _ => false end.
Definition sfr {p e : Z} (f : binary_float p e -> binary_float p e) (r : res (V3 (binary_float p e))) := match r with Ok a => Some (sf3 (vmap3 f a)) | Raise _ => None end.
Definition d64 (s : string) (mu R : b64) : list (string * b64) := [("mu"%string, mu); (s, b64_dec 1 1000); ("R_eq"%string, R)].
Definition gd64 (s : string) : list (string * option b64) := [("mu"%string, Some (b64_Z 398600)); (s, Some (b64_dec 1 1000)); ("R_eq"%string, Some (b64_Z 6378))].
Lemma forces64_ex : let x := [b64_Z 7000; b64_Z 300; b64_Z 4000] in let g := map Some x in let x' := map (up64 3) x in let t := b64_Z 0 in let u := up64 7 (b64_Z 398600) in let R := up64 3 (b64_Z 6378) in
  allr (@point_mass_grav _ (G64 40) None g (gd64 "J2")) && allr (@j2_acc _ (G64 40) None g (gd64 "J2")) && allr (@j3_acc _ (G64 40) None g (gd64 "J3")) && allr (@j4_acc _ (G64 40) None g (gd64 "J4")) = true /\
  sfr (fun a => a) (@j3_acc _ (Num_B64 hom_libm64) t x' (d64 "J3" u R)) = sfr (up64 1) (@j3_acc _ (Num_B64 hom_libm64) t x (d64 "J3" (b64_Z 398600) (b64_Z 6378))) /\
  sfr (fun a => a) (@j3_acc _ (Num_B64 hom_libm64) t x' (d64 "J3" u R)) <> None.
Proof. vm_compute. repeat split; discriminate. Qed.
Definition d32 (s : string) (mu R : b32) : list (string * b32) := [("mu"%string, mu); (s, b32_dec 1 1000); ("R_eq"%string, R)].
Definition gd32 (s : string) : list (string * option b32) := [("mu"%string, Some (b32_Z 1)); (s, Some (b32_dec 1 1000)); ("R_eq"%string, Some (b32_Z 1))].
Lemma forces32_ex : let x := [b32_Z 1; b32_dec 1 3; b32_dec 1 2] in let g := map Some x in let x' := map (up32 3) x in let t := b32_Z 0 in let u := up32 7 (b32_Z 1) in let R := up32 3 (b32_Z 1) in
  allr (@point_mass_grav _ (G32 40) None g (gd32 "J2")) && allr (@j2_acc _ (G32 40) None g (gd32 "J2")) && allr (@j3_acc _ (G32 40) None g (gd32 "J3")) && allr (@j4_acc _ (G32 40) None g (gd32 "J4")) = true /\
  sfr (fun a => a) (@j3_acc _ (Num_B32 hom_libm32) t x' (d32 "J3" u R)) = sfr (up32 1) (@j3_acc _ (Num_B32 hom_libm32) t x (d32 "J3" (b32_Z 1) (b32_Z 1))) /\
  sfr (fun a => a) (@j3_acc _ (Num_B32 hom_libm32) t x' (d32 "J3" u R)) <> None.
Proof. vm_compute. repeat split; discriminate. Qed.
