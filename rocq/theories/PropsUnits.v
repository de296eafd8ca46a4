(** * Properties C99 and C100: a change of units by powers of two in floating point

    Theorems only; proofs are in [UnitFloat], [UnitCalc] and [UnitMain], runs in [UnitExamples].
    The [_single] theorems are about single precision, the others about double precision
    (jax_enable_x64).  [scaled k a b]: b = a * 2^k, same sign.  [follows k g a b]: if the
    computation in the arithmetic [Num_W _ K], which stops ([None]) at any intermediate
    result within a factor 2^K of the ends of the range, gives [Some c], then [a = c] and
    [b] is [c * 2^k]. *)
From Coq Require Import ZArith Reals Bool List String.
From Flocq Require Import Core IEEE754.BinarySingleNaN.
From Verif Require Import Num NumW NumB32 NumB64 SpecUnits OrbIntegrals OrbElements Uniformulas PathCheck Gravity KepEqu StateTrans PropKepler ZeroExamples UnitExamples.
From Verif Require UnitMain.
Import ListNotations.
Local Open Scope Z_scope.

(** ** C99 *)
Theorem C99_kepler : forall (L : libm64) (tau K : Z) (ts ts' : list b64) (x v v' : V3 b64) (mu mu' : b64),
  4 * Z.abs tau <= K -> Forall2 (scaled tau) ts ts' -> vscaled 0 x x -> vscaled (- tau) v v' -> scaled (-2 * tau) mu mu' ->
  Forall2 (fun g p => vfollows 0 (fst g) (fst (fst p)) (fst (snd p)) /\ vfollows (- tau) (snd g) (snd (fst p)) (snd (snd p)))
    (@kepler _ (@Num_W 53 1024 (Num_B64 L) K) (map Some ts) (vsome x) (vsome v) (Some mu))
    (combine (@kepler _ (Num_B64 L) ts x v mu) (@kepler _ (Num_B64 L) ts' x v' mu')).
Proof. exact (fun L tau K ts ts' x v v' mu mu' H => UnitMain.kepler_units _ _ _ (ieee64 L) tau K ts ts' x v v' mu mu' H (tol64 L)). Qed.
Print Assumptions C99_kepler.
Example C99_kepler_case :
  forallb (fun g => all3 (fst g) && all3 (snd g)) (@kepler _ (G64 40) [Some (b64_Z 600); Some (b64_Z (-300))] (some64 zero64_x) (some64 zero64_v) (Some (b64_Z 398600))) = true /\
  moved (up64 (-10)) zero64_x (@kepler _ (Num_B64 hom_libm64) [b64_Z 600; b64_Z (-300)] zero64_x zero64_v (b64_Z 398600))
        (@kepler _ (Num_B64 hom_libm64) [up64 10 (b64_Z 600); up64 10 (b64_Z (-300))] zero64_x (vmap3 (up64 (-10)) zero64_v) (up64 (-20) (b64_Z 398600))).
Proof. exact kepler64_ex. Qed.

Theorem C99_dxdx0 : forall (L : libm64) (l tau K : Z) (r r' v v' x x' w w' : V3 b64) (t t' mu mu' : b64),
  16 * Z.abs l + 4 * Z.abs tau <= K -> vscaled (2 * l) r r' -> vscaled (2 * l - tau) v v' -> vscaled (2 * l) x x' -> vscaled (2 * l - tau) w w' ->
  scaled tau t t' -> scaled (6 * l - 2 * tau) mu mu' ->
  let G := @dxdx0 _ (@Num_W 53 1024 (Num_B64 L) K) (vsome r) (vsome v) (vsome x) (vsome w) (Some t) (Some mu) in
  let A := @dxdx0 _ (Num_B64 L) r v x w t mu in let B := @dxdx0 _ (Num_B64 L) r' v' x' w' t' mu' in
  mfollows 0 (b_rr G) (b_rr A) (b_rr B) /\ mfollows tau (b_rv G) (b_rv A) (b_rv B) /\ mfollows (- tau) (b_vr G) (b_vr A) (b_vr B) /\ mfollows 0 (b_vv G) (b_vv A) (b_vv B).
Proof. exact (fun L => UnitMain.dxdx0_units _ _ _ (ieee64 L)). Qed.
Print Assumptions C99_dxdx0.
Example C99_dxdx0_case : all6 (@dxdx0 _ (G64 40) (some64 (fst later64)) (some64 (snd later64)) (some64 zero64_x) (some64 zero64_v) (Some (b64_Z 600)) (Some (b64_Z 398600))) = true /\
  eqb6 (up64 3) (up64 (-3)) (@dxdx0 _ (Num_B64 hom_libm64) (fst later64) (snd later64) zero64_x zero64_v (b64_Z 600) (b64_Z 398600))
    (@dxdx0 _ (Num_B64 hom_libm64) (vmap3 (up64 2) (fst later64)) (vmap3 (up64 (-1)) (snd later64)) (vmap3 (up64 2) zero64_x) (vmap3 (up64 (-1)) zero64_v) (up64 3 (b64_Z 600)) (b64_Z 398600)).
Proof. exact dxdx0_64_ex. Qed.

Theorem C99_solver : forall (L : libm64) (l tau K : Z) (dt dt' al al' r0 r0' s0 s0' mu mu' tol tol' : b64) (n : Z),
  16 * Z.abs l + 4 * Z.abs tau <= K -> scaled tau dt dt' -> scaled (-2 * l) al al' -> scaled (2 * l) r0 r0' -> scaled l s0 s0' ->
  scaled (6 * l - 2 * tau) mu mu' -> scaled (3 * l) tol tol' ->
  follows l (@solve_kepler_uni _ (@Num_W 53 1024 (Num_B64 L) K) (Some dt) (Some al) (Some r0) (Some s0) (Some mu) (Some tol) n)
    (@solve_kepler_uni _ (Num_B64 L) dt al r0 s0 mu tol n) (@solve_kepler_uni _ (Num_B64 L) dt' al' r0' s0' mu' tol' n).
Proof. exact (fun L => UnitMain.solver_units _ _ _ (ieee64 L)). Qed.
Print Assumptions C99_solver.
Example C99_solver_case : is_some (@solve_kepler_uni _ (G64 40) (Some (b64_Z 1)) (Some (b64_dec 1 2)) (Some (b64_Z 1)) (Some (b64_dec 1 4)) (Some (b64_Z 1)) (Some (b64_dec 1 1000000)) 50) = true /\
  let a := @solve_kepler_uni _ (Num_B64 hom_libm64) (b64_Z 1) (b64_dec 1 2) (b64_Z 1) (b64_dec 1 4) (b64_Z 1) (b64_dec 1 1000000) 50 in
  let b := @solve_kepler_uni _ (Num_B64 hom_libm64) (b64_Z 2) (b64_dec 1 32) (b64_Z 16) (b64_Z 1) (b64_Z 1024) (up64 6 (b64_dec 1 1000000)) 50 in
  B2SF b = B2SF (up64 2 a) /\ B2SF b <> B2SF a.
Proof. exact solver64_ex. Qed.

Theorem C99_kepler_single : forall (L : libm) (tau K : Z) (ts ts' : list b32) (x v v' : V3 b32) (mu mu' : b32),
  4 * Z.abs tau <= K -> Forall2 (scaled tau) ts ts' -> vscaled 0 x x -> vscaled (- tau) v v' -> scaled (-2 * tau) mu mu' ->
  Forall2 (fun g p => vfollows 0 (fst g) (fst (fst p)) (fst (snd p)) /\ vfollows (- tau) (snd g) (snd (fst p)) (snd (snd p)))
    (@kepler _ (@Num_W 24 128 (Num_B32 L) K) (map Some ts) (vsome x) (vsome v) (Some mu))
    (combine (@kepler _ (Num_B32 L) ts x v mu) (@kepler _ (Num_B32 L) ts' x v' mu')).
Proof. exact (fun L tau K ts ts' x v v' mu mu' H => UnitMain.kepler_units _ _ _ (ieee32 L) tau K ts ts' x v v' mu mu' H (tol32 L)). Qed.
Print Assumptions C99_kepler_single.
Example C99_kepler_case_single :
  forallb (fun g => all3 (fst g) && all3 (snd g)) (@kepler _ (G32 40) [Some (b32_dec 1 4); Some (b32_dec (-1) 2)] (some32 can_x) (some32 can_v) (Some (b32_Z 1))) = true /\
  moved (up32 (-10)) can_x (@kepler _ (Num_B32 hom_libm32) [b32_dec 1 4; b32_dec (-1) 2] can_x can_v (b32_Z 1))
        (@kepler _ (Num_B32 hom_libm32) [up32 10 (b32_dec 1 4); up32 10 (b32_dec (-1) 2)] can_x (vmap3 (up32 (-10)) can_v) (up32 (-20) (b32_Z 1))).
Proof. exact kepler32_ex. Qed.

Theorem C99_dxdx0_single : forall (L : libm) (l tau K : Z) (r r' v v' x x' w w' : V3 b32) (t t' mu mu' : b32),
  16 * Z.abs l + 4 * Z.abs tau <= K -> vscaled (2 * l) r r' -> vscaled (2 * l - tau) v v' -> vscaled (2 * l) x x' -> vscaled (2 * l - tau) w w' ->
  scaled tau t t' -> scaled (6 * l - 2 * tau) mu mu' ->
  let G := @dxdx0 _ (@Num_W 24 128 (Num_B32 L) K) (vsome r) (vsome v) (vsome x) (vsome w) (Some t) (Some mu) in
  let A := @dxdx0 _ (Num_B32 L) r v x w t mu in let B := @dxdx0 _ (Num_B32 L) r' v' x' w' t' mu' in
  mfollows 0 (b_rr G) (b_rr A) (b_rr B) /\ mfollows tau (b_rv G) (b_rv A) (b_rv B) /\ mfollows (- tau) (b_vr G) (b_vr A) (b_vr B) /\ mfollows 0 (b_vv G) (b_vv A) (b_vv B).
Proof. exact (fun L => UnitMain.dxdx0_units _ _ _ (ieee32 L)). Qed.
Print Assumptions C99_dxdx0_single.
Example C99_dxdx0_case_single : all6 (@dxdx0 _ (G32 40) (some32 (fst later32)) (some32 (snd later32)) (some32 can_x) (some32 can_v) (Some (b32_dec 1 4)) (Some (b32_Z 1))) = true /\
  eqb6 (up32 3) (up32 (-3)) (@dxdx0 _ (Num_B32 hom_libm32) (fst later32) (snd later32) can_x can_v (b32_dec 1 4) (b32_Z 1))
    (@dxdx0 _ (Num_B32 hom_libm32) (vmap3 (up32 2) (fst later32)) (vmap3 (up32 (-1)) (snd later32)) (vmap3 (up32 2) can_x) (vmap3 (up32 (-1)) can_v) (up32 3 (b32_dec 1 4)) (b32_Z 1)).
Proof. exact dxdx0_32_ex. Qed.

Theorem C99_solver_single : forall (L : libm) (l tau K : Z) (dt dt' al al' r0 r0' s0 s0' mu mu' tol tol' : b32) (n : Z),
  16 * Z.abs l + 4 * Z.abs tau <= K -> scaled tau dt dt' -> scaled (-2 * l) al al' -> scaled (2 * l) r0 r0' -> scaled l s0 s0' ->
  scaled (6 * l - 2 * tau) mu mu' -> scaled (3 * l) tol tol' ->
  follows l (@solve_kepler_uni _ (@Num_W 24 128 (Num_B32 L) K) (Some dt) (Some al) (Some r0) (Some s0) (Some mu) (Some tol) n)
    (@solve_kepler_uni _ (Num_B32 L) dt al r0 s0 mu tol n) (@solve_kepler_uni _ (Num_B32 L) dt' al' r0' s0' mu' tol' n).
Proof. exact (fun L => UnitMain.solver_units _ _ _ (ieee32 L)). Qed.
Print Assumptions C99_solver_single.
Example C99_solver_case_single : is_some (@solve_kepler_uni _ (G32 40) (Some (b32_Z 1)) (Some (b32_dec 1 2)) (Some (b32_Z 1)) (Some (b32_dec 1 4)) (Some (b32_Z 1)) (Some (b32_dec 1 1000000)) 50) = true /\
  let a := @solve_kepler_uni _ (Num_B32 hom_libm32) (b32_Z 1) (b32_dec 1 2) (b32_Z 1) (b32_dec 1 4) (b32_Z 1) (b32_dec 1 1000000) 50 in
  let b := @solve_kepler_uni _ (Num_B32 hom_libm32) (b32_Z 2) (b32_dec 1 32) (b32_Z 16) (b32_Z 1) (b32_Z 1024) (up32 6 (b32_dec 1 1000000)) 50 in
  B2SF b = B2SF (up32 2 a) /\ B2SF b <> B2SF a.
Proof. exact solver32_ex. Qed.

(** ** C100 *)
Theorem C100_vectors : forall (L : libm64) (lam tau K : Z) (x x' v v' : V3 b64) (mu mu' : b64),
  8 * Z.abs lam + 4 * Z.abs tau <= K -> vscaled lam x x' -> vscaled (lam - tau) v v' -> scaled (3 * lam - 2 * tau) mu mu' ->
  let G := @Num_W 53 1024 (Num_B64 L) K in let N := Num_B64 L in
  vfollows (2 * lam - tau) (@angular_momentum _ G (vsome x) (vsome v)) (@angular_momentum _ N x v) (@angular_momentum _ N x' v') /\
  vfollows 0 (@eccentricity_vector _ G (vsome x) (vsome v) (Some mu)) (@eccentricity_vector _ N x v mu) (@eccentricity_vector _ N x' v' mu') /\
  follows lam (@semimajor_axis _ G (@vector_norm _ G (vsome x)) (@vector_norm _ G (vsome v)) (Some mu))
    (@semimajor_axis _ N (@vector_norm _ N x) (@vector_norm _ N v) mu) (@semimajor_axis _ N (@vector_norm _ N x') (@vector_norm _ N v') mu').
Proof. exact (fun L => UnitMain.vectors_units _ _ _ (ieee64 L)). Qed.
Print Assumptions C100_vectors.
Example C100_vectors_case : all3 (@angular_momentum _ (G64 40) (some64 zero64_x) (some64 zero64_v)) && all3 (@eccentricity_vector _ (G64 40) (some64 zero64_x) (some64 zero64_v) (Some (b64_Z 398600))) &&
    is_some (@semimajor_axis _ (G64 40) (@vector_norm _ (G64 40) (some64 zero64_x)) (@vector_norm _ (G64 40) (some64 zero64_v)) (Some (b64_Z 398600))) = true /\
  sf3 (@eccentricity_vector _ (Num_B64 hom_libm64) (vmap3 (up64 3) zero64_x) (vmap3 (up64 2) zero64_v) (up64 7 (b64_Z 398600))) = sf3 (@eccentricity_vector _ (Num_B64 hom_libm64) zero64_x zero64_v (b64_Z 398600)).
Proof. exact vectors64_ex. Qed.

(** for a library whose [arctan2] does not depend on the unit of its arguments *)
Theorem C100_rv2coe : forall (L : libm64) (lam tau K : Z) (x x' v v' : V3 b64) (mu mu' : b64),
  8 * Z.abs lam + 4 * Z.abs tau <= K -> hom2 (d_arctan2 L) -> vscaled lam x x' -> vscaled (lam - tau) v v' -> scaled (3 * lam - 2 * tau) mu mu' ->
  let G := @rv2coe _ (@Num_W 53 1024 (Num_B64 L) K) (vsome x) (vsome v) (Some mu) in let A := @rv2coe _ (Num_B64 L) x v mu in let B := @rv2coe _ (Num_B64 L) x' v' mu' in
  follows lam (coe_p G) (coe_p A) (coe_p B) /\ follows 0 (coe_e G) (coe_e A) (coe_e B) /\ follows 0 (coe_incl G) (coe_incl A) (coe_incl B) /\
  follows 0 (coe_raan G) (coe_raan A) (coe_raan B) /\ follows 0 (coe_argp G) (coe_argp A) (coe_argp B) /\ follows 0 (coe_f G) (coe_f A) (coe_f B).
Proof. exact (fun L => UnitMain.rv2coe_units _ _ _ (ieee64 L)). Qed.
Print Assumptions C100_rv2coe.
Example C100_rv2coe_case : somes (@rv2coe _ (G64 40) (some64 zero64_x) (some64 zero64_v) (Some (b64_Z 398600))) = true /\
  let a := @rv2coe _ (Num_B64 hom_libm64) zero64_x zero64_v (b64_Z 398600) in
  let b := @rv2coe _ (Num_B64 hom_libm64) (vmap3 (up64 3) zero64_x) (vmap3 (up64 2) zero64_v) (up64 7 (b64_Z 398600)) in
  sfc b = sfc a /\ B2SF (coe_p b) = B2SF (up64 3 (coe_p a)) /\ B2SF (coe_p b) <> B2SF (coe_p a).
Proof. exact coe64_ex. Qed.
Example C100_library : hom2 (d_arctan2 hom_libm64).
Proof. exact hom64_ok. Qed.

Theorem C100_coe2rv : forall (L : libm64) (lam tau K : Z) (p p' e i ra ap f mu mu' : b64),
  8 * Z.abs lam + 4 * Z.abs tau <= K -> scaled lam p p' -> Forall (fun a => is_finite a = true) [e; i; ra; ap; f] -> scaled (3 * lam - 2 * tau) mu mu' ->
  let G := @coe2rv _ (@Num_W 53 1024 (Num_B64 L) K) (Some p) (Some e) (Some i) (Some ra) (Some ap) (Some f) (Some mu) in
  let A := @coe2rv _ (Num_B64 L) p e i ra ap f mu in let B := @coe2rv _ (Num_B64 L) p' e i ra ap f mu' in
  vfollows lam (fst G) (fst A) (fst B) /\ vfollows (lam - tau) (snd G) (snd A) (snd B).
Proof. exact (fun L => UnitMain.coe2rv_units _ _ _ (ieee64 L)). Qed.
Print Assumptions C100_coe2rv.
Example C100_coe2rv_case : let G := @coe2rv _ (G64 40) (Some (b64_Z 7000)) (Some (b64_dec 1 10)) (Some (b64_Z 1)) (Some (b64_Z 2)) (Some (b64_Z 3)) (Some (b64_dec 1 3)) (Some (b64_Z 398600)) in
  let A := @coe2rv _ (Num_B64 hom_libm64) (b64_Z 7000) (b64_dec 1 10) (b64_Z 1) (b64_Z 2) (b64_Z 3) (b64_dec 1 3) (b64_Z 398600) in
  let B := @coe2rv _ (Num_B64 hom_libm64) (up64 3 (b64_Z 7000)) (b64_dec 1 10) (b64_Z 1) (b64_Z 2) (b64_Z 3) (b64_dec 1 3) (up64 7 (b64_Z 398600)) in
  all3 (fst G) && all3 (snd G) = true /\ sf3 (fst B) = sf3 (vmap3 (up64 3) (fst A)) /\ sf3 (snd B) = sf3 (vmap3 (up64 2) (snd A)).
Proof. exact coe2rv64_ex. Qed.

Theorem C100_scalars : forall (L : libm64) (lam tau K : Z) (a a' t t' mu mu' : b64),
  8 * Z.abs lam + 4 * Z.abs tau <= K -> scaled lam a a' -> scaled tau t t' -> scaled (3 * lam - 2 * tau) mu mu' ->
  let G := @Num_W 53 1024 (Num_B64 L) K in let N := Num_B64 L in
  follows tau (@orb_period _ G (Some a) (Some mu)) (@orb_period _ N a mu) (@orb_period _ N a' mu') /\
  follows 0 (@mean_anomaly_elps _ G (Some a) (Some t) (Some mu)) (@mean_anomaly_elps _ N a t mu) (@mean_anomaly_elps _ N a' t' mu') /\
  follows 0 (@mean_anomaly_hypb _ G (Some a) (Some t) (Some mu)) (@mean_anomaly_hypb _ N a t mu) (@mean_anomaly_hypb _ N a' t' mu').
Proof. exact (fun L => UnitMain.scalars_units _ _ _ (ieee64 L)). Qed.
Print Assumptions C100_scalars.
Theorem C100_nmax : forall (L : libm64) (lam tau K : Z) (rp rp' r1 r1' r2 r2' t t' mu mu' : b64),
  8 * Z.abs lam + 4 * Z.abs tau <= K -> scaled lam rp rp' -> scaled lam r1 r1' -> scaled lam r2 r2' -> scaled tau t t' -> scaled (3 * lam - 2 * tau) mu mu' ->
  follows 0 (@nmax_by_periapsis _ (@Num_W 53 1024 (Num_B64 L) K) (Some rp) (Some r1) (Some r2) (Some t) (Some mu)) (@nmax_by_periapsis _ (Num_B64 L) rp r1 r2 t mu) (@nmax_by_periapsis _ (Num_B64 L) rp' r1' r2' t' mu').
Proof. exact (fun L => UnitMain.nmax_units _ _ _ (ieee64 L)). Qed.
Print Assumptions C100_nmax.
Example C100_scalars_case : is_some (@orb_period _ (G64 40) (Some (b64_Z 7000)) (Some (b64_Z 398600))) && is_some (@mean_anomaly_elps _ (G64 40) (Some (b64_Z 7000)) (Some (b64_Z 60)) (Some (b64_Z 398600))) &&
    is_some (@mean_anomaly_hypb _ (G64 40) (Some (b64_Z (-7000))) (Some (b64_Z 60)) (Some (b64_Z 398600))) && is_some (@nmax_by_periapsis _ (G64 40) (Some (b64_Z 6500)) (Some (b64_Z 7000)) (Some (b64_Z 8000)) (Some (b64_Z 20000)) (Some (b64_Z 398600))) = true /\
  B2SF (@orb_period _ (Num_B64 hom_libm64) (b64_Z 56000) (up64 7 (b64_Z 398600))) = B2SF (up64 1 (@orb_period _ (Num_B64 hom_libm64) (b64_Z 7000) (b64_Z 398600))) /\
  B2SF (@nmax_by_periapsis _ (Num_B64 hom_libm64) (b64_Z 6500) (b64_Z 7000) (b64_Z 8000) (b64_Z 20000) (b64_Z 398600)) = B2SF (b64_Z 3).
Proof. exact scalars64_ex. Qed.

Theorem C100_path : forall (L : libm64) (lam tau K : Z) (r1 r1' v1 v1' r2 r2' : V3 b64) (mu mu' rmin rmin' : b64),
  8 * Z.abs lam + 4 * Z.abs tau <= K -> vscaled lam r1 r1' -> vscaled (lam - tau) v1 v1' -> vscaled lam r2 r2' -> scaled (3 * lam - 2 * tau) mu mu' -> scaled lam rmin rmin' ->
  let n := @Num_W 53 1024 (Num_B64 L) K in let N := Num_B64 L in let x := vsome r1 in let v := vsome v1 in let y := vsome r2 in let e := @eccentricity_vector _ n x v (Some mu) in
  (@vinner _ n (@vcross _ n x v) (@vcross _ n x y) <> None -> @is_short_way _ N r1' v1' r2' = @is_short_way _ N r1 v1 r2) /\
  (@vinner _ n (@vcross _ n x v) (@vcross _ n x y) <> None -> @vinner _ n (@vcross _ n x y) (@vcross _ n x e) <> None -> @vinner _ n (@vcross _ n x y) (@vcross _ n e y) <> None ->
     @pass_perigee _ N r1' v1' r2' mu' = @pass_perigee _ N r1 v1 r2 mu) /\
  (@radius_periapsis _ n (@semiparameter _ n (@vector_norm _ n (@angular_momentum _ n x v)) (Some mu)) (@vector_norm _ n e) <> None ->
     @rp_islower_rmin _ N rmin' r1' v1' mu' = @rp_islower_rmin _ N rmin r1 v1 mu).
Proof. exact (fun L => UnitMain.path_units _ _ _ (ieee64 L)). Qed.
Print Assumptions C100_path.
Example C100_path_case : let n := G64 40 in let x := some64 zero64_x in let v := some64 zero64_v in let y := some64 (mk3 (b64_Z (-5000)) (b64_Z 4000) (b64_Z 100)) in
  let e := @eccentricity_vector _ n x v (Some (b64_Z 398600)) in
  is_some (@vinner _ n (@vcross _ n x v) (@vcross _ n x y)) && is_some (@vinner _ n (@vcross _ n x y) (@vcross _ n x e)) && is_some (@vinner _ n (@vcross _ n x y) (@vcross _ n e y)) &&
  is_some (@radius_periapsis _ n (@semiparameter _ n (@vector_norm _ n (@angular_momentum _ n x v)) (Some (b64_Z 398600))) (@vector_norm _ n e)) = true /\
  @is_short_way _ (Num_B64 hom_libm64) zero64_x zero64_v (mk3 (b64_Z (-5000)) (b64_Z 4000) (b64_Z 100)) = true.
Proof. exact path64_ex. Qed.

(** [xscaled]: the first three entries of the state are scaled, the others may be anything; the time argument too *)
Theorem C100_forces : forall (L : libm64) (lam tau K : Z) (t t' : b64) (x x' : list b64) (d d' : list (string * b64)),
  8 * Z.abs lam + 4 * Z.abs tau <= K -> xscaled lam x x' -> dscaled lam tau d d' ->
  let G := @Num_W 53 1024 (Num_B64 L) K in let N := Num_B64 L in let g := map Some x in let dg := dsome d in
  rfollows (vfollows (lam - 2 * tau)) (@point_mass_grav _ G (Some t) g dg) (@point_mass_grav _ N t x d) (@point_mass_grav _ N t' x' d') /\
  rfollows (vfollows (lam - 2 * tau)) (@j2_acc _ G (Some t) g dg) (@j2_acc _ N t x d) (@j2_acc _ N t' x' d') /\
  rfollows (vfollows (lam - 2 * tau)) (@j3_acc _ G (Some t) g dg) (@j3_acc _ N t x d) (@j3_acc _ N t' x' d') /\
  rfollows (vfollows (lam - 2 * tau)) (@j4_acc _ G (Some t) g dg) (@j4_acc _ N t x d) (@j4_acc _ N t' x' d') /\
  rfollows (follows lam) (@radius_islow _ G (Some t) g dg) (@radius_islow _ N t x d) (@radius_islow _ N t' x' d').
Proof. exact (fun L => UnitMain.forces_units _ _ _ (ieee64 L)). Qed.
Print Assumptions C100_forces.
Example C100_forces_case : let x := [b64_Z 7000; b64_Z 300; b64_Z 4000] in let g := map Some x in let x' := map (up64 3) x in let t := b64_Z 0 in let u := up64 7 (b64_Z 398600) in let R := up64 3 (b64_Z 6378) in
  allr (@point_mass_grav _ (G64 40) None g (gd64 "J2")) && allr (@j2_acc _ (G64 40) None g (gd64 "J2")) && allr (@j3_acc _ (G64 40) None g (gd64 "J3")) && allr (@j4_acc _ (G64 40) None g (gd64 "J4")) = true /\
  sfr (fun a => a) (@j3_acc _ (Num_B64 hom_libm64) t x' (d64 "J3" u R)) = sfr (up64 1) (@j3_acc _ (Num_B64 hom_libm64) t x (d64 "J3" (b64_Z 398600) (b64_Z 6378))) /\
  sfr (fun a => a) (@j3_acc _ (Num_B64 hom_libm64) t x' (d64 "J3" u R)) <> None.
Proof. exact forces64_ex. Qed.

Theorem C100_vectors_single : forall (L : libm) (lam tau K : Z) (x x' v v' : V3 b32) (mu mu' : b32),
  8 * Z.abs lam + 4 * Z.abs tau <= K -> vscaled lam x x' -> vscaled (lam - tau) v v' -> scaled (3 * lam - 2 * tau) mu mu' ->
  let G := @Num_W 24 128 (Num_B32 L) K in let N := Num_B32 L in
  vfollows (2 * lam - tau) (@angular_momentum _ G (vsome x) (vsome v)) (@angular_momentum _ N x v) (@angular_momentum _ N x' v') /\
  vfollows 0 (@eccentricity_vector _ G (vsome x) (vsome v) (Some mu)) (@eccentricity_vector _ N x v mu) (@eccentricity_vector _ N x' v' mu') /\
  follows lam (@semimajor_axis _ G (@vector_norm _ G (vsome x)) (@vector_norm _ G (vsome v)) (Some mu))
    (@semimajor_axis _ N (@vector_norm _ N x) (@vector_norm _ N v) mu) (@semimajor_axis _ N (@vector_norm _ N x') (@vector_norm _ N v') mu').
Proof. exact (fun L => UnitMain.vectors_units _ _ _ (ieee32 L)). Qed.
Print Assumptions C100_vectors_single.
Example C100_vectors_case_single : all3 (@angular_momentum _ (G32 40) (some32 zero32_x) (some32 zero32_v)) && all3 (@eccentricity_vector _ (G32 40) (some32 zero32_x) (some32 zero32_v) (Some (b32_Z 398600))) &&
    is_some (@semimajor_axis _ (G32 40) (@vector_norm _ (G32 40) (some32 zero32_x)) (@vector_norm _ (G32 40) (some32 zero32_v)) (Some (b32_Z 398600))) = true /\
  sf3 (@eccentricity_vector _ (Num_B32 hom_libm32) (vmap3 (up32 3) zero32_x) (vmap3 (up32 2) zero32_v) (up32 7 (b32_Z 398600))) = sf3 (@eccentricity_vector _ (Num_B32 hom_libm32) zero32_x zero32_v (b32_Z 398600)).
Proof. exact vectors32_ex. Qed.

(** for a library whose [arctan2] does not depend on the unit of its arguments *)
Theorem C100_rv2coe_single : forall (L : libm) (lam tau K : Z) (x x' v v' : V3 b32) (mu mu' : b32),
  8 * Z.abs lam + 4 * Z.abs tau <= K -> hom2 (m_arctan2 L) -> vscaled lam x x' -> vscaled (lam - tau) v v' -> scaled (3 * lam - 2 * tau) mu mu' ->
  let G := @rv2coe _ (@Num_W 24 128 (Num_B32 L) K) (vsome x) (vsome v) (Some mu) in let A := @rv2coe _ (Num_B32 L) x v mu in let B := @rv2coe _ (Num_B32 L) x' v' mu' in
  follows lam (coe_p G) (coe_p A) (coe_p B) /\ follows 0 (coe_e G) (coe_e A) (coe_e B) /\ follows 0 (coe_incl G) (coe_incl A) (coe_incl B) /\
  follows 0 (coe_raan G) (coe_raan A) (coe_raan B) /\ follows 0 (coe_argp G) (coe_argp A) (coe_argp B) /\ follows 0 (coe_f G) (coe_f A) (coe_f B).
Proof. exact (fun L => UnitMain.rv2coe_units _ _ _ (ieee32 L)). Qed.
Print Assumptions C100_rv2coe_single.
Example C100_rv2coe_case_single : somes (@rv2coe _ (G32 40) (some32 zero32_x) (some32 zero32_v) (Some (b32_Z 398600))) = true /\
  let a := @rv2coe _ (Num_B32 hom_libm32) zero32_x zero32_v (b32_Z 398600) in
  let b := @rv2coe _ (Num_B32 hom_libm32) (vmap3 (up32 3) zero32_x) (vmap3 (up32 2) zero32_v) (up32 7 (b32_Z 398600)) in
  sfc b = sfc a /\ B2SF (coe_p b) = B2SF (up32 3 (coe_p a)) /\ B2SF (coe_p b) <> B2SF (coe_p a).
Proof. exact coe32_ex. Qed.
Example C100_library_single : hom2 (m_arctan2 hom_libm32).
Proof. exact hom32_ok. Qed.

Theorem C100_coe2rv_single : forall (L : libm) (lam tau K : Z) (p p' e i ra ap f mu mu' : b32),
  8 * Z.abs lam + 4 * Z.abs tau <= K -> scaled lam p p' -> Forall (fun a => is_finite a = true) [e; i; ra; ap; f] -> scaled (3 * lam - 2 * tau) mu mu' ->
  let G := @coe2rv _ (@Num_W 24 128 (Num_B32 L) K) (Some p) (Some e) (Some i) (Some ra) (Some ap) (Some f) (Some mu) in
  let A := @coe2rv _ (Num_B32 L) p e i ra ap f mu in let B := @coe2rv _ (Num_B32 L) p' e i ra ap f mu' in
  vfollows lam (fst G) (fst A) (fst B) /\ vfollows (lam - tau) (snd G) (snd A) (snd B).
Proof. exact (fun L => UnitMain.coe2rv_units _ _ _ (ieee32 L)). Qed.
Print Assumptions C100_coe2rv_single.
Example C100_coe2rv_case_single : let G := @coe2rv _ (G32 40) (Some (b32_Z 7000)) (Some (b32_dec 1 10)) (Some (b32_Z 1)) (Some (b32_Z 2)) (Some (b32_Z 3)) (Some (b32_dec 1 3)) (Some (b32_Z 398600)) in
  let A := @coe2rv _ (Num_B32 hom_libm32) (b32_Z 7000) (b32_dec 1 10) (b32_Z 1) (b32_Z 2) (b32_Z 3) (b32_dec 1 3) (b32_Z 398600) in
  let B := @coe2rv _ (Num_B32 hom_libm32) (up32 3 (b32_Z 7000)) (b32_dec 1 10) (b32_Z 1) (b32_Z 2) (b32_Z 3) (b32_dec 1 3) (up32 7 (b32_Z 398600)) in
  all3 (fst G) && all3 (snd G) = true /\ sf3 (fst B) = sf3 (vmap3 (up32 3) (fst A)) /\ sf3 (snd B) = sf3 (vmap3 (up32 2) (snd A)).
Proof. exact coe2rv32_ex. Qed.

Theorem C100_scalars_single : forall (L : libm) (lam tau K : Z) (a a' t t' mu mu' : b32),
  8 * Z.abs lam + 4 * Z.abs tau <= K -> scaled lam a a' -> scaled tau t t' -> scaled (3 * lam - 2 * tau) mu mu' ->
  let G := @Num_W 24 128 (Num_B32 L) K in let N := Num_B32 L in
  follows tau (@orb_period _ G (Some a) (Some mu)) (@orb_period _ N a mu) (@orb_period _ N a' mu') /\
  follows 0 (@mean_anomaly_elps _ G (Some a) (Some t) (Some mu)) (@mean_anomaly_elps _ N a t mu) (@mean_anomaly_elps _ N a' t' mu') /\
  follows 0 (@mean_anomaly_hypb _ G (Some a) (Some t) (Some mu)) (@mean_anomaly_hypb _ N a t mu) (@mean_anomaly_hypb _ N a' t' mu').
Proof. exact (fun L => UnitMain.scalars_units _ _ _ (ieee32 L)). Qed.
Print Assumptions C100_scalars_single.
Theorem C100_nmax_single : forall (L : libm) (lam tau K : Z) (rp rp' r1 r1' r2 r2' t t' mu mu' : b32),
  8 * Z.abs lam + 4 * Z.abs tau <= K -> scaled lam rp rp' -> scaled lam r1 r1' -> scaled lam r2 r2' -> scaled tau t t' -> scaled (3 * lam - 2 * tau) mu mu' ->
  follows 0 (@nmax_by_periapsis _ (@Num_W 24 128 (Num_B32 L) K) (Some rp) (Some r1) (Some r2) (Some t) (Some mu)) (@nmax_by_periapsis _ (Num_B32 L) rp r1 r2 t mu) (@nmax_by_periapsis _ (Num_B32 L) rp' r1' r2' t' mu').
Proof. exact (fun L => UnitMain.nmax_units _ _ _ (ieee32 L)). Qed.
Print Assumptions C100_nmax_single.
Example C100_scalars_case_single : is_some (@orb_period _ (G32 40) (Some (b32_Z 7000)) (Some (b32_Z 398600))) && is_some (@mean_anomaly_elps _ (G32 40) (Some (b32_Z 7000)) (Some (b32_Z 60)) (Some (b32_Z 398600))) &&
    is_some (@mean_anomaly_hypb _ (G32 40) (Some (b32_Z (-7000))) (Some (b32_Z 60)) (Some (b32_Z 398600))) && is_some (@nmax_by_periapsis _ (G32 40) (Some (b32_Z 6500)) (Some (b32_Z 7000)) (Some (b32_Z 8000)) (Some (b32_Z 20000)) (Some (b32_Z 398600))) = true /\
  B2SF (@orb_period _ (Num_B32 hom_libm32) (b32_Z 56000) (up32 7 (b32_Z 398600))) = B2SF (up32 1 (@orb_period _ (Num_B32 hom_libm32) (b32_Z 7000) (b32_Z 398600))) /\
  B2SF (@nmax_by_periapsis _ (Num_B32 hom_libm32) (b32_Z 6500) (b32_Z 7000) (b32_Z 8000) (b32_Z 20000) (b32_Z 398600)) = B2SF (b32_Z 3).
Proof. exact scalars32_ex. Qed.

Theorem C100_path_single : forall (L : libm) (lam tau K : Z) (r1 r1' v1 v1' r2 r2' : V3 b32) (mu mu' rmin rmin' : b32),
  8 * Z.abs lam + 4 * Z.abs tau <= K -> vscaled lam r1 r1' -> vscaled (lam - tau) v1 v1' -> vscaled lam r2 r2' -> scaled (3 * lam - 2 * tau) mu mu' -> scaled lam rmin rmin' ->
  let n := @Num_W 24 128 (Num_B32 L) K in let N := Num_B32 L in let x := vsome r1 in let v := vsome v1 in let y := vsome r2 in let e := @eccentricity_vector _ n x v (Some mu) in
  (@vinner _ n (@vcross _ n x v) (@vcross _ n x y) <> None -> @is_short_way _ N r1' v1' r2' = @is_short_way _ N r1 v1 r2) /\
  (@vinner _ n (@vcross _ n x v) (@vcross _ n x y) <> None -> @vinner _ n (@vcross _ n x y) (@vcross _ n x e) <> None -> @vinner _ n (@vcross _ n x y) (@vcross _ n e y) <> None ->
     @pass_perigee _ N r1' v1' r2' mu' = @pass_perigee _ N r1 v1 r2 mu) /\
  (@radius_periapsis _ n (@semiparameter _ n (@vector_norm _ n (@angular_momentum _ n x v)) (Some mu)) (@vector_norm _ n e) <> None ->
     @rp_islower_rmin _ N rmin' r1' v1' mu' = @rp_islower_rmin _ N rmin r1 v1 mu).
Proof. exact (fun L => UnitMain.path_units _ _ _ (ieee32 L)). Qed.
Print Assumptions C100_path_single.
Example C100_path_case_single : let n := G32 40 in let x := some32 zero32_x in let v := some32 zero32_v in let y := some32 (mk3 (b32_Z (-5000)) (b32_Z 4000) (b32_Z 100)) in
  let e := @eccentricity_vector _ n x v (Some (b32_Z 398600)) in
  is_some (@vinner _ n (@vcross _ n x v) (@vcross _ n x y)) && is_some (@vinner _ n (@vcross _ n x y) (@vcross _ n x e)) && is_some (@vinner _ n (@vcross _ n x y) (@vcross _ n e y)) &&
  is_some (@radius_periapsis _ n (@semiparameter _ n (@vector_norm _ n (@angular_momentum _ n x v)) (Some (b32_Z 398600))) (@vector_norm _ n e)) = true /\
  @is_short_way _ (Num_B32 hom_libm32) zero32_x zero32_v (mk3 (b32_Z (-5000)) (b32_Z 4000) (b32_Z 100)) = true.
Proof. exact path32_ex. Qed.

(** [xscaled]: the first three entries of the state are scaled, the others may be anything; the time argument too *)
Theorem C100_forces_single : forall (L : libm) (lam tau K : Z) (t t' : b32) (x x' : list b32) (d d' : list (string * b32)),
  8 * Z.abs lam + 4 * Z.abs tau <= K -> xscaled lam x x' -> dscaled lam tau d d' ->
  let G := @Num_W 24 128 (Num_B32 L) K in let N := Num_B32 L in let g := map Some x in let dg := dsome d in
  rfollows (vfollows (lam - 2 * tau)) (@point_mass_grav _ G (Some t) g dg) (@point_mass_grav _ N t x d) (@point_mass_grav _ N t' x' d') /\
  rfollows (vfollows (lam - 2 * tau)) (@j2_acc _ G (Some t) g dg) (@j2_acc _ N t x d) (@j2_acc _ N t' x' d') /\
  rfollows (vfollows (lam - 2 * tau)) (@j3_acc _ G (Some t) g dg) (@j3_acc _ N t x d) (@j3_acc _ N t' x' d') /\
  rfollows (vfollows (lam - 2 * tau)) (@j4_acc _ G (Some t) g dg) (@j4_acc _ N t x d) (@j4_acc _ N t' x' d') /\
  rfollows (follows lam) (@radius_islow _ G (Some t) g dg) (@radius_islow _ N t x d) (@radius_islow _ N t' x' d').
Proof. exact (fun L => UnitMain.forces_units _ _ _ (ieee32 L)). Qed.
Print Assumptions C100_forces_single.
Example C100_forces_case_single : let x := [b32_Z 1; b32_dec 1 3; b32_dec 1 2] in let g := map Some x in let x' := map (up32 3) x in let t := b32_Z 0 in let u := up32 7 (b32_Z 1) in let R := up32 3 (b32_Z 1) in
  allr (@point_mass_grav _ (G32 40) None g (gd32 "J2")) && allr (@j2_acc _ (G32 40) None g (gd32 "J2")) && allr (@j3_acc _ (G32 40) None g (gd32 "J3")) && allr (@j4_acc _ (G32 40) None g (gd32 "J4")) = true /\
  sfr (fun a => a) (@j3_acc _ (Num_B32 hom_libm32) t x' (d32 "J3" u R)) = sfr (up32 1) (@j3_acc _ (Num_B32 hom_libm32) t x (d32 "J3" (b32_Z 1) (b32_Z 1))) /\
  sfr (fun a => a) (@j3_acc _ (Num_B32 hom_libm32) t x' (d32 "J3" u R)) <> None.
Proof. exact forces32_ex. Qed.
