(** * Property C108: flushing subnormal numbers to zero

    Theorems only; proofs are in [FlushCalc] and [FlushMain], runs in [FlushExamples].
    [Num_F N] is the arithmetic [N] with subnormal operands and results replaced by zero, as
    the processor does under XLA.  [agree g a b]: if the computation in [Num_G N], which stops
    ([None]) at any result that is subnormal or within a factor of two of that, gives [Some c],
    then both [a], without flushing, and [b], with flushing, are [c].  The [_single] theorems
    are about single precision, the others about double precision (jax_enable_x64). *)
From Coq Require Import ZArith Reals Bool List String.
From Flocq Require Import Core IEEE754.BinarySingleNaN.
From Verif Require Import Num NumF NumB32 NumB64 SpecUnits SpecFlush OrbIntegrals OrbElements Uniformulas PathCheck Gravity KepEqu StateTrans PropKepler ZeroExamples MirrorExamples UnitExamples FlushExamples.
From Verif Require FlushMain.
Import ListNotations.
Local Open Scope Z_scope.

Theorem C108_kepler : forall (L : libm64) (ts : list b64) (x v : V3 b64) (mu : b64), lplain ts -> vplain x -> vplain v -> plain mu = true ->
  Forall2 (fun g p => vagree (fst g) (fst (fst p)) (fst (snd p)) /\ vagree (snd g) (snd (fst p)) (snd (snd p)))
    (@kepler _ (@Num_G 53 1024 (Num_B64 L)) (map Some ts) (vsome x) (vsome v) (Some mu)) (combine (@kepler _ (Num_B64 L) ts x v mu) (@kepler _ (@Num_F 53 1024 (Num_B64 L)) ts x v mu)).
Proof. exact (fun L ts x v mu => FlushMain.kepler_flush _ _ _ (ieee64 L) ts x v mu (ptol64 L)). Qed.
Print Assumptions C108_kepler.
Example C108_kepler_case : forallb (fun g => all3 (fst g) && all3 (snd g)) (@kepler _ E64 [Some (b64_Z 600); Some (b64_Z (-300))] (some64 zero64_x) (some64 zero64_v) (Some (b64_Z 398600))) = true /\
  moved (fun a => a) zero64_x (@kepler _ F64 [b64_Z 600; b64_Z (-300)] zero64_x zero64_v (b64_Z 398600)) (@kepler _ (Num_B64 hom_libm64) [b64_Z 600; b64_Z (-300)] zero64_x zero64_v (b64_Z 398600)).
Proof. exact kepler64_fl. Qed.

Theorem C108_dxdx0 : forall (L : libm64) (r v x w : V3 b64) (t mu : b64), vplain r -> vplain v -> vplain x -> vplain w -> plain t = true -> plain mu = true ->
  let g := @dxdx0 _ (@Num_G 53 1024 (Num_B64 L)) (vsome r) (vsome v) (vsome x) (vsome w) (Some t) (Some mu) in
  let A := @dxdx0 _ (Num_B64 L) r v x w t mu in let B := @dxdx0 _ (@Num_F 53 1024 (Num_B64 L)) r v x w t mu in
  magree (b_rr g) (b_rr A) (b_rr B) /\ magree (b_rv g) (b_rv A) (b_rv B) /\ magree (b_vr g) (b_vr A) (b_vr B) /\ magree (b_vv g) (b_vv A) (b_vv B).
Proof. exact (fun L => FlushMain.dxdx0_flush _ _ _ (ieee64 L)). Qed.
Print Assumptions C108_dxdx0.
Example C108_dxdx0_case : all6 (@dxdx0 _ E64 (some64 (fst later64)) (some64 (snd later64)) (some64 zero64_x) (some64 zero64_v) (Some (b64_Z 600)) (Some (b64_Z 398600))) = true.
Proof. exact dxdx064_fl. Qed.

Theorem C108_solver : forall (L : libm64) (dt al r0 s0 mu tol : b64) (n : Z), lplain [dt; al; r0; s0; mu; tol] ->
  agree (@solve_kepler_uni _ (@Num_G 53 1024 (Num_B64 L)) (Some dt) (Some al) (Some r0) (Some s0) (Some mu) (Some tol) n)
    (@solve_kepler_uni _ (Num_B64 L) dt al r0 s0 mu tol n) (@solve_kepler_uni _ (@Num_F 53 1024 (Num_B64 L)) dt al r0 s0 mu tol n).
Proof. exact (fun L => FlushMain.solver_flush _ _ _ (ieee64 L)). Qed.
Print Assumptions C108_solver.
Example C108_solver_case : is_some (@solve_kepler_uni _ E64 (Some (b64_Z 1)) (Some (b64_dec 1 2)) (Some (b64_Z 1)) (Some (b64_dec 1 4)) (Some (b64_Z 1)) (Some (b64_dec 1 1000000)) 50) = true.
Proof. exact solver64_fl. Qed.

Theorem C108_vectors : forall (L : libm64) (x v : V3 b64) (mu : b64), vplain x -> vplain v -> plain mu = true ->
  let G := @Num_G 53 1024 (Num_B64 L) in let M := Num_B64 L in let F := @Num_F 53 1024 (Num_B64 L) in
  vagree (@angular_momentum _ G (vsome x) (vsome v)) (@angular_momentum _ M x v) (@angular_momentum _ F x v) /\
  vagree (@eccentricity_vector _ G (vsome x) (vsome v) (Some mu)) (@eccentricity_vector _ M x v mu) (@eccentricity_vector _ F x v mu) /\
  agree (@semimajor_axis _ G (@vector_norm _ G (vsome x)) (@vector_norm _ G (vsome v)) (Some mu))
    (@semimajor_axis _ M (@vector_norm _ M x) (@vector_norm _ M v) mu) (@semimajor_axis _ F (@vector_norm _ F x) (@vector_norm _ F v) mu).
Proof. exact (fun L => FlushMain.vectors_flush _ _ _ (ieee64 L)). Qed.
Print Assumptions C108_vectors.
Theorem C108_rv2coe : forall (L : libm64) (x v : V3 b64) (mu : b64), vplain x -> vplain v -> plain mu = true ->
  let g := @rv2coe _ (@Num_G 53 1024 (Num_B64 L)) (vsome x) (vsome v) (Some mu) in let A := @rv2coe _ (Num_B64 L) x v mu in let B := @rv2coe _ (@Num_F 53 1024 (Num_B64 L)) x v mu in
  agree (coe_p g) (coe_p A) (coe_p B) /\ agree (coe_e g) (coe_e A) (coe_e B) /\ agree (coe_incl g) (coe_incl A) (coe_incl B) /\
  agree (coe_raan g) (coe_raan A) (coe_raan B) /\ agree (coe_argp g) (coe_argp A) (coe_argp B) /\ agree (coe_f g) (coe_f A) (coe_f B).
Proof. exact (fun L => FlushMain.rv2coe_flush _ _ _ (ieee64 L)). Qed.
Print Assumptions C108_rv2coe.
Theorem C108_coe2rv : forall (L : libm64) (p e i ra ap f mu : b64), lplain [p; e; i; ra; ap; f; mu] ->
  let g := @coe2rv _ (@Num_G 53 1024 (Num_B64 L)) (Some p) (Some e) (Some i) (Some ra) (Some ap) (Some f) (Some mu) in
  let A := @coe2rv _ (Num_B64 L) p e i ra ap f mu in let B := @coe2rv _ (@Num_F 53 1024 (Num_B64 L)) p e i ra ap f mu in
  vagree (fst g) (fst A) (fst B) /\ vagree (snd g) (snd A) (snd B).
Proof. exact (fun L => FlushMain.coe2rv_flush _ _ _ (ieee64 L)). Qed.
Print Assumptions C108_coe2rv.
Example C108_elements_case : all3 (@angular_momentum _ E64 (some64 zero64_x) (some64 zero64_v)) && all3 (@eccentricity_vector _ E64 (some64 zero64_x) (some64 zero64_v) (Some (b64_Z 398600))) &&
    is_some (@semimajor_axis _ E64 (@vector_norm _ E64 (some64 zero64_x)) (@vector_norm _ E64 (some64 zero64_v)) (Some (b64_Z 398600))) &&
    somes (@rv2coe _ E64 (some64 zero64_x) (some64 zero64_v) (Some (b64_Z 398600))) = true /\
  let g := @coe2rv _ E64 (Some (b64_Z 7000)) (Some (b64_dec 1 10)) (Some (b64_Z 1)) (Some (b64_Z 2)) (Some (b64_Z 3)) (Some (b64_dec 1 3)) (Some (b64_Z 398600)) in all3 (fst g) && all3 (snd g) = true.
Proof. exact elements64_fl. Qed.

Theorem C108_scalars : forall (L : libm64) (a t mu : b64), lplain [a; t; mu] ->
  let G := @Num_G 53 1024 (Num_B64 L) in let M := Num_B64 L in let F := @Num_F 53 1024 (Num_B64 L) in
  agree (@orb_period _ G (Some a) (Some mu)) (@orb_period _ M a mu) (@orb_period _ F a mu) /\
  agree (@mean_anomaly_elps _ G (Some a) (Some t) (Some mu)) (@mean_anomaly_elps _ M a t mu) (@mean_anomaly_elps _ F a t mu) /\
  agree (@mean_anomaly_hypb _ G (Some a) (Some t) (Some mu)) (@mean_anomaly_hypb _ M a t mu) (@mean_anomaly_hypb _ F a t mu).
Proof. exact (fun L => FlushMain.scalars_flush _ _ _ (ieee64 L)). Qed.
Print Assumptions C108_scalars.
Theorem C108_nmax : forall (L : libm64) (rp r1 r2 t mu : b64), lplain [rp; r1; r2; t; mu] ->
  agree (@nmax_by_periapsis _ (@Num_G 53 1024 (Num_B64 L)) (Some rp) (Some r1) (Some r2) (Some t) (Some mu)) (@nmax_by_periapsis _ (Num_B64 L) rp r1 r2 t mu) (@nmax_by_periapsis _ (@Num_F 53 1024 (Num_B64 L)) rp r1 r2 t mu).
Proof. exact (fun L => FlushMain.nmax_flush _ _ _ (ieee64 L)). Qed.
Print Assumptions C108_nmax.
Example C108_scalars_case : is_some (@orb_period _ E64 (Some (b64_Z 7000)) (Some (b64_Z 398600))) && is_some (@mean_anomaly_elps _ E64 (Some (b64_Z 7000)) (Some (b64_Z 60)) (Some (b64_Z 398600))) &&
    is_some (@mean_anomaly_hypb _ E64 (Some (b64_Z (-7000))) (Some (b64_Z 60)) (Some (b64_Z 398600))) && is_some (@nmax_by_periapsis _ E64 (Some (b64_Z 6500)) (Some (b64_Z 7000)) (Some (b64_Z 8000)) (Some (b64_Z 20000)) (Some (b64_Z 398600))) = true.
Proof. exact scalars64_fl. Qed.

Theorem C108_path : forall (L : libm64) (r1 v1 r2 : V3 b64) (mu rmin : b64), vplain r1 -> vplain v1 -> vplain r2 -> plain mu = true -> plain rmin = true ->
  let n := @Num_G 53 1024 (Num_B64 L) in let M := Num_B64 L in let F := @Num_F 53 1024 (Num_B64 L) in
  let x := vsome r1 in let v := vsome v1 in let y := vsome r2 in let e := @eccentricity_vector _ n x v (Some mu) in
  (@vinner _ n (@vcross _ n x v) (@vcross _ n x y) <> None -> @is_short_way _ F r1 v1 r2 = @is_short_way _ M r1 v1 r2) /\
  (@vinner _ n (@vcross _ n x v) (@vcross _ n x y) <> None -> @vinner _ n (@vcross _ n x y) (@vcross _ n x e) <> None -> @vinner _ n (@vcross _ n x y) (@vcross _ n e y) <> None ->
     @pass_perigee _ F r1 v1 r2 mu = @pass_perigee _ M r1 v1 r2 mu) /\
  (@radius_periapsis _ n (@semiparameter _ n (@vector_norm _ n (@angular_momentum _ n x v)) (Some mu)) (@vector_norm _ n e) <> None ->
     @rp_islower_rmin _ F rmin r1 v1 mu = @rp_islower_rmin _ M rmin r1 v1 mu).
Proof. exact (fun L => FlushMain.path_flush _ _ _ (ieee64 L)). Qed.
Print Assumptions C108_path.
Example C108_path_case : let n := E64 in let x := some64 zero64_x in let v := some64 zero64_v in let y := some64 (mk3 (b64_Z (-5000)) (b64_Z 4000) (b64_Z 100)) in
  let e := @eccentricity_vector _ n x v (Some (b64_Z 398600)) in
  is_some (@vinner _ n (@vcross _ n x v) (@vcross _ n x y)) && is_some (@vinner _ n (@vcross _ n x y) (@vcross _ n x e)) && is_some (@vinner _ n (@vcross _ n x y) (@vcross _ n e y)) &&
  is_some (@radius_periapsis _ n (@semiparameter _ n (@vector_norm _ n (@angular_momentum _ n x v)) (Some (b64_Z 398600))) (@vector_norm _ n e)) = true.
Proof. exact path64_fl. Qed.

(** only the first three entries of the state matter *)
Theorem C108_forces : forall (L : libm64) (t : b64) (x : list b64) (d : list (string * b64)), lplain (firstn 3 x) -> dplain d ->
  let G := @Num_G 53 1024 (Num_B64 L) in let M := Num_B64 L in let F := @Num_F 53 1024 (Num_B64 L) in let g := map Some x in let dg := dsome d in
  rfollows vagree (@point_mass_grav _ G (Some t) g dg) (@point_mass_grav _ M t x d) (@point_mass_grav _ F t x d) /\
  rfollows vagree (@j2_acc _ G (Some t) g dg) (@j2_acc _ M t x d) (@j2_acc _ F t x d) /\
  rfollows vagree (@j3_acc _ G (Some t) g dg) (@j3_acc _ M t x d) (@j3_acc _ F t x d) /\
  rfollows vagree (@j4_acc _ G (Some t) g dg) (@j4_acc _ M t x d) (@j4_acc _ F t x d) /\
  rfollows agree (@radius_islow _ G (Some t) g dg) (@radius_islow _ M t x d) (@radius_islow _ F t x d).
Proof. exact (fun L => FlushMain.forces_flush _ _ _ (ieee64 L)). Qed.
Print Assumptions C108_forces.
Example C108_forces_case : let x := [b64_Z 1; b64_dec 1 3; b64_dec 1 2] in let g := map Some x in
  allr (@point_mass_grav _ E64 None g (gd64 "J2")) && allr (@j2_acc _ E64 None g (gd64 "J2")) && allr (@j3_acc _ E64 None g (gd64 "J3")) && allr (@j4_acc _ E64 None g (gd64 "J4")) = true.
Proof. exact forces64_fl. Qed.

(** without the guard: an acceleration well inside the range of normal numbers comes out as zero,
    because an intermediate result is subnormal *)
Theorem C108_forces_differ : forall (L : libm64), exists (x : list b64) (d : list (string * b64)) (a b : V3 b64), lplain x /\ dplain d /\
  @point_mass_grav _ (Num_B64 L) (b64_Z 0) x d = Ok a /\ @point_mass_grav _ (@Num_F 53 1024 (Num_B64 L)) (b64_Z 0) x d = Ok b /\
  (B2R (c0 a) < 0)%R /\ plain (c0 a) = true /\ B2R (c0 b) = 0%R.
Proof. exact differ64_fl. Qed.
Print Assumptions C108_forces_differ.

Theorem C108_kepler_single : forall (L : libm) (ts : list b32) (x v : V3 b32) (mu : b32), lplain ts -> vplain x -> vplain v -> plain mu = true ->
  Forall2 (fun g p => vagree (fst g) (fst (fst p)) (fst (snd p)) /\ vagree (snd g) (snd (fst p)) (snd (snd p)))
    (@kepler _ (@Num_G 24 128 (Num_B32 L)) (map Some ts) (vsome x) (vsome v) (Some mu)) (combine (@kepler _ (Num_B32 L) ts x v mu) (@kepler _ (@Num_F 24 128 (Num_B32 L)) ts x v mu)).
Proof. exact (fun L ts x v mu => FlushMain.kepler_flush _ _ _ (ieee32 L) ts x v mu (ptol32 L)). Qed.
Print Assumptions C108_kepler_single.
Example C108_kepler_case_single : forallb (fun g => all3 (fst g) && all3 (snd g)) (@kepler _ E32 [Some (b32_Z 600); Some (b32_Z (-300))] (some32 zero32_x) (some32 zero32_v) (Some (b32_Z 398600))) = true /\
  moved (fun a => a) zero32_x (@kepler _ F32 [b32_Z 600; b32_Z (-300)] zero32_x zero32_v (b32_Z 398600)) (@kepler _ (Num_B32 hom_libm32) [b32_Z 600; b32_Z (-300)] zero32_x zero32_v (b32_Z 398600)).
Proof. exact kepler32_fl. Qed.

Theorem C108_dxdx0_single : forall (L : libm) (r v x w : V3 b32) (t mu : b32), vplain r -> vplain v -> vplain x -> vplain w -> plain t = true -> plain mu = true ->
  let g := @dxdx0 _ (@Num_G 24 128 (Num_B32 L)) (vsome r) (vsome v) (vsome x) (vsome w) (Some t) (Some mu) in
  let A := @dxdx0 _ (Num_B32 L) r v x w t mu in let B := @dxdx0 _ (@Num_F 24 128 (Num_B32 L)) r v x w t mu in
  magree (b_rr g) (b_rr A) (b_rr B) /\ magree (b_rv g) (b_rv A) (b_rv B) /\ magree (b_vr g) (b_vr A) (b_vr B) /\ magree (b_vv g) (b_vv A) (b_vv B).
Proof. exact (fun L => FlushMain.dxdx0_flush _ _ _ (ieee32 L)). Qed.
Print Assumptions C108_dxdx0_single.
Example C108_dxdx0_case_single : all6 (@dxdx0 _ E32 (some32 (fst later32)) (some32 (snd later32)) (some32 can_x) (some32 can_v) (Some (b32_dec 1 4)) (Some (b32_Z 1))) = true.
Proof. exact dxdx032_fl. Qed.

Theorem C108_solver_single : forall (L : libm) (dt al r0 s0 mu tol : b32) (n : Z), lplain [dt; al; r0; s0; mu; tol] ->
  agree (@solve_kepler_uni _ (@Num_G 24 128 (Num_B32 L)) (Some dt) (Some al) (Some r0) (Some s0) (Some mu) (Some tol) n)
    (@solve_kepler_uni _ (Num_B32 L) dt al r0 s0 mu tol n) (@solve_kepler_uni _ (@Num_F 24 128 (Num_B32 L)) dt al r0 s0 mu tol n).
Proof. exact (fun L => FlushMain.solver_flush _ _ _ (ieee32 L)). Qed.
Print Assumptions C108_solver_single.
Example C108_solver_case_single : is_some (@solve_kepler_uni _ E32 (Some (b32_Z 1)) (Some (b32_dec 1 2)) (Some (b32_Z 1)) (Some (b32_dec 1 4)) (Some (b32_Z 1)) (Some (b32_dec 1 1000000)) 50) = true.
Proof. exact solver32_fl. Qed.

Theorem C108_vectors_single : forall (L : libm) (x v : V3 b32) (mu : b32), vplain x -> vplain v -> plain mu = true ->
  let G := @Num_G 24 128 (Num_B32 L) in let M := Num_B32 L in let F := @Num_F 24 128 (Num_B32 L) in
  vagree (@angular_momentum _ G (vsome x) (vsome v)) (@angular_momentum _ M x v) (@angular_momentum _ F x v) /\
  vagree (@eccentricity_vector _ G (vsome x) (vsome v) (Some mu)) (@eccentricity_vector _ M x v mu) (@eccentricity_vector _ F x v mu) /\
  agree (@semimajor_axis _ G (@vector_norm _ G (vsome x)) (@vector_norm _ G (vsome v)) (Some mu))
    (@semimajor_axis _ M (@vector_norm _ M x) (@vector_norm _ M v) mu) (@semimajor_axis _ F (@vector_norm _ F x) (@vector_norm _ F v) mu).
Proof. exact (fun L => FlushMain.vectors_flush _ _ _ (ieee32 L)). Qed.
Print Assumptions C108_vectors_single.
Theorem C108_rv2coe_single : forall (L : libm) (x v : V3 b32) (mu : b32), vplain x -> vplain v -> plain mu = true ->
  let g := @rv2coe _ (@Num_G 24 128 (Num_B32 L)) (vsome x) (vsome v) (Some mu) in let A := @rv2coe _ (Num_B32 L) x v mu in let B := @rv2coe _ (@Num_F 24 128 (Num_B32 L)) x v mu in
  agree (coe_p g) (coe_p A) (coe_p B) /\ agree (coe_e g) (coe_e A) (coe_e B) /\ agree (coe_incl g) (coe_incl A) (coe_incl B) /\
  agree (coe_raan g) (coe_raan A) (coe_raan B) /\ agree (coe_argp g) (coe_argp A) (coe_argp B) /\ agree (coe_f g) (coe_f A) (coe_f B).
Proof. exact (fun L => FlushMain.rv2coe_flush _ _ _ (ieee32 L)). Qed.
Print Assumptions C108_rv2coe_single.
Theorem C108_coe2rv_single : forall (L : libm) (p e i ra ap f mu : b32), lplain [p; e; i; ra; ap; f; mu] ->
  let g := @coe2rv _ (@Num_G 24 128 (Num_B32 L)) (Some p) (Some e) (Some i) (Some ra) (Some ap) (Some f) (Some mu) in
  let A := @coe2rv _ (Num_B32 L) p e i ra ap f mu in let B := @coe2rv _ (@Num_F 24 128 (Num_B32 L)) p e i ra ap f mu in
  vagree (fst g) (fst A) (fst B) /\ vagree (snd g) (snd A) (snd B).
Proof. exact (fun L => FlushMain.coe2rv_flush _ _ _ (ieee32 L)). Qed.
Print Assumptions C108_coe2rv_single.
Example C108_elements_case_single : all3 (@angular_momentum _ E32 (some32 zero32_x) (some32 zero32_v)) && all3 (@eccentricity_vector _ E32 (some32 zero32_x) (some32 zero32_v) (Some (b32_Z 398600))) &&
    is_some (@semimajor_axis _ E32 (@vector_norm _ E32 (some32 zero32_x)) (@vector_norm _ E32 (some32 zero32_v)) (Some (b32_Z 398600))) &&
    somes (@rv2coe _ E32 (some32 zero32_x) (some32 zero32_v) (Some (b32_Z 398600))) = true /\
  let g := @coe2rv _ E32 (Some (b32_Z 7000)) (Some (b32_dec 1 10)) (Some (b32_Z 1)) (Some (b32_Z 2)) (Some (b32_Z 3)) (Some (b32_dec 1 3)) (Some (b32_Z 398600)) in all3 (fst g) && all3 (snd g) = true.
Proof. exact elements32_fl. Qed.

Theorem C108_scalars_single : forall (L : libm) (a t mu : b32), lplain [a; t; mu] ->
  let G := @Num_G 24 128 (Num_B32 L) in let M := Num_B32 L in let F := @Num_F 24 128 (Num_B32 L) in
  agree (@orb_period _ G (Some a) (Some mu)) (@orb_period _ M a mu) (@orb_period _ F a mu) /\
  agree (@mean_anomaly_elps _ G (Some a) (Some t) (Some mu)) (@mean_anomaly_elps _ M a t mu) (@mean_anomaly_elps _ F a t mu) /\
  agree (@mean_anomaly_hypb _ G (Some a) (Some t) (Some mu)) (@mean_anomaly_hypb _ M a t mu) (@mean_anomaly_hypb _ F a t mu).
Proof. exact (fun L => FlushMain.scalars_flush _ _ _ (ieee32 L)). Qed.
Print Assumptions C108_scalars_single.
Theorem C108_nmax_single : forall (L : libm) (rp r1 r2 t mu : b32), lplain [rp; r1; r2; t; mu] ->
  agree (@nmax_by_periapsis _ (@Num_G 24 128 (Num_B32 L)) (Some rp) (Some r1) (Some r2) (Some t) (Some mu)) (@nmax_by_periapsis _ (Num_B32 L) rp r1 r2 t mu) (@nmax_by_periapsis _ (@Num_F 24 128 (Num_B32 L)) rp r1 r2 t mu).
Proof. exact (fun L => FlushMain.nmax_flush _ _ _ (ieee32 L)). Qed.
Print Assumptions C108_nmax_single.
Example C108_scalars_case_single : is_some (@orb_period _ E32 (Some (b32_Z 7000)) (Some (b32_Z 398600))) && is_some (@mean_anomaly_elps _ E32 (Some (b32_Z 7000)) (Some (b32_Z 60)) (Some (b32_Z 398600))) &&
    is_some (@mean_anomaly_hypb _ E32 (Some (b32_Z (-7000))) (Some (b32_Z 60)) (Some (b32_Z 398600))) && is_some (@nmax_by_periapsis _ E32 (Some (b32_Z 6500)) (Some (b32_Z 7000)) (Some (b32_Z 8000)) (Some (b32_Z 20000)) (Some (b32_Z 398600))) = true.
Proof. exact scalars32_fl. Qed.

Theorem C108_path_single : forall (L : libm) (r1 v1 r2 : V3 b32) (mu rmin : b32), vplain r1 -> vplain v1 -> vplain r2 -> plain mu = true -> plain rmin = true ->
  let n := @Num_G 24 128 (Num_B32 L) in let M := Num_B32 L in let F := @Num_F 24 128 (Num_B32 L) in
  let x := vsome r1 in let v := vsome v1 in let y := vsome r2 in let e := @eccentricity_vector _ n x v (Some mu) in
  (@vinner _ n (@vcross _ n x v) (@vcross _ n x y) <> None -> @is_short_way _ F r1 v1 r2 = @is_short_way _ M r1 v1 r2) /\
  (@vinner _ n (@vcross _ n x v) (@vcross _ n x y) <> None -> @vinner _ n (@vcross _ n x y) (@vcross _ n x e) <> None -> @vinner _ n (@vcross _ n x y) (@vcross _ n e y) <> None ->
     @pass_perigee _ F r1 v1 r2 mu = @pass_perigee _ M r1 v1 r2 mu) /\
  (@radius_periapsis _ n (@semiparameter _ n (@vector_norm _ n (@angular_momentum _ n x v)) (Some mu)) (@vector_norm _ n e) <> None ->
     @rp_islower_rmin _ F rmin r1 v1 mu = @rp_islower_rmin _ M rmin r1 v1 mu).
Proof. exact (fun L => FlushMain.path_flush _ _ _ (ieee32 L)). Qed.
Print Assumptions C108_path_single.
Example C108_path_case_single : let n := E32 in let x := some32 zero32_x in let v := some32 zero32_v in let y := some32 (mk3 (b32_Z (-5000)) (b32_Z 4000) (b32_Z 100)) in
  let e := @eccentricity_vector _ n x v (Some (b32_Z 398600)) in
  is_some (@vinner _ n (@vcross _ n x v) (@vcross _ n x y)) && is_some (@vinner _ n (@vcross _ n x y) (@vcross _ n x e)) && is_some (@vinner _ n (@vcross _ n x y) (@vcross _ n e y)) &&
  is_some (@radius_periapsis _ n (@semiparameter _ n (@vector_norm _ n (@angular_momentum _ n x v)) (Some (b32_Z 398600))) (@vector_norm _ n e)) = true.
Proof. exact path32_fl. Qed.

(** only the first three entries of the state matter *)
Theorem C108_forces_single : forall (L : libm) (t : b32) (x : list b32) (d : list (string * b32)), lplain (firstn 3 x) -> dplain d ->
  let G := @Num_G 24 128 (Num_B32 L) in let M := Num_B32 L in let F := @Num_F 24 128 (Num_B32 L) in let g := map Some x in let dg := dsome d in
  rfollows vagree (@point_mass_grav _ G (Some t) g dg) (@point_mass_grav _ M t x d) (@point_mass_grav _ F t x d) /\
  rfollows vagree (@j2_acc _ G (Some t) g dg) (@j2_acc _ M t x d) (@j2_acc _ F t x d) /\
  rfollows vagree (@j3_acc _ G (Some t) g dg) (@j3_acc _ M t x d) (@j3_acc _ F t x d) /\
  rfollows vagree (@j4_acc _ G (Some t) g dg) (@j4_acc _ M t x d) (@j4_acc _ F t x d) /\
  rfollows agree (@radius_islow _ G (Some t) g dg) (@radius_islow _ M t x d) (@radius_islow _ F t x d).
Proof. exact (fun L => FlushMain.forces_flush _ _ _ (ieee32 L)). Qed.
Print Assumptions C108_forces_single.
Example C108_forces_case_single : let x := [b32_Z 1; b32_dec 1 3; b32_dec 1 2] in let g := map Some x in
  allr (@point_mass_grav _ E32 None g (gd32 "J2")) && allr (@j2_acc _ E32 None g (gd32 "J2")) && allr (@j3_acc _ E32 None g (gd32 "J3")) && allr (@j4_acc _ E32 None g (gd32 "J4")) = true.
Proof. exact forces32_fl. Qed.

(** without the guard: an acceleration well inside the range of normal numbers comes out as zero,
    because an intermediate result is subnormal *)
Theorem C108_forces_differ_single : forall (L : libm), exists (x : list b32) (d : list (string * b32)) (a b : V3 b32), lplain x /\ dplain d /\
  @point_mass_grav _ (Num_B32 L) (b32_Z 0) x d = Ok a /\ @point_mass_grav _ (@Num_F 24 128 (Num_B32 L)) (b32_Z 0) x d = Ok b /\
  (B2R (c0 a) < 0)%R /\ plain (c0 a) = true /\ B2R (c0 b) = 0%R.
Proof. exact differ32_fl. Qed.
Print Assumptions C108_forces_differ_single.
