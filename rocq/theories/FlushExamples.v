(** * FlushExamples: runs behind the examples of C108 *)
From Coq Require Import ZArith Reals Lra Bool List String.
From Flocq Require Import Core IEEE754.BinarySingleNaN.
From Verif Require Import Num NumF NumB32 NumB64 SpecUnits SpecFlush OrbIntegrals OrbElements PathCheck Gravity KepEqu StateTrans PropKepler ZeroExamples MirrorExamples UnitExamples.
Import ListNotations.
Local Open Scope Z_scope.

Lemma neg_of {prec emax : Z} (x : binary_float prec emax) : is_finite_strict x = true -> Bsign x = true -> (B2R x < 0)%R.
Proof. destruct x as [s|s| |s m e B]; try discriminate. cbn [Bsign B2R]. intros _ ->. now apply F2R_lt_0. Qed.
Lemma zero_of {prec emax : Z} (x : binary_float prec emax) : match x with B754_zero _ => true | _ => false end = true -> B2R x = 0%R.
Proof. now destruct x. Qed.

Definition E64 : Num (option b64) := @Num_G 53 1024 (Num_B64 hom_libm64).
Definition F64 : Num b64 := @Num_F 53 1024 (Num_B64 hom_libm64).
Lemma ptol64 (L : libm64) : plain (@default_tol _ (Num_B64 L)) = true. Proof. vm_compute. reflexivity. Qed.
Lemma kepler64_fl : forallb (fun g => all3 (fst g) && all3 (snd g)) (@kepler _ E64 [Some (b64_Z 600); Some (b64_Z (-300))] (some64 zero64_x) (some64 zero64_v) (Some (b64_Z 398600))) = true /\
  moved (fun a => a) zero64_x (@kepler _ F64 [b64_Z 600; b64_Z (-300)] zero64_x zero64_v (b64_Z 398600)) (@kepler _ (Num_B64 hom_libm64) [b64_Z 600; b64_Z (-300)] zero64_x zero64_v (b64_Z 398600)).
Proof. vm_compute. repeat split; discriminate. Qed.
Lemma dxdx064_fl : all6 (@dxdx0 _ E64 (some64 (fst later64)) (some64 (snd later64)) (some64 zero64_x) (some64 zero64_v) (Some (b64_Z 600)) (Some (b64_Z 398600))) = true.
Proof. vm_compute. reflexivity. Qed.
Lemma solver64_fl : is_some (@solve_kepler_uni _ E64 (Some (b64_Z 1)) (Some (b64_dec 1 2)) (Some (b64_Z 1)) (Some (b64_dec 1 4)) (Some (b64_Z 1)) (Some (b64_dec 1 1000000)) 50) = true.
Proof. vm_compute. reflexivity. Qed.
Lemma elements64_fl : all3 (@angular_momentum _ E64 (some64 zero64_x) (some64 zero64_v)) && all3 (@eccentricity_vector _ E64 (some64 zero64_x) (some64 zero64_v) (Some (b64_Z 398600))) &&
    is_some (@semimajor_axis _ E64 (@vector_norm _ E64 (some64 zero64_x)) (@vector_norm _ E64 (some64 zero64_v)) (Some (b64_Z 398600))) &&
    somes (@rv2coe _ E64 (some64 zero64_x) (some64 zero64_v) (Some (b64_Z 398600))) = true /\
  let g := @coe2rv _ E64 (Some (b64_Z 7000)) (Some (b64_dec 1 10)) (Some (b64_Z 1)) (Some (b64_Z 2)) (Some (b64_Z 3)) (Some (b64_dec 1 3)) (Some (b64_Z 398600)) in all3 (fst g) && all3 (snd g) = true.
Proof. vm_compute. split; reflexivity. Qed.
Lemma scalars64_fl : is_some (@orb_period _ E64 (Some (b64_Z 7000)) (Some (b64_Z 398600))) && is_some (@mean_anomaly_elps _ E64 (Some (b64_Z 7000)) (Some (b64_Z 60)) (Some (b64_Z 398600))) &&
    is_some (@mean_anomaly_hypb _ E64 (Some (b64_Z (-7000))) (Some (b64_Z 60)) (Some (b64_Z 398600))) && is_some (@nmax_by_periapsis _ E64 (Some (b64_Z 6500)) (Some (b64_Z 7000)) (Some (b64_Z 8000)) (Some (b64_Z 20000)) (Some (b64_Z 398600))) = true.
Proof. vm_compute. reflexivity. Qed.
Lemma path64_fl : let n := E64 in let x := some64 zero64_x in let v := some64 zero64_v in let y := some64 (mk3 (b64_Z (-5000)) (b64_Z 4000) (b64_Z 100)) in
  let e := @eccentricity_vector _ n x v (Some (b64_Z 398600)) in
  is_some (@vinner _ n (@vcross _ n x v) (@vcross _ n x y)) && is_some (@vinner _ n (@vcross _ n x y) (@vcross _ n x e)) && is_some (@vinner _ n (@vcross _ n x y) (@vcross _ n e y)) &&
  is_some (@radius_periapsis _ n (@semiparameter _ n (@vector_norm _ n (@angular_momentum _ n x v)) (Some (b64_Z 398600))) (@vector_norm _ n e)) = true.
Proof. vm_compute. reflexivity. Qed.
Lemma forces64_fl : let x := [b64_Z 1; b64_dec 1 3; b64_dec 1 2] in let g := map Some x in
  allr (@point_mass_grav _ E64 None g (gd64 "J2")) && allr (@j2_acc _ E64 None g (gd64 "J2")) && allr (@j3_acc _ E64 None g (gd64 "J3")) && allr (@j4_acc _ E64 None g (gd64 "J4")) = true.
Proof. vm_compute. reflexivity. Qed.

Definition E32 : Num (option b32) := @Num_G 24 128 (Num_B32 hom_libm32).
Definition F32 : Num b32 := @Num_F 24 128 (Num_B32 hom_libm32).
Lemma ptol32 (L : libm) : plain (@default_tol _ (Num_B32 L)) = true. Proof. vm_compute. reflexivity. Qed.
Lemma kepler32_fl : forallb (fun g => all3 (fst g) && all3 (snd g)) (@kepler _ E32 [Some (b32_Z 600); Some (b32_Z (-300))] (some32 zero32_x) (some32 zero32_v) (Some (b32_Z 398600))) = true /\
  moved (fun a => a) zero32_x (@kepler _ F32 [b32_Z 600; b32_Z (-300)] zero32_x zero32_v (b32_Z 398600)) (@kepler _ (Num_B32 hom_libm32) [b32_Z 600; b32_Z (-300)] zero32_x zero32_v (b32_Z 398600)).
Proof. vm_compute. repeat split; discriminate. Qed.
Lemma dxdx032_fl : all6 (@dxdx0 _ E32 (some32 (fst later32)) (some32 (snd later32)) (some32 can_x) (some32 can_v) (Some (b32_dec 1 4)) (Some (b32_Z 1))) = true.
Proof. vm_compute. reflexivity. Qed.
Lemma solver32_fl : is_some (@solve_kepler_uni _ E32 (Some (b32_Z 1)) (Some (b32_dec 1 2)) (Some (b32_Z 1)) (Some (b32_dec 1 4)) (Some (b32_Z 1)) (Some (b32_dec 1 1000000)) 50) = true.
Proof. vm_compute. reflexivity. Qed.
Lemma elements32_fl : all3 (@angular_momentum _ E32 (some32 zero32_x) (some32 zero32_v)) && all3 (@eccentricity_vector _ E32 (some32 zero32_x) (some32 zero32_v) (Some (b32_Z 398600))) &&
    is_some (@semimajor_axis _ E32 (@vector_norm _ E32 (some32 zero32_x)) (@vector_norm _ E32 (some32 zero32_v)) (Some (b32_Z 398600))) &&
    somes (@rv2coe _ E32 (some32 zero32_x) (some32 zero32_v) (Some (b32_Z 398600))) = true /\
  let g := @coe2rv _ E32 (Some (b32_Z 7000)) (Some (b32_dec 1 10)) (Some (b32_Z 1)) (Some (b32_Z 2)) (Some (b32_Z 3)) (Some (b32_dec 1 3)) (Some (b32_Z 398600)) in all3 (fst g) && all3 (snd g) = true.
Proof. vm_compute. split; reflexivity. Qed.
Lemma scalars32_fl : is_some (@orb_period _ E32 (Some (b32_Z 7000)) (Some (b32_Z 398600))) && is_some (@mean_anomaly_elps _ E32 (Some (b32_Z 7000)) (Some (b32_Z 60)) (Some (b32_Z 398600))) &&
    is_some (@mean_anomaly_hypb _ E32 (Some (b32_Z (-7000))) (Some (b32_Z 60)) (Some (b32_Z 398600))) && is_some (@nmax_by_periapsis _ E32 (Some (b32_Z 6500)) (Some (b32_Z 7000)) (Some (b32_Z 8000)) (Some (b32_Z 20000)) (Some (b32_Z 398600))) = true.
Proof. vm_compute. reflexivity. Qed.
Lemma path32_fl : let n := E32 in let x := some32 zero32_x in let v := some32 zero32_v in let y := some32 (mk3 (b32_Z (-5000)) (b32_Z 4000) (b32_Z 100)) in
  let e := @eccentricity_vector _ n x v (Some (b32_Z 398600)) in
  is_some (@vinner _ n (@vcross _ n x v) (@vcross _ n x y)) && is_some (@vinner _ n (@vcross _ n x y) (@vcross _ n x e)) && is_some (@vinner _ n (@vcross _ n x y) (@vcross _ n e y)) &&
  is_some (@radius_periapsis _ n (@semiparameter _ n (@vector_norm _ n (@angular_momentum _ n x v)) (Some (b32_Z 398600))) (@vector_norm _ n e)) = true.
Proof. vm_compute. reflexivity. Qed.
Lemma forces32_fl : let x := [b32_Z 1; b32_dec 1 3; b32_dec 1 2] in let g := map Some x in
  allr (@point_mass_grav _ E32 None g (gd32 "J2")) && allr (@j2_acc _ E32 None g (gd32 "J2")) && allr (@j3_acc _ E32 None g (gd32 "J3")) && allr (@j4_acc _ E32 None g (gd32 "J4")) = true.
Proof. vm_compute. reflexivity. Qed.

(** position [7 * 2 ^ 338] on the first axis, mu = 1: the quotient mu / r^3 is subnormal *)
Lemma differ64_fl : forall (L : libm64), exists (x : list b64) (d : list (string * b64)) (a b : V3 b64), lplain x /\ dplain d /\
  @point_mass_grav _ (Num_B64 L) (b64_Z 0) x d = Ok a /\ @point_mass_grav _ (@Num_F 53 1024 (Num_B64 L)) (b64_Z 0) x d = Ok b /\
  (B2R (c0 a) < 0)%R /\ plain (c0 a) = true /\ B2R (c0 b) = 0%R.
Proof.
  intros L. exists [b64_Z (7 * 2 ^ 338); b64_Z 0; b64_Z 0], [("mu"%string, b64_Z 1)].
  eexists. eexists. split; [repeat constructor; vm_compute; reflexivity|]. split; [repeat constructor; vm_compute; reflexivity|].
  split; [reflexivity|]. split; [reflexivity|]. split; [|split].
  - apply neg_of; vm_compute; reflexivity.
  - vm_compute. reflexivity.
  - apply zero_of. vm_compute. reflexivity.
Qed.

(** position [3 * 2 ^ 41] on the first axis, mu = 1: the quotient mu / r^3 is subnormal *)
Lemma differ32_fl : forall (L : libm), exists (x : list b32) (d : list (string * b32)) (a b : V3 b32), lplain x /\ dplain d /\
  @point_mass_grav _ (Num_B32 L) (b32_Z 0) x d = Ok a /\ @point_mass_grav _ (@Num_F 24 128 (Num_B32 L)) (b32_Z 0) x d = Ok b /\
  (B2R (c0 a) < 0)%R /\ plain (c0 a) = true /\ B2R (c0 b) = 0%R.
Proof.
  intros L. exists [b32_Z (3 * 2 ^ 41); b32_Z 0; b32_Z 0], [("mu"%string, b32_Z 1)].
  eexists. eexists. split; [repeat constructor; vm_compute; reflexivity|]. split; [repeat constructor; vm_compute; reflexivity|].
  split; [reflexivity|]. split; [reflexivity|]. split; [|split].
  - apply neg_of; vm_compute; reflexivity.
  - vm_compute. reflexivity.
  - apply zero_of. vm_compute. reflexivity.
Qed.
