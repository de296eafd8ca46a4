(** * GeoExamples: concrete cases behind the examples of [PropsRound]. *)
From Coq Require Import ZArith Reals Lra Lia Psatz Bool List.
From Flocq Require Import Core IEEE754.BinarySingleNaN.
From Verif Require Import Num NumB32 NumB64 Spec SpecFl SpecFl32 SpecFl64 SpecFlV RelLib.
From Verif Require B32Rel B64Rel B32Geo B64Geo B32Path B64Path.
From Verif Require Import OrbIntegrals Uniformulas PathCheck.
Local Open Scope R_scope.

Lemma ex_norms : vnorm (mk3 3 4 0) = 5 /\ vnorm (mk3 0 1 0) = 1 /\ vnorm (mk3 (-4) 3 0) = 5.
Proof.
  unfold vnorm, dot; cbn [c0 c1 c2]. split; [| split].
  - replace (3 * 3 + 4 * 4 + 0 * 0) with (5 * 5) by ring. apply sqrt_square. lra.
  - replace (0 * 0 + 1 * 1 + 0 * 0) with (1 * 1) by ring. apply sqrt_square. lra.
  - replace (-4 * -4 + 3 * 3 + 0 * 0) with (5 * 5) by ring. apply sqrt_square. lra.
Qed.

(** r = (3, 4, 0), v = (0, 1, 0), mu = 7 *)
Definition exr64 : V3 b64 := mk3 (b64_Z 3) (b64_Z 4) (b64_Z 0).
Definition exv64 : V3 b64 := mk3 (b64_Z 0) (b64_Z 1) (b64_Z 0).
Definition exs64 : V3 b64 := mk3 (b64_Z (-4)) (b64_Z 3) (b64_Z 0).
Definition exm64 : b64 := b64_Z 7.
Lemma int64 (z : Z) : (Z.abs z < 2 ^ 24)%Z -> is_finite (b64_Z z) = true /\ B2R (b64_Z z) = IZR z.
Proof.
  intro H. destruct (B64Rel.Fl_int z ltac:(lia)) as [F [t [V T]]]. split; [exact F |].
  assert (t = 1) by (simpl in T; rewrite Rinv_1 in T; lra). subst t. lra.
Qed.
Lemma ex64_real : real64 exr64 = mk3 3 4 0 /\ real64 exv64 = mk3 0 1 0 /\ real64 exs64 = mk3 (-4) 3 0 /\ B2R exm64 = 7 /\
  vnorm (mk3 3 4 0) = 5 /\ vnorm (mk3 0 1 0) = 1 /\ vnorm (mk3 (-4) 3 0) = 5.
Proof.
  unfold real64, exr64, exv64, exs64, exm64; cbn [c0 c1 c2].
  rewrite !(fun z H => proj2 (int64 z H)) by lia. split; [reflexivity |]. split; [reflexivity |]. split; [reflexivity |]. split; [reflexivity |].
  exact ex_norms.
Qed.
Lemma ex64_good : good64v 100 exr64 /\ good64v 100 exv64 /\ good64v 100 exs64 /\ good64 100 exm64 /\ 0 < B2R exm64 /\ real64 exr64 <> vzero.
Proof.
  destruct ex64_real as [Hr [Hv [Hs [Hm [Nr [Nv Ns]]]]]].
  assert (F : forall z, (Z.abs z < 2 ^ 24)%Z -> is_finite (b64_Z z) = true) by (intros z H; apply (int64 z H)).
  unfold good64v, good64. rewrite Hr, Hv, Hs, Hm, Nr, Nv, Ns.
  split; [split; [repeat split; apply F; lia | apply range_between; [simpl; lra | lia]] |].
  split; [split; [repeat split; apply F; lia | apply range_between; [simpl; lra | lia]] |].
  split; [split; [repeat split; apply F; lia | apply range_between; [simpl; lra | lia]] |].
  split; [split; [apply F; lia | apply range_between; [simpl; lra | lia]] |].
  split; [lra |]. unfold vzero. intro H. injection H. lra.
Qed.
Lemma ex64_ecc (L : libm64) : let N := Num_B64 L in
  off64v 8 (17 / 7) (@eccentricity_vector _ N exr64 exv64 exm64) (mk3 (- 6 / 35) (- 4 / 5) 0) /\
  off64 20 (100 / 7) (@semiparameter _ N (@vector_norm _ N (@angular_momentum _ N exr64 exv64)) exm64) (9 / 7).
Proof.
  cbv zeta. destruct ex64_good as [Gr [Gv [_ [Gm [Pm Nz]]]]]. destruct ex64_real as [Hr [Hv [_ [Hm [Nr [Nv _]]]]]].
  pose proof (B64Geo.geo_ecc L _ _ Gr Gv _ Gm Pm Nz) as E. pose proof (B64Geo.geo_p L _ _ Gr Gv _ Gm Pm Nz) as P.
  rewrite Hr, Hv, Hm, Nr, Nv in E, P. split.
  - replace (17 / 7) with (2 * 5 * 1 ^ 2 / 7 + 1) by field.
    replace (mk3 (- 6 / 35) (- 4 / 5) 0) with (laplace 7 (mk3 3 4 0) (mk3 0 1 0)); [exact E |].
    unfold laplace. rewrite Nr. unfold vminus, smul, cross; cbn [c0 c1 c2]. f_equal; field.
  - replace (100 / 7) with (4 * 5 ^ 2 * 1 ^ 2 / 7) by field.
    replace (9 / 7) with (dot (cross (mk3 3 4 0) (mk3 0 1 0)) (cross (mk3 3 4 0) (mk3 0 1 0)) / 7); [exact P |].
    unfold dot, cross; cbn [c0 c1 c2]. field.
Qed.
(** to r2 = (-4, 3, 0): the short way round, periapsis not on it *)
Lemma ex64_path (L : libm64) : let N := Num_B64 L in
  @is_short_way _ N exr64 exv64 exs64 = true /\ @pass_perigee _ N exr64 exv64 exs64 exm64 = false.
Proof.
  cbv zeta. destruct ex64_good as [Gr [Gv [Gs [Gm [Pm Nz]]]]]. destruct ex64_real as [Hr [Hv [Hs [Hm [Nr [Nv Ns]]]]]].
  pose proof (B64Path.short_ok L _ _ _ Gr Gv Gs) as S1. pose proof (B64Path.perigee_ok L _ _ _ Gr Gv Gs _ Gm Pm Nz) as P1.
  rewrite Hr, Hv, Hs, Hm, Nr, Nv, Ns in P1. rewrite Hr, Hv, Hs, Nr, Nv, Ns in S1.
  assert (EQ : laplace 7 (mk3 3 4 0) (mk3 0 1 0) = mk3 (- 6 / 35) (- 4 / 5) 0).
  { unfold laplace. rewrite Nr. unfold vminus, smul, cross; cbn [c0 c1 c2]. f_equal; field. }
  rewrite EQ in P1.
  assert (D1 : dot (cross (mk3 3 4 0) (mk3 0 1 0)) (cross (mk3 3 4 0) (mk3 (-4) 3 0)) = 75) by (unfold dot, cross; cbn [c0 c1 c2]; field).
  assert (D2 : dot (cross (mk3 3 4 0) (mk3 (-4) 3 0)) (cross (mk3 3 4 0) (mk3 (- 6 / 35) (- 4 / 5) 0)) = - (300 / 7)) by (unfold dot, cross; cbn [c0 c1 c2]; field).
  assert (D3 : dot (cross (mk3 3 4 0) (mk3 (-4) 3 0)) (cross (mk3 (- 6 / 35) (- 4 / 5) 0) (mk3 (-4) 3 0)) = - (650 / 7)) by (unfold dot, cross; cbn [c0 c1 c2]; field).
  rewrite D1 in S1. rewrite D1, D2, D3 in P1.
  assert (A1 : Rabs 75 = 75) by (apply Rabs_pos_eq; lra).
  assert (A2 : Rabs (- (300 / 7)) = 300 / 7) by (rewrite Rabs_left; lra).
  assert (A3 : Rabs (- (650 / 7)) = 650 / 7) by (rewrite Rabs_left; lra).
  split.
  - rewrite S1; [apply Rlt_bool_true; lra |]. rewrite A1. simpl. lra.
  - rewrite P1; [| rewrite A1; simpl; lra | rewrite A2; simpl; lra | rewrite A3; simpl; lra].
    rewrite (Rlt_bool_false 0 (- (300 / 7))), (Rlt_bool_true 0 75) by lra. reflexivity.
Qed.
(** r1 = (1, 1 + 2^-30, 0), r2 = (1 - 2^-30, 1, 0): the turn is by a positive angle of about 2^-60, not seen *)
Definition thin1_64 : V3 b64 := mk3 (b64_Z 1) (b64_dec 1073741825 1073741824) (b64_Z 0).
Definition thin2_64 : V3 b64 := mk3 (b64_dec 1073741823 1073741824) (b64_Z 1) (b64_Z 0).
Lemma ex64_thin (L : libm64) : let N := Num_B64 L in
  @is_short_way _ N thin1_64 exv64 thin2_64 = false /\
  0 < dot (cross (real64 thin1_64) (real64 exv64)) (cross (real64 thin1_64) (real64 thin2_64)).
Proof.
  split; [vm_compute; reflexivity |].
  assert (V1 : B2R (b64_dec 1073741825 1073741824) = IZR 1073741825 / IZR 1073741824).
  { assert (E : B2SF (b64_dec 1073741825 1073741824) = SpecFloat.S754_finite false 4503599631564800 (-52)) by (vm_compute; reflexivity).
    destruct (b64_dec 1073741825 1073741824) as [ | | | s m e H']; try discriminate. simpl in E. injection E as -> -> ->.
    unfold B2R, F2R; simpl. lra. }
  assert (V2 : B2R (b64_dec 1073741823 1073741824) = IZR 1073741823 / IZR 1073741824).
  { assert (E : B2SF (b64_dec 1073741823 1073741824) = SpecFloat.S754_finite false 9007199246352384 (-53)) by (vm_compute; reflexivity).
    destruct (b64_dec 1073741823 1073741824) as [ | | | s m e H']; try discriminate. simpl in E. injection E as -> -> ->.
    unfold B2R, F2R; simpl. lra. }
  unfold real64, thin1_64, thin2_64, exv64; cbn [c0 c1 c2].
  rewrite V1, V2, (proj2 (int64 0 ltac:(lia))), (proj2 (int64 1 ltac:(lia))). unfold dot, cross; cbn [c0 c1 c2]. lra.
Qed.
Lemma ex64_nmax (L : libm64) : let N := Num_B64 L in
  B2SF (@nmax_by_periapsis _ N (b64_dec 1 2) (b64_dec 1 2) (b64_dec 7 2) (b64_Z 129) (b64_Z 1)) = B2SF (b64_Z 7).
Proof. vm_compute. reflexivity. Qed.

(** r = (3, 4, 0), v = (0, 1, 0), mu = 7 *)
Definition exr32 : V3 b32 := mk3 (b32_Z 3) (b32_Z 4) (b32_Z 0).
Definition exv32 : V3 b32 := mk3 (b32_Z 0) (b32_Z 1) (b32_Z 0).
Definition exs32 : V3 b32 := mk3 (b32_Z (-4)) (b32_Z 3) (b32_Z 0).
Definition exm32 : b32 := b32_Z 7.
Lemma int32 (z : Z) : (Z.abs z < 2 ^ 24)%Z -> is_finite (b32_Z z) = true /\ B2R (b32_Z z) = IZR z.
Proof.
  intro H. destruct (B32Rel.Fl_int z ltac:(lia)) as [F [t [V T]]]. split; [exact F |].
  assert (t = 1) by (simpl in T; rewrite Rinv_1 in T; lra). subst t. lra.
Qed.
Lemma ex32_real : real32 exr32 = mk3 3 4 0 /\ real32 exv32 = mk3 0 1 0 /\ real32 exs32 = mk3 (-4) 3 0 /\ B2R exm32 = 7 /\
  vnorm (mk3 3 4 0) = 5 /\ vnorm (mk3 0 1 0) = 1 /\ vnorm (mk3 (-4) 3 0) = 5.
Proof.
  unfold real32, exr32, exv32, exs32, exm32; cbn [c0 c1 c2].
  rewrite !(fun z H => proj2 (int32 z H)) by lia. split; [reflexivity |]. split; [reflexivity |]. split; [reflexivity |]. split; [reflexivity |].
  exact ex_norms.
Qed.
Lemma ex32_good : good32v 17 exr32 /\ good32v 8 exv32 /\ good32v 17 exs32 /\ good32 20 exm32 /\ 0 < B2R exm32 /\ real32 exr32 <> vzero.
Proof.
  destruct ex32_real as [Hr [Hv [Hs [Hm [Nr [Nv Ns]]]]]].
  assert (F : forall z, (Z.abs z < 2 ^ 24)%Z -> is_finite (b32_Z z) = true) by (intros z H; apply (int32 z H)).
  unfold good32v, good32. rewrite Hr, Hv, Hs, Hm, Nr, Nv, Ns.
  split; [split; [repeat split; apply F; lia | apply range_between; [simpl; lra | lia]] |].
  split; [split; [repeat split; apply F; lia | apply range_between; [simpl; lra | lia]] |].
  split; [split; [repeat split; apply F; lia | apply range_between; [simpl; lra | lia]] |].
  split; [split; [apply F; lia | apply range_between; [simpl; lra | lia]] |].
  split; [lra |]. unfold vzero. intro H. injection H. lra.
Qed.
Lemma ex32_ecc (L : libm) : let N := Num_B32 L in
  off32v 8 (17 / 7) (@eccentricity_vector _ N exr32 exv32 exm32) (mk3 (- 6 / 35) (- 4 / 5) 0) /\
  off 20 (100 / 7) (@semiparameter _ N (@vector_norm _ N (@angular_momentum _ N exr32 exv32)) exm32) (9 / 7).
Proof.
  cbv zeta. destruct ex32_good as [Gr [Gv [_ [Gm [Pm Nz]]]]]. destruct ex32_real as [Hr [Hv [_ [Hm [Nr [Nv _]]]]]].
  pose proof (B32Geo.geo_ecc L _ _ Gr Gv _ Gm Pm Nz) as E. pose proof (B32Geo.geo_p L _ _ Gr Gv _ Gm Pm Nz) as P.
  rewrite Hr, Hv, Hm, Nr, Nv in E, P. split.
  - replace (17 / 7) with (2 * 5 * 1 ^ 2 / 7 + 1) by field.
    replace (mk3 (- 6 / 35) (- 4 / 5) 0) with (laplace 7 (mk3 3 4 0) (mk3 0 1 0)); [exact E |].
    unfold laplace. rewrite Nr. unfold vminus, smul, cross; cbn [c0 c1 c2]. f_equal; field.
  - replace (100 / 7) with (4 * 5 ^ 2 * 1 ^ 2 / 7) by field.
    replace (9 / 7) with (dot (cross (mk3 3 4 0) (mk3 0 1 0)) (cross (mk3 3 4 0) (mk3 0 1 0)) / 7); [exact P |].
    unfold dot, cross; cbn [c0 c1 c2]. field.
Qed.
(** to r2 = (-4, 3, 0): the short way round, periapsis not on it *)
Lemma ex32_path (L : libm) : let N := Num_B32 L in
  @is_short_way _ N exr32 exv32 exs32 = true /\ @pass_perigee _ N exr32 exv32 exs32 exm32 = false.
Proof.
  cbv zeta. destruct ex32_good as [Gr [Gv [Gs [Gm [Pm Nz]]]]]. destruct ex32_real as [Hr [Hv [Hs [Hm [Nr [Nv Ns]]]]]].
  pose proof (B32Path.short_ok L _ _ _ Gr Gv Gs) as S1. pose proof (B32Path.perigee_ok L _ _ _ Gr Gv Gs _ Gm Pm Nz) as P1.
  rewrite Hr, Hv, Hs, Hm, Nr, Nv, Ns in P1. rewrite Hr, Hv, Hs, Nr, Nv, Ns in S1.
  assert (EQ : laplace 7 (mk3 3 4 0) (mk3 0 1 0) = mk3 (- 6 / 35) (- 4 / 5) 0).
  { unfold laplace. rewrite Nr. unfold vminus, smul, cross; cbn [c0 c1 c2]. f_equal; field. }
  rewrite EQ in P1.
  assert (D1 : dot (cross (mk3 3 4 0) (mk3 0 1 0)) (cross (mk3 3 4 0) (mk3 (-4) 3 0)) = 75) by (unfold dot, cross; cbn [c0 c1 c2]; field).
  assert (D2 : dot (cross (mk3 3 4 0) (mk3 (-4) 3 0)) (cross (mk3 3 4 0) (mk3 (- 6 / 35) (- 4 / 5) 0)) = - (300 / 7)) by (unfold dot, cross; cbn [c0 c1 c2]; field).
  assert (D3 : dot (cross (mk3 3 4 0) (mk3 (-4) 3 0)) (cross (mk3 (- 6 / 35) (- 4 / 5) 0) (mk3 (-4) 3 0)) = - (650 / 7)) by (unfold dot, cross; cbn [c0 c1 c2]; field).
  rewrite D1 in S1. rewrite D1, D2, D3 in P1.
  assert (A1 : Rabs 75 = 75) by (apply Rabs_pos_eq; lra).
  assert (A2 : Rabs (- (300 / 7)) = 300 / 7) by (rewrite Rabs_left; lra).
  assert (A3 : Rabs (- (650 / 7)) = 650 / 7) by (rewrite Rabs_left; lra).
  split.
  - rewrite S1; [apply Rlt_bool_true; lra |]. rewrite A1. simpl. lra.
  - rewrite P1; [| rewrite A1; simpl; lra | rewrite A2; simpl; lra | rewrite A3; simpl; lra].
    rewrite (Rlt_bool_false 0 (- (300 / 7))), (Rlt_bool_true 0 75) by lra. reflexivity.
Qed.
(** r1 = (1, 1 + 2^-14, 0), r2 = (1 - 2^-14, 1, 0): the turn is by a positive angle of about 2^-28, not seen *)
Definition thin1_32 : V3 b32 := mk3 (b32_Z 1) (b32_dec 16385 16384) (b32_Z 0).
Definition thin2_32 : V3 b32 := mk3 (b32_dec 16383 16384) (b32_Z 1) (b32_Z 0).
Lemma ex32_thin (L : libm) : let N := Num_B32 L in
  @is_short_way _ N thin1_32 exv32 thin2_32 = false /\
  0 < dot (cross (real32 thin1_32) (real32 exv32)) (cross (real32 thin1_32) (real32 thin2_32)).
Proof.
  split; [vm_compute; reflexivity |].
  assert (V1 : B2R (b32_dec 16385 16384) = IZR 16385 / IZR 16384).
  { assert (E : B2SF (b32_dec 16385 16384) = SpecFloat.S754_finite false 8389120 (-23)) by (vm_compute; reflexivity).
    destruct (b32_dec 16385 16384) as [ | | | s m e H']; try discriminate. simpl in E. injection E as -> -> ->.
    unfold B2R, F2R; simpl. lra. }
  assert (V2 : B2R (b32_dec 16383 16384) = IZR 16383 / IZR 16384).
  { assert (E : B2SF (b32_dec 16383 16384) = SpecFloat.S754_finite false 16776192 (-24)) by (vm_compute; reflexivity).
    destruct (b32_dec 16383 16384) as [ | | | s m e H']; try discriminate. simpl in E. injection E as -> -> ->.
    unfold B2R, F2R; simpl. lra. }
  unfold real32, thin1_32, thin2_32, exv32; cbn [c0 c1 c2].
  rewrite V1, V2, (proj2 (int32 0 ltac:(lia))), (proj2 (int32 1 ltac:(lia))). unfold dot, cross; cbn [c0 c1 c2]. lra.
Qed.
Lemma ex32_nmax (L : libm) : let N := Num_B32 L in
  B2SF (@nmax_by_periapsis _ N (b32_dec 1 2) (b32_dec 1 2) (b32_dec 7 2) (b32_Z 129) (b32_Z 1)) = B2SF (b32_Z 7).
Proof. vm_compute. reflexivity. Qed.
