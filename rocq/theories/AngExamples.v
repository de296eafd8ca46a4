(** * AngExamples: concrete cases for C87 *)
From Coq Require Import ZArith Reals Lra Lia Psatz Bool List.
From Flocq Require Import Core IEEE754.BinarySingleNaN.
From Verif Require Import Num NumB32 NumB64 NumR Atan2 Spec SpecFl SpecFl32 SpecFl64 SpecFlV SpecFlAng RelLib RoundFn AngReal Fine32 Fine64 GeoExamples UviExamples.
From Verif Require Import OrbIntegrals OrbElements.
From Verif Require B64Lib B64Acc B64Rel B64Closed B64Ang B32Lib B32Acc B32Rel B32Closed B32Ang.
Local Open Scope R_scope.

(** ** a library with these properties: the exact functions rounded up to a grid and clipped to the range *)
Definition clip64 (lo hi g : b64) : b64 := if Rlt_dec (B2R hi) (B2R g) then hi else if Rlt_dec (B2R g) (B2R lo) then lo else g.
Lemma clip64_ok (lo hi g : b64) (a d : R) : is_finite lo = true -> is_finite hi = true -> is_finite g = true -> B2R lo <= B2R hi ->
  Rabs (B2R g - a) <= d -> B2R lo - d <= a <= B2R hi + d ->
  is_finite (clip64 lo hi g) = true /\ B2R lo <= B2R (clip64 lo hi g) <= B2R hi /\ Rabs (B2R (clip64 lo hi g) - a) <= d.
Proof.
  intros Fl Fh Fg O E A. apply Rabs_le_inv in E. unfold clip64.
  destruct (Rlt_dec (B2R hi) (B2R g)) as [H1 | H1]; [split; [exact Fh |]; split; [lra | apply Rabs_le; lra] |].
  destruct (Rlt_dec (B2R g) (B2R lo)) as [H2 | H2]; [split; [exact Fl |]; split; [lra | apply Rabs_le; lra] |].
  split; [exact Fg |]. split; [lra | apply Rabs_le; lra].
Qed.
Definition ang_libm64 : libm64 := {|
  d_cbrt := d_cbrt fine_libm64; d_sin := d_sin fine_libm64; d_cos := d_cos fine_libm64;
  d_sinh := d_sinh fine_libm64; d_cosh := d_cosh fine_libm64; d_log := d_log fine_libm64;
  d_arccos := fun x => clip64 (b64_Z 0) b64_pi (fine64 (acos (B2R x)));
  d_arctan2 := fun y x => clip64 (Bopp b64_pi) b64_pi (fine64 (atan2 (B2R y) (B2R x)))
|}.
Lemma pi64_near : is_finite b64_pi = true /\ Rabs (B2R b64_pi - PI) <= 24 * / IZR (2 ^ 53) /\ 3 <= B2R b64_pi <= 315 / 100.
Proof.
  pose proof B64Closed.Fl_pi as F. destruct (B64Rel.Fl_close 1 _ _ ltac:(lia) F) as [_ C]. destruct F as [Fi _].
  split; [exact Fi |]. split.
  - unfold close in C. simpl INR in C. apply Rle_trans with (1 := C). pose proof PI_4. pose proof PI_RGT_0. rewrite (Rabs_pos_eq PI) by lra. unfold B64Acc.eps. simpl. lra.
  - destruct (B64Lib.value b64_pi false 7074237752028440 (-51) ltac:(vm_compute; reflexivity)) as [_ V2]. rewrite V2. simpl. lra.
Qed.
Lemma ang_libm64_ok : inverse64 ang_libm64 24.
Proof.
  destruct pi64_near as [Fp [Ep Bp]]. pose proof PI_4 as P4. pose proof PI_RGT_0 as P0. set (e := / IZR (2 ^ 53)) in *.
  assert (E24 : INR 24 * e = 24 * e) by (simpl; lra). assert (ep : 0 < e) by (unfold e; simpl; lra).
  assert (G : forall a, - PI <= a <= PI -> is_finite (fine64 a) = true /\ Rabs (B2R (fine64 a) - a) <= 24 * e).
  { intros a A. destruct (fine64_err a 4 ltac:(apply Rabs_le; lra) ltac:(split; [lra | apply IZR_le; apply Z.leb_le; vm_compute; reflexivity])) as [F E]. split; [exact F |].
    apply Rle_trans with (1 := E). fold e. simpl INR. lra. }
  apply Rabs_le_inv in Ep. split.
  - intros y x Fy Fx q. pose proof (atan2_range (B2R y) (B2R x)) as Ra. set (a := atan2 (B2R y) (B2R x)) in *. destruct (G a ltac:(lra)) as [Fg Eg].
    destruct (clip64_ok (Bopp b64_pi) b64_pi (fine64 a) a (24 * e)) as [F [B E]]; try assumption; try (rewrite is_finite_Bopp; assumption); try (rewrite B2R_Bopp; lra).
    change (d_arctan2 ang_libm64 y x) with (clip64 (Bopp b64_pi) b64_pi (fine64 a)). set (g := clip64 (Bopp b64_pi) b64_pi (fine64 a)) in *.
    rewrite B2R_Bopp in B. split; [exact B |].
    assert (Q0 : 0 <= q) by apply sqrt_pos.
    assert (Xy : q * cos a = B2R x /\ q * sin a = B2R y).
    { destruct (Req_dec (B2R x) 0) as [Zx | Nx]; [destruct (Req_dec (B2R y) 0) as [Zy | Ny] |].
      - assert (q = 0) by (unfold q; rewrite Zx, Zy; replace (0 ^ 2 + 0 ^ 2) with 0 by ring; apply sqrt_0). rewrite Zx, Zy, H. split; ring.
      - destruct (cos_sin_atan2 (B2R y) (B2R x) (or_intror Ny)) as [C S]. pose proof (sqrt_sum_pos _ _ (or_intror Ny) : 0 < sqrt (B2R x ^ 2 + B2R y ^ 2)) as Qp. fold q in C, S, Qp. fold a in C, S. rewrite C, S. split; field; lra.
      - destruct (cos_sin_atan2 (B2R y) (B2R x) (or_introl Nx)) as [C S]. pose proof (sqrt_sum_pos _ _ (or_introl Nx) : 0 < sqrt (B2R x ^ 2 + B2R y ^ 2)) as Qp. fold q in C, S, Qp. fold a in C, S. rewrite C, S. split; field; lra. }
    destruct Xy as [<- <-]. destruct (polar_turned q (q * cos a) (q * sin a) a (B2R g) (24 * e) 0 0 Q0) as [C S].
    { simpl INR. rewrite Rmult_0_r, Rmult_0_l, Rplus_0_r. exact E. }
    { unfold Rminus. rewrite Rplus_opp_r, Rabs_R0. lra. }
    { unfold Rminus. rewrite Rplus_opp_r, Rabs_R0. lra. }
    split; [exact F |]. fold e. rewrite E24. split; lra.
  - intros x Fx Bx. apply Rabs_le_inv in Bx. pose proof (acos_bound (B2R x)) as Ra. set (a := acos (B2R x)) in *. destruct (G a ltac:(lra)) as [Fg Eg].
    destruct (int64 0 ltac:(lia)) as [F0 V0].
    destruct (clip64_ok (b64_Z 0) b64_pi (fine64 a) a (24 * e)) as [F [B E]]; try assumption; try (rewrite V0; lra).
    change (d_arccos ang_libm64 x) with (clip64 (b64_Z 0) b64_pi (fine64 a)). set (g := clip64 (b64_Z 0) b64_pi (fine64 a)) in *.
    rewrite V0 in B. split; [exact F |]. split; [exact B |]. fold e. rewrite E24. rewrite <- (cos_acos (B2R x)) by lra. fold a.
    destruct (polar_turned 1 (1 * cos a) (1 * sin a) a (B2R g) (24 * e) 0 0 ltac:(lra)) as [C _].
    { simpl INR. rewrite Rmult_0_r, Rmult_0_l, Rplus_0_r. exact E. }
    { unfold Rminus. rewrite Rplus_opp_r, Rabs_R0. lra. }
    { unfold Rminus. rewrite Rplus_opp_r, Rabs_R0. lra. }
    rewrite !Rmult_1_l in C. lra.
Qed.

(** r = (1, 0, 0), v = (0, 0, 1), mu = 2: the apoapsis of an ellipse in the xz plane *)
Lemma ang64_ex (L : libm64) : inverse64 L 24 ->
  let k := @rv2coe _ (Num_B64 L) (mk3 (b64_Z 1) (b64_Z 0) (b64_Z 0)) (mk3 (b64_Z 0) (b64_Z 0) (b64_Z 1)) (b64_Z 2) in
  Rabs (B2R (coe_p k) - 1 / 2) <= 40 * / IZR (2 ^ 53) /\ Rabs (B2R (coe_e k) - 1 / 2) <= 56 * / IZR (2 ^ 53) /\
  Rabs (cos (B2R (coe_incl k))) <= 102 * / IZR (2 ^ 53) /\ (exists j : Z, Rabs (B2R (coe_raan k) - 2 * IZR j * PI) <= 1000 * / IZR (2 ^ 53)) /\
  Rabs (B2R (coe_argp k) - PI) <= 21000 * / IZR (2 ^ 53) /\ Rabs (B2R (coe_f k) - PI) <= 10000 * / IZR (2 ^ 53).
Proof.
  intros Inv k. destruct (int64 1 ltac:(lia)) as [F1 V1]. destruct (int64 0 ltac:(lia)) as [F0 V0]. destruct (int64 2 ltac:(lia)) as [F2 V2].
  set (r := mk3 (b64_Z 1) (b64_Z 0) (b64_Z 0)) in *. set (v := mk3 (b64_Z 0) (b64_Z 0) (b64_Z 1)) in *.
  assert (Nm : forall a b c d, 0 <= d -> a * a + b * b + c * c = d * d -> vnorm (mk3 a b c) = d).
  { intros a b c d Hd E. unfold vnorm, dot; cbn [c0 c1 c2]. rewrite E. apply sqrt_square. exact Hd. }
  assert (Rr : real64 r = mk3 1 0 0) by (unfold real64, r; cbn [c0 c1 c2]; rewrite V1, V0; reflexivity).
  assert (Rv : real64 v = mk3 0 0 1) by (unfold real64, v; cbn [c0 c1 c2]; rewrite V1, V0; reflexivity).
  assert (N1 : vnorm (mk3 1 0 0) = 1) by (apply Nm; lra). assert (N2 : vnorm (mk3 0 0 1) = 1) by (apply Nm; lra).
  assert (G1 : good64v 100 r) by (split; [cbn [c0 c1 c2 r]; auto | rewrite Rr, N1; apply range_between; [simpl; lra | lia]]).
  assert (G2 : good64v 100 v) by (split; [cbn [c0 c1 c2 v]; auto | rewrite Rv, N2; apply range_between; [simpl; lra | lia]]).
  pose proof (good64_Z 100 2 ltac:(lia) ltac:(lia) ltac:(lia)) as G3.
  assert (Eh : cross (mk3 1 0 0) (mk3 0 0 1) = mk3 0 (-1) 0) by (unfold cross; cbn [c0 c1 c2]; f_equal; ring).
  assert (En : cross (mk3 0 0 1) (mk3 0 (-1) 0) = mk3 1 0 0) by (unfold cross; cbn [c0 c1 c2]; f_equal; ring).
  assert (Ee : laplace 2 (mk3 1 0 0) (mk3 0 0 1) = mk3 (- / 2) 0 0).
  { unfold laplace. rewrite Eh, N1. unfold cross, vminus, smul; cbn [c0 c1 c2]. f_equal; field. }
  assert (Nr : real64 r <> vzero) by (rewrite Rr; intro Q; apply (f_equal c0) in Q; cbn [c0 vzero] in Q; lra).
  pose proof (B64Ang.inclination_ok L 24 Inv ltac:(lia) r v (b64_Z 2) G1 G2 G3 ltac:(rewrite V2; lra)) as I. cbv zeta in I.
  pose proof (B64Ang.elements_ok L 24 Inv ltac:(lia) r v (b64_Z 2) G1 G2 G3 ltac:(rewrite V2; lra) Nr) as K. cbv zeta in K. fold k in I, K.
  rewrite Rr, Rv, N1, N2, Eh in I, K. rewrite V2 in K. rewrite Ee, En, N1 in K.
  specialize (I ltac:(rewrite (Nm 0 (-1) 0 1) by lra; simpl; lra)). specialize (K ltac:(lra)).
  rewrite (Nm 0 (-1) 0 1) in I by lra. rewrite (Nm (- / 2) 0 0 (/ 2)) in K by lra.
  assert (C1 : forall w, cross (mk3 w 0 0) (mk3 (- / 2) 0 0) = mk3 0 0 0) by (intro w; unfold cross; cbn [c0 c1 c2]; f_equal; ring).
  assert (C2 : cross (mk3 (- / 2) 0 0) (mk3 1 0 0) = mk3 0 0 0) by (unfold cross; cbn [c0 c1 c2]; f_equal; ring).
  rewrite C1, C2, (Nm 0 0 0 0) in K by lra. unfold dot in K; cbn [c0 c1 c2] in I, K. replace (INR 24) with 24 in I, K by (simpl; lra).
  destruct K as [[_ Kp] [[_ Ke] [[Kr _] [[Ka Ba] [Kf Bf]]]]]. destruct I as [_ [_ [_ I]]].
  assert (e0 : 0 < / IZR (2 ^ 53) <= / 10000000) by (simpl; lra). destruct pi64_near as [_ [Ep Bp]]. set (e := / IZR (2 ^ 53)) in *. apply Rabs_le_inv in Ep.
  assert (T : forall g d, 0 <= B2R g <= 2 * B2R b64_pi -> d <= 1 -> (exists j : Z, Rabs (B2R g - PI - 2 * IZR j * PI) <= d) -> Rabs (B2R (g : b64) - PI) <= d).
  { intros g d B D [j J]. destruct (Z.eq_dec j 0) as [-> | Nj]; [replace (B2R g - PI) with (B2R g - PI - 2 * 0 * PI) by ring; exact J |]. exfalso. apply Rabs_le_inv in J.
    destruct (Z_le_gt_dec 1 j) as [Hj | Hj].
    - apply IZR_le in Hj. assert (PI <= IZR j * PI) by nra. lra.
    - assert (Hj' : (j <= -1)%Z) by lia. apply IZR_le in Hj'. assert (IZR j * PI <= - PI) by nra. lra. }
  split; [apply Rle_trans with (2 := Rle_refl _); eapply Rle_trans; [| apply Rle_trans with (1 := Kp); lra]; right; f_equal; lra |].
  split; [eapply Rle_trans; [| apply Rle_trans with (1 := Ke); lra]; right; f_equal; lra |].
  split; [replace (cos (B2R (coe_incl k))) with (1 * cos (B2R (coe_incl k)) - 0) by ring; apply Rle_trans with (1 := I); lra |].
  split; [| split].
  - destruct (B64Ang.polar_reads (3 * 24 + 90) (2 * (1 * 1)) 1 0 (coe_raan k) ltac:(lra)) as [j J].
    + rewrite cos_0, sin_0, !Rmult_1_l. rewrite !Rmult_1_l in Kr. exact Kr.
    + exists j. rewrite Rminus_0_r in J. apply Rle_trans with (1 := J). fold e. lra.
  - apply T; [exact Ba | lra |]. destruct (B64Ang.polar_reads (3 * 24 + 139) (8 * (1 * 1) * (2 * 1 * 1 ^ 2 / 2 + 1)) (1 * / 2) PI (coe_argp k) ltac:(lra)) as [j J].
    + rewrite cos_PI, sin_PI. replace (1 * / 2 * -1) with (1 * - / 2 + 0 * 0 + 0 * 0) by lra. rewrite (Rmult_0_r (1 * / 2)). exact Ka.
    + exists j. apply Rle_trans with (1 := J). fold e. lra.
  - apply T; [exact Bf | lra |]. destruct (B64Ang.polar_reads (3 * 24 + 123) (4 * 1 * (2 * 1 * 1 ^ 2 / 2 + 1)) (/ 2 * 1) PI (coe_f k) ltac:(lra)) as [j J].
    + rewrite cos_PI, sin_PI. replace (/ 2 * 1 * -1) with (- / 2 * 1 + 0 * 0 + 0 * 0) by lra. rewrite (Rmult_0_r (/ 2 * 1)). exact Kf.
    + exists j. apply Rle_trans with (1 := J). fold e. lra.
Qed.

(** ** a library with these properties: the exact functions rounded up to a grid and clipped to the range *)
Definition clip32 (lo hi g : b32) : b32 := if Rlt_dec (B2R hi) (B2R g) then hi else if Rlt_dec (B2R g) (B2R lo) then lo else g.
Lemma clip32_ok (lo hi g : b32) (a d : R) : is_finite lo = true -> is_finite hi = true -> is_finite g = true -> B2R lo <= B2R hi ->
  Rabs (B2R g - a) <= d -> B2R lo - d <= a <= B2R hi + d ->
  is_finite (clip32 lo hi g) = true /\ B2R lo <= B2R (clip32 lo hi g) <= B2R hi /\ Rabs (B2R (clip32 lo hi g) - a) <= d.
Proof.
  intros Fl Fh Fg O E A. apply Rabs_le_inv in E. unfold clip32.
  destruct (Rlt_dec (B2R hi) (B2R g)) as [H1 | H1]; [split; [exact Fh |]; split; [lra | apply Rabs_le; lra] |].
  destruct (Rlt_dec (B2R g) (B2R lo)) as [H2 | H2]; [split; [exact Fl |]; split; [lra | apply Rabs_le; lra] |].
  split; [exact Fg |]. split; [lra | apply Rabs_le; lra].
Qed.
Definition ang_libm32 : libm := {|
  m_cbrt := m_cbrt fine_libm32; m_sin := m_sin fine_libm32; m_cos := m_cos fine_libm32;
  m_sinh := m_sinh fine_libm32; m_cosh := m_cosh fine_libm32; m_log := m_log fine_libm32;
  m_arccos := fun x => clip32 (b32_Z 0) b32_pi (fine32 (acos (B2R x)));
  m_arctan2 := fun y x => clip32 (Bopp b32_pi) b32_pi (fine32 (atan2 (B2R y) (B2R x)))
|}.
Lemma pi32_near : is_finite b32_pi = true /\ Rabs (B2R b32_pi - PI) <= 24 * / IZR (2 ^ 24) /\ 3 <= B2R b32_pi <= 315 / 100.
Proof.
  pose proof B32Closed.Fl_pi as F. destruct (B32Rel.Fl_close 1 _ _ ltac:(lia) F) as [_ C]. destruct F as [Fi _].
  split; [exact Fi |]. split.
  - unfold close in C. simpl INR in C. apply Rle_trans with (1 := C). pose proof PI_4. pose proof PI_RGT_0. rewrite (Rabs_pos_eq PI) by lra. unfold B32Acc.eps. simpl. lra.
  - destruct (B32Lib.value b32_pi false 13176795 (-22) ltac:(vm_compute; reflexivity)) as [_ V2]. rewrite V2. simpl. lra.
Qed.
Lemma ang_libm32_ok : inverse32 ang_libm32 24.
Proof.
  destruct pi32_near as [Fp [Ep Bp]]. pose proof PI_4 as P4. pose proof PI_RGT_0 as P0. set (e := / IZR (2 ^ 24)) in *.
  assert (E24 : INR 24 * e = 24 * e) by (simpl; lra). assert (ep : 0 < e) by (unfold e; simpl; lra).
  assert (G : forall a, - PI <= a <= PI -> is_finite (fine32 a) = true /\ Rabs (B2R (fine32 a) - a) <= 24 * e).
  { intros a A. destruct (fine32_err a 4 ltac:(apply Rabs_le; lra) ltac:(split; [lra | apply IZR_le; apply Z.leb_le; vm_compute; reflexivity])) as [F E]. split; [exact F |].
    apply Rle_trans with (1 := E). fold e. simpl INR. lra. }
  apply Rabs_le_inv in Ep. split.
  - intros y x Fy Fx q. pose proof (atan2_range (B2R y) (B2R x)) as Ra. set (a := atan2 (B2R y) (B2R x)) in *. destruct (G a ltac:(lra)) as [Fg Eg].
    destruct (clip32_ok (Bopp b32_pi) b32_pi (fine32 a) a (24 * e)) as [F [B E]]; try assumption; try (rewrite is_finite_Bopp; assumption); try (rewrite B2R_Bopp; lra).
    change (m_arctan2 ang_libm32 y x) with (clip32 (Bopp b32_pi) b32_pi (fine32 a)). set (g := clip32 (Bopp b32_pi) b32_pi (fine32 a)) in *.
    rewrite B2R_Bopp in B. split; [exact B |].
    assert (Q0 : 0 <= q) by apply sqrt_pos.
    assert (Xy : q * cos a = B2R x /\ q * sin a = B2R y).
    { destruct (Req_dec (B2R x) 0) as [Zx | Nx]; [destruct (Req_dec (B2R y) 0) as [Zy | Ny] |].
      - assert (q = 0) by (unfold q; rewrite Zx, Zy; replace (0 ^ 2 + 0 ^ 2) with 0 by ring; apply sqrt_0). rewrite Zx, Zy, H. split; ring.
      - destruct (cos_sin_atan2 (B2R y) (B2R x) (or_intror Ny)) as [C S]. pose proof (sqrt_sum_pos _ _ (or_intror Ny) : 0 < sqrt (B2R x ^ 2 + B2R y ^ 2)) as Qp. fold q in C, S, Qp. fold a in C, S. rewrite C, S. split; field; lra.
      - destruct (cos_sin_atan2 (B2R y) (B2R x) (or_introl Nx)) as [C S]. pose proof (sqrt_sum_pos _ _ (or_introl Nx) : 0 < sqrt (B2R x ^ 2 + B2R y ^ 2)) as Qp. fold q in C, S, Qp. fold a in C, S. rewrite C, S. split; field; lra. }
    destruct Xy as [<- <-]. destruct (polar_turned q (q * cos a) (q * sin a) a (B2R g) (24 * e) 0 0 Q0) as [C S].
    { simpl INR. rewrite Rmult_0_r, Rmult_0_l, Rplus_0_r. exact E. }
    { unfold Rminus. rewrite Rplus_opp_r, Rabs_R0. lra. }
    { unfold Rminus. rewrite Rplus_opp_r, Rabs_R0. lra. }
    split; [exact F |]. fold e. rewrite E24. split; lra.
  - intros x Fx Bx. apply Rabs_le_inv in Bx. pose proof (acos_bound (B2R x)) as Ra. set (a := acos (B2R x)) in *. destruct (G a ltac:(lra)) as [Fg Eg].
    destruct (int32 0 ltac:(lia)) as [F0 V0].
    destruct (clip32_ok (b32_Z 0) b32_pi (fine32 a) a (24 * e)) as [F [B E]]; try assumption; try (rewrite V0; lra).
    change (m_arccos ang_libm32 x) with (clip32 (b32_Z 0) b32_pi (fine32 a)). set (g := clip32 (b32_Z 0) b32_pi (fine32 a)) in *.
    rewrite V0 in B. split; [exact F |]. split; [exact B |]. fold e. rewrite E24. rewrite <- (cos_acos (B2R x)) by lra. fold a.
    destruct (polar_turned 1 (1 * cos a) (1 * sin a) a (B2R g) (24 * e) 0 0 ltac:(lra)) as [C _].
    { simpl INR. rewrite Rmult_0_r, Rmult_0_l, Rplus_0_r. exact E. }
    { unfold Rminus. rewrite Rplus_opp_r, Rabs_R0. lra. }
    { unfold Rminus. rewrite Rplus_opp_r, Rabs_R0. lra. }
    rewrite !Rmult_1_l in C. lra.
Qed.

(** r = (1, 0, 0), v = (0, 0, 1), mu = 2: the apoapsis of an ellipse in the xz plane *)
Lemma ang32_ex (L : libm) : inverse32 L 24 ->
  let k := @rv2coe _ (Num_B32 L) (mk3 (b32_Z 1) (b32_Z 0) (b32_Z 0)) (mk3 (b32_Z 0) (b32_Z 0) (b32_Z 1)) (b32_Z 2) in
  Rabs (B2R (coe_p k) - 1 / 2) <= 40 * / IZR (2 ^ 24) /\ Rabs (B2R (coe_e k) - 1 / 2) <= 56 * / IZR (2 ^ 24) /\
  Rabs (cos (B2R (coe_incl k))) <= 102 * / IZR (2 ^ 24) /\ (exists j : Z, Rabs (B2R (coe_raan k) - 2 * IZR j * PI) <= 1000 * / IZR (2 ^ 24)) /\
  Rabs (B2R (coe_argp k) - PI) <= 21000 * / IZR (2 ^ 24) /\ Rabs (B2R (coe_f k) - PI) <= 10000 * / IZR (2 ^ 24).
Proof.
  intros Inv k. destruct (int32 1 ltac:(lia)) as [F1 V1]. destruct (int32 0 ltac:(lia)) as [F0 V0]. destruct (int32 2 ltac:(lia)) as [F2 V2].
  set (r := mk3 (b32_Z 1) (b32_Z 0) (b32_Z 0)) in *. set (v := mk3 (b32_Z 0) (b32_Z 0) (b32_Z 1)) in *.
  assert (Nm : forall a b c d, 0 <= d -> a * a + b * b + c * c = d * d -> vnorm (mk3 a b c) = d).
  { intros a b c d Hd E. unfold vnorm, dot; cbn [c0 c1 c2]. rewrite E. apply sqrt_square. exact Hd. }
  assert (Rr : real32 r = mk3 1 0 0) by (unfold real32, r; cbn [c0 c1 c2]; rewrite V1, V0; reflexivity).
  assert (Rv : real32 v = mk3 0 0 1) by (unfold real32, v; cbn [c0 c1 c2]; rewrite V1, V0; reflexivity).
  assert (N1 : vnorm (mk3 1 0 0) = 1) by (apply Nm; lra). assert (N2 : vnorm (mk3 0 0 1) = 1) by (apply Nm; lra).
  assert (G1 : good32v 17 r) by (split; [cbn [c0 c1 c2 r]; auto | rewrite Rr, N1; apply range_between; [simpl; lra | lia]]).
  assert (G2 : good32v 8 v) by (split; [cbn [c0 c1 c2 v]; auto | rewrite Rv, N2; apply range_between; [simpl; lra | lia]]).
  pose proof (good32_Z 20 2 ltac:(lia) ltac:(lia) ltac:(lia)) as G3.
  assert (Eh : cross (mk3 1 0 0) (mk3 0 0 1) = mk3 0 (-1) 0) by (unfold cross; cbn [c0 c1 c2]; f_equal; ring).
  assert (En : cross (mk3 0 0 1) (mk3 0 (-1) 0) = mk3 1 0 0) by (unfold cross; cbn [c0 c1 c2]; f_equal; ring).
  assert (Ee : laplace 2 (mk3 1 0 0) (mk3 0 0 1) = mk3 (- / 2) 0 0).
  { unfold laplace. rewrite Eh, N1. unfold cross, vminus, smul; cbn [c0 c1 c2]. f_equal; field. }
  assert (Nr : real32 r <> vzero) by (rewrite Rr; intro Q; apply (f_equal c0) in Q; cbn [c0 vzero] in Q; lra).
  pose proof (B32Ang.inclination_ok L 24 Inv ltac:(lia) r v (b32_Z 2) G1 G2 G3 ltac:(rewrite V2; lra)) as I. cbv zeta in I.
  pose proof (B32Ang.elements_ok L 24 Inv ltac:(lia) r v (b32_Z 2) G1 G2 G3 ltac:(rewrite V2; lra) Nr) as K. cbv zeta in K. fold k in I, K.
  rewrite Rr, Rv, N1, N2, Eh in I, K. rewrite V2 in K. rewrite Ee, En, N1 in K.
  specialize (I ltac:(rewrite (Nm 0 (-1) 0 1) by lra; simpl; lra)). specialize (K ltac:(lra)).
  rewrite (Nm 0 (-1) 0 1) in I by lra. rewrite (Nm (- / 2) 0 0 (/ 2)) in K by lra.
  assert (C1 : forall w, cross (mk3 w 0 0) (mk3 (- / 2) 0 0) = mk3 0 0 0) by (intro w; unfold cross; cbn [c0 c1 c2]; f_equal; ring).
  assert (C2 : cross (mk3 (- / 2) 0 0) (mk3 1 0 0) = mk3 0 0 0) by (unfold cross; cbn [c0 c1 c2]; f_equal; ring).
  rewrite C1, C2, (Nm 0 0 0 0) in K by lra. unfold dot in K; cbn [c0 c1 c2] in I, K. replace (INR 24) with 24 in I, K by (simpl; lra).
  destruct K as [[_ Kp] [[_ Ke] [[Kr _] [[Ka Ba] [Kf Bf]]]]]. destruct I as [_ [_ [_ I]]].
  assert (e0 : 0 < / IZR (2 ^ 24) <= / 10000000) by (simpl; lra). destruct pi32_near as [_ [Ep Bp]]. set (e := / IZR (2 ^ 24)) in *. apply Rabs_le_inv in Ep.
  assert (T : forall g d, 0 <= B2R g <= 2 * B2R b32_pi -> d <= 1 -> (exists j : Z, Rabs (B2R g - PI - 2 * IZR j * PI) <= d) -> Rabs (B2R (g : b32) - PI) <= d).
  { intros g d B D [j J]. destruct (Z.eq_dec j 0) as [-> | Nj]; [replace (B2R g - PI) with (B2R g - PI - 2 * 0 * PI) by ring; exact J |]. exfalso. apply Rabs_le_inv in J.
    destruct (Z_le_gt_dec 1 j) as [Hj | Hj].
    - apply IZR_le in Hj. assert (PI <= IZR j * PI) by nra. lra.
    - assert (Hj' : (j <= -1)%Z) by lia. apply IZR_le in Hj'. assert (IZR j * PI <= - PI) by nra. lra. }
  split; [apply Rle_trans with (2 := Rle_refl _); eapply Rle_trans; [| apply Rle_trans with (1 := Kp); lra]; right; f_equal; lra |].
  split; [eapply Rle_trans; [| apply Rle_trans with (1 := Ke); lra]; right; f_equal; lra |].
  split; [replace (cos (B2R (coe_incl k))) with (1 * cos (B2R (coe_incl k)) - 0) by ring; apply Rle_trans with (1 := I); lra |].
  split; [| split].
  - destruct (B32Ang.polar_reads (3 * 24 + 90) (2 * (1 * 1)) 1 0 (coe_raan k) ltac:(lra)) as [j J].
    + rewrite cos_0, sin_0, !Rmult_1_l. rewrite !Rmult_1_l in Kr. exact Kr.
    + exists j. rewrite Rminus_0_r in J. apply Rle_trans with (1 := J). fold e. lra.
  - apply T; [exact Ba | lra |]. destruct (B32Ang.polar_reads (3 * 24 + 139) (8 * (1 * 1) * (2 * 1 * 1 ^ 2 / 2 + 1)) (1 * / 2) PI (coe_argp k) ltac:(lra)) as [j J].
    + rewrite cos_PI, sin_PI. replace (1 * / 2 * -1) with (1 * - / 2 + 0 * 0 + 0 * 0) by lra. rewrite (Rmult_0_r (1 * / 2)). exact Ka.
    + exists j. apply Rle_trans with (1 := J). fold e. lra.
  - apply T; [exact Bf | lra |]. destruct (B32Ang.polar_reads (3 * 24 + 123) (4 * 1 * (2 * 1 * 1 ^ 2 / 2 + 1)) (/ 2 * 1) PI (coe_f k) ltac:(lra)) as [j J].
    + rewrite cos_PI, sin_PI. replace (/ 2 * 1 * -1) with (- / 2 * 1 + 0 * 0 + 0 * 0) by lra. rewrite (Rmult_0_r (/ 2 * 1)). exact Kf.
    + exists j. apply Rle_trans with (1 := J). fold e. lra.
Qed.

(** single precision: r = (3 2^-60, 0, 0), v = (0, 2^-16, 0).  The square of h underflows and the cosine of the inclination
    comes out above 1, so arccos has no value *)
Definition tiny_r : V3 b32 := mk3 (binary_normalize 24 128 _ _ mode_NE 3 (-60) false) (b32_Z 0) (b32_Z 0).
Definition tiny_v : V3 b32 := mk3 (b32_Z 0) (binary_normalize 24 128 _ _ mode_NE 1 (-16) false) (b32_Z 0).
Lemma ang_underflow (L : libm) : let N := Num_B32 L in let h := @angular_momentum _ N tiny_r tiny_v in
  Bltb (b32_Z 1) (@n_div _ N (c2 h) (@vector_norm _ N h)) = true.
Proof. vm_compute. reflexivity. Qed.

(** r = (1, -2^-60, 0), v = (0, 1, 1): the node is a hair below the x axis; with a correctly rounded arctan2 the right ascension is
    2 pi after rounding, not below it *)
Definition hair_r : V3 b64 := mk3 (b64_Z 1) (binary_normalize 53 1024 _ _ mode_NE (-1) (-60) false) (b64_Z 0).
Definition hair_v : V3 b64 := mk3 (b64_Z 0) (b64_Z 1) (b64_Z 1).
Lemma ang_full_turn (L : libm64) : d_arctan2 L (c1 hair_r) (b64_Z 1) = c1 hair_r ->
  B2SF (coe_raan (@rv2coe _ (Num_B64 L) hair_r hair_v (b64_Z 1))) = B2SF (b64_mul (b64_Z 2) b64_pi).
Proof.
  intro H. cbn [rv2coe coe_raan]. unfold right_ascension. set (N := Num_B64 L). set (n := @node_vec _ N (@angular_momentum _ N hair_r hair_v)).
  assert (E0 : c0 n = b64_Z 1) by (apply B2SF_inj; vm_compute; reflexivity).
  assert (E1 : c1 n = c1 hair_r) by (apply B2SF_inj; vm_compute; reflexivity).
  rewrite E0, E1. change (@n_arctan2 _ N) with (d_arctan2 L). rewrite H. vm_compute. reflexivity.
Qed.
