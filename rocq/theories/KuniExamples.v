(** * KuniExamples: concrete cases for C113 *)
From Coq Require Import ZArith Reals Lra Lia Psatz Bool List.
From Coquelicot Require Import Coquelicot.
From Flocq Require Import Core IEEE754.BinarySingleNaN.
From Verif Require Import Num NumB32 NumB64 NumR Spec SpecFl SpecFl32 SpecFl64 SpecFlV RelLib RoundFn Fine32 Fine64 GeoExamples UviExamples.
From Verif Require Import OrbIntegrals Uniformulas UfReal KepEqu StateTrans PropKepler EccNear.
From Verif Require B64Newton B64Kuni B32Newton B32Kuni.
Import ListNotations.
Local Open Scope R_scope.

Lemma uf_one (x : R) : universal 1 x 1 = sin x /\ universal 2 x 1 = 1 - cos x /\ universal 3 x 1 = x - sin x.
Proof.
  pose proof (uf_pos x 1 ltac:(lra)) as U. cbv zeta in U. rewrite Rabs_R1, sqrt_1, Rmult_1_l in U. destruct U as (_ & A & B & C & _).
  rewrite A, B, C. repeat split; field.
Qed.

(** the state of the propagation examples below has eccentricity 0.468 *)
Lemma ecc_ex : vnorm (laplace 1024 (mk3 1 0 0) (mk3 7 24 0)) <= 599 / 1000.
Proof.
  assert (N1 : vnorm (mk3 1 0 0) = 1) by (unfold vnorm, dot; cbn [c0 c1 c2]; replace (1 * 1 + 0 * 0 + 0 * 0) with 1 by ring; apply sqrt_1).
  assert (N2 : vnorm (mk3 7 24 0) = 25) by (unfold vnorm, dot; cbn [c0 c1 c2]; replace (7 * 7 + 24 * 24 + 0 * 0) with (25 * 25) by ring; apply sqrt_square; lra).
  assert (S32 : sqrt 1024 = 32) by (replace 1024 with (32 * 32) by ring; apply sqrt_square; lra).
  pose proof (laplace_sq 1024 (mk3 1 0 0) (mk3 7 24 0) ltac:(lra) ltac:(lra)) as L. rewrite N1, N2, S32 in L. unfold dot in L. cbn [c0 c1 c2] in L.
  assert (0 <= vnorm (laplace 1024 (mk3 1 0 0) (mk3 7 24 0))) by apply sqrt_pos. set (y := vnorm (laplace 1024 (mk3 1 0 0) (mk3 7 24 0))) in *. nra.
Qed.

(** alpha = 1, r0 = 3/4, sigma0 = 1/4 (eccentricity 0.354), mu = dt = 1 *)
Lemma uni64_ex (L : libm64) : trig64 L 6 (2 * IZR (2 ^ 30)) (2 * 100) -> let N := Num_B64 L in
  let chi := @solve_kepler_uni _ N (b64_Z 1) (b64_Z 1) (b64_dec 3 4) (b64_dec 1 4) (b64_Z 1) (@default_tol _ N) 20 in
  is_finite chi = true /\ exists x, 3 / 4 * sin x + / 4 * (1 - cos x) + (x - sin x) = 1 /\ Rabs (B2R chi - x) <= / 300000.
Proof.
  intros TL N chi. destruct (int64 1 ltac:(lia)) as [F1 V1].
  destruct (fval64 (b64_dec 3 4) false 6755399441055744 (-53) ltac:(vm_compute; reflexivity)) as [Fr Vr].
  destruct (fval64 (b64_dec 1 4) false 4503599627370496 (-54) ltac:(vm_compute; reflexivity)) as [Fs Vs].
  assert (Vr' : B2R (b64_dec 3 4) = 3 / 4) by (rewrite Vr; unfold F2R; simpl; lra). assert (Vs' : B2R (b64_dec 1 4) = / 4) by (rewrite Vs; unfold F2R; simpl; lra).
  pose proof (B64Newton.tol_small L) as [Tf Tl]. change (B64Newton.NB L) with N in Tf, Tl.
  pose proof (B64Kuni.uni_float L (b64_Z 1) (b64_Z 1) (b64_dec 3 4) (b64_dec 1 4) (b64_Z 1) (@default_tol _ N) 6 20 ltac:(lia) TL F1) as K. cbv zeta in K. fold N in K.
  rewrite V1, Vr', Vs', sqrt_1 in K. replace (1 ^ 3 * (1 * 1)) with 1 in K by ring. rewrite Rabs_R1 in K. replace (INR 6) with 6 in K by (simpl; lra).
  destruct K as [A [x [B [_ C]]]].
  - simpl; lra.
  - split; [exact Fr|rewrite Vr'; apply range_between; [simpl; lra|lia]].
  - lra.
  - split; [exact Fs|rewrite Vs'; apply range_between; [simpl; lra|lia]].
  - apply good64_Z; lia.
  - apply good64_Z; lia.
  - lra.
  - exact Tf.
  - lra.
  - lia.
  - lra.
  - simpl; lra.
  - split; [exact A|]. exists x. destruct (uf_one x) as (U1 & U2 & U3). rewrite U1, U2, U3 in B. split; [lra|].
    fold chi in C. set (k := B2R (@default_tol _ N)) in *. clearbody k. rewrite Rmult_1_l in C. apply Rle_trans with (1 := C). simpl. lra.
Qed.
(** the same with tol = 1/1048576: the loop ends within 20 steps *)
Lemma stop64_ex (L : libm64) : trig64 L 6 (2 * IZR (2 ^ 30)) (2 * 100) -> let N := Num_B64 L in
  exists (k : Z) (chi prev : b64), @uni_run _ N (b64_Z 1) (b64_Z 1) (b64_dec 3 4) (b64_dec 1 4) (b64_Z 1) (b64_dec 1 1048576) 50 = Some (k, chi, prev) /\ (0 <= k <= 20)%Z.
Proof.
  intros TL N. destruct (int64 1 ltac:(lia)) as [F1 V1].
  destruct (fval64 (b64_dec 3 4) false 6755399441055744 (-53) ltac:(vm_compute; reflexivity)) as [Fr Vr].
  destruct (fval64 (b64_dec 1 4) false 4503599627370496 (-54) ltac:(vm_compute; reflexivity)) as [Fs Vs].
  destruct (fval64 (b64_dec 1 1048576) false 4503599627370496 (-72) ltac:(vm_compute; reflexivity)) as [Ft Vt].
  assert (Vr' : B2R (b64_dec 3 4) = 3 / 4) by (rewrite Vr; unfold F2R; simpl; lra). assert (Vs' : B2R (b64_dec 1 4) = / 4) by (rewrite Vs; unfold F2R; simpl; lra).
  assert (Vt' : B2R (b64_dec 1 1048576) = / 1048576) by (rewrite Vt; unfold F2R; simpl; lra).
  pose proof (B64Kuni.uni_stops L (b64_Z 1) (b64_Z 1) (b64_dec 3 4) (b64_dec 1 4) (b64_Z 1) (b64_dec 1 1048576) 6 50 ltac:(lia) TL F1) as K. cbv zeta in K. fold N in K.
  rewrite V1, Vr', Vs', Vt', sqrt_1 in K. replace (1 ^ 3 * (1 * 1)) with 1 in K by ring. rewrite Rabs_R1 in K. replace (INR 6) with 6 in K by (simpl; lra).
  apply K.
  - simpl; lra.
  - split; [exact Fr|rewrite Vr'; apply range_between; [simpl; lra|lia]].
  - lra.
  - split; [exact Fs|rewrite Vs'; apply range_between; [simpl; lra|lia]].
  - apply good64_Z; lia.
  - apply good64_Z; lia.
  - lra.
  - exact Ft.
  - lra.
  - lia.
  - lra.
  - simpl; lra.
  - simpl. lra.
  - lia.
Qed.
(** x = (1, 0, 0), v = (7, 24, 0), mu = 1024 (an ellipse of eccentricity 0.468), at time 1/4 *)
Lemma prop64_ex (L : libm64) : trig64 L 6 (2 * IZR (2 ^ 30)) (2 * 100) ->
  exists (t' : R) (x' v' p w : vec) (P Q : V3 b64), flows_to 1024 t' (x', v') (p, w) /\ Rabs (t' - / 4) <= / 1000000 /\ 28 / 100 <= vnorm p <= 12 / 10 /\
    nth_error (@kepler _ (Num_B64 L) [b64_Z 5; b64_dec 1 4] (mk3 (b64_Z 1) (b64_Z 0) (b64_Z 0)) (mk3 (b64_Z 7) (b64_Z 24) (b64_Z 0)) (b64_Z 1024)) 1 = Some (P, Q) /\
    off64v 56 1000 P p /\ off64v 62 40000000 Q w.
Proof.
  intro TL. destruct (int64 1 ltac:(lia)) as [F1 V1]. destruct (int64 0 ltac:(lia)) as [F0 V0]. destruct (int64 7 ltac:(lia)) as [F7 V7]. destruct (int64 24 ltac:(lia)) as [F24 V24]. destruct (int64 1024 ltac:(lia)) as [Fm Vm].
  destruct (fval64 (b64_dec 1 4) false 4503599627370496 (-54) ltac:(vm_compute; reflexivity)) as [Fs Vs]. assert (Vs' : B2R (b64_dec 1 4) = / 4) by (rewrite Vs; unfold F2R; simpl; lra).
  assert (Gq : good64 100 (b64_dec 1 4)) by (split; [exact Fs|rewrite Vs'; apply range_between; [simpl; lra|lia]]).
  assert (N1 : vnorm (mk3 1 0 0) = 1) by (unfold vnorm, dot; cbn [c0 c1 c2]; replace (1 * 1 + 0 * 0 + 0 * 0) with 1 by ring; apply sqrt_1).
  assert (N2 : vnorm (mk3 7 24 0) = 25) by (unfold vnorm, dot; cbn [c0 c1 c2]; replace (7 * 7 + 24 * 24 + 0 * 0) with (25 * 25) by ring; apply sqrt_square; lra).
  assert (N3 : vnorm (cross (mk3 1 0 0) (mk3 7 24 0)) = 24).
  { unfold vnorm, dot, cross; cbn [c0 c1 c2]. replace (_ + _) with (24 * 24) by ring. apply sqrt_square; lra. }
  set (x := mk3 (b64_Z 1) (b64_Z 0) (b64_Z 0)). set (v := mk3 (b64_Z 7) (b64_Z 24) (b64_Z 0)).
  assert (Rx : real64 x = mk3 1 0 0) by (unfold real64, x; cbn [c0 c1 c2]; rewrite V1, V0; reflexivity).
  assert (Rv : real64 v = mk3 7 24 0) by (unfold real64, v; cbn [c0 c1 c2]; rewrite V7, V24, V0; reflexivity).
  assert (G1 : good64v 100 x) by (split; [cbn [c0 c1 c2 x]; auto | rewrite Rx, N1; apply range_between; [simpl; lra | lia]]).
  assert (G2 : good64v 100 v) by (split; [cbn [c0 c1 c2 v]; auto | rewrite Rv, N2; apply range_between; [simpl; lra | lia]]).
  pose (N := Num_B64 L).
  assert (Er : @vector_norm _ N x = b64_Z 1) by (apply B2SF_inj; vm_compute; reflexivity).
  assert (Es : B2SF (@sigma_fn _ N x v (b64_Z 1024)) = SpecFloat.S754_finite false 7881299347898368 (-55)) by (vm_compute; reflexivity).
  assert (Ea : B2SF (@alpha_of _ N (@vector_norm _ N x) (@vector_norm _ N v) (b64_Z 1024)) = SpecFloat.S754_finite false 6258420185300992 (-52)) by (vm_compute; reflexivity).
  destruct (fval64 _ _ _ _ Es) as [Fss Vss]. destruct (fval64 _ _ _ _ Ea) as [Fa Va].
  assert (Vs2 : B2R (@sigma_fn _ N x v (b64_Z 1024)) = 7 / 32) by (rewrite Vss; unfold F2R; simpl; lra).
  assert (Va2 : B2R (@alpha_of _ N (@vector_norm _ N x) (@vector_norm _ N v) (b64_Z 1024)) = 1423 / 1024) by (rewrite Va; unfold F2R; simpl; lra).
  pose proof (B64Newton.tol_small L) as [_ Tl]. change (B64Newton.NB L) with N in Tl.
  assert (S32 : sqrt 1024 = 32) by (replace 1024 with (32 * 32) by ring; apply sqrt_square; lra).
  set (q := sqrt (1423 / 1024)). assert (Q0 : 0 < q) by (apply sqrt_lt_R0; lra). assert (QQ : q * q = 1423 / 1024) by (apply sqrt_sqrt; lra).
  assert (QB : 1178 / 1000 <= q <= 1179 / 1000) by (split; nra).
  assert (Q3 : q ^ 3 = q * (1423 / 1024)) by (rewrite <- QQ; ring).
  assert (M : Rabs (q ^ 3 * (32 * / 4)) = q * (1423 / 128)) by (rewrite Q3, Rabs_pos_eq; lra).
  pose proof (B64Kuni.kepler_ellipse L 6 ltac:(lia) TL x v (b64_Z 1024) (b64_dec 1 4) G1 G2 (good64_Z 100 1024 ltac:(lia) ltac:(lia) ltac:(lia)) ltac:(rewrite Vm; lra) Gq) as K.
  cbv zeta in K. fold N in K. rewrite Va2, Vs2, Er, Rx, Rv, N1, N2, N3, V1, Vm, Vs', S32 in K. fold q in K. rewrite M in K.
  specialize (K ltac:(simpl; lra) Fa ltac:(simpl; lra) (good64_Z 100 1 ltac:(lia) ltac:(lia) ltac:(lia))).
  destruct K as (t' & x' & v' & p & w & Fw & Pn & Dt & _ & _ & Rows).
  - split; [exact Fss|rewrite Vs2; apply range_between; [simpl; lra|lia]].
  - lra.
  - simpl. lra.
  - destruct (Rows [b64_Z 5; b64_dec 1 4] 1%nat eq_refl) as [P [Q [Row [O1 O2]]]].
    exists t', x', v', p, w, P, Q. split; [exact Fw|].
    assert (q3 : 16 / 10 <= q ^ 3 <= 17 / 10) by lra. assert (iq3 : 0 < / q ^ 3 <= 10 / 16).
    { split; [apply Rinv_0_lt_compat; lra|]. replace (10 / 16) with (/ (16 / 10)) by field. apply Rinv_le_contravar; lra. }
    assert (iq : 0 < / q <= 86 / 100).
    { split; [apply Rinv_0_lt_compat; lra|]. apply Rmult_le_reg_l with q; [lra|]. rewrite Rinv_r by lra. lra. }
    assert (iq2 : / q ^ 2 = 1024 / 1423) by (replace (q ^ 2) with (1423 / 1024) by (rewrite <- QQ; ring); field).
    replace (INR 6) with 6 in * by (simpl; lra).
    set (k := B2R (@default_tol _ N)) in *. clearbody k. set (TT := 1 + q * (1423 / 128)) in *. assert (HT : 14 <= TT <= 142 / 10) by (unfold TT; lra).
    split.
    { unfold Rdiv in Dt. assert (330 * ((6 + 16) * / IZR (2 ^ 53) * TT) * / q ^ 3 <= 330 * ((6 + 16) * / IZR (2 ^ 53) * (142 / 10)) * (10 / 16)).
      { apply Rmult_le_compat; lra. }
      set (zz := 330 * ((6 + 16) * / IZR (2 ^ 53) * TT) * / q ^ 3) in *. clearbody zz. simpl in H. lra. }
    split; [split; lra|]. split; [exact Row|].
    assert (S1 : 0 <= 7 * TT / q ^ 1 <= 86) by (rewrite pow_1; unfold Rdiv; split; [apply Rmult_le_pos; lra|apply Rle_trans with (7 * (142 / 10) * (86 / 100)); [apply Rmult_le_compat; lra|lra]]).
    assert (S2 : 0 <= 7 * TT / q ^ 2 <= 72) by (unfold Rdiv; rewrite iq2; lra).
    set (s1 := 7 * TT / q ^ 1) in *. set (s2 := 7 * TT / q ^ 2) in *. rewrite (Rabs_pos_eq (7 / 32)) in O1 by lra.
    split.
    + replace 56 with (6 + 50) by ring. apply B64Kuni.offv_wide with (3 := O1); [lra|]. lra.
    + replace 62 with (2 * 6 + 50) by ring. apply B64Kuni.offv_wide with (3 := O2); [lra|].
      set (Y := 140 * TT * (1423 / 1024)) in *. assert (HY : 0 <= Y <= 2763) by (unfold Y; lra).
      assert (s1 * Y <= 86 * 2763) by (apply Rmult_le_compat; lra). assert (s2 * Y <= 72 * 2763) by (apply Rmult_le_compat; lra).
      replace (32 * Y * s1 / 1 * 1) with (32 * (s1 * Y)) by field. set (z1 := s1 * Y) in *. set (z2 := s2 * Y) in *. lra.
Qed.

(** alpha = 1, r0 = 3/4, sigma0 = 1/4 (eccentricity 0.354), mu = dt = 1 *)
Lemma uni32_ex (L : libm) : trig32 L 6 (2 * IZR (2 ^ 10)) (2 * 10) -> let N := Num_B32 L in
  let chi := @solve_kepler_uni _ N (b32_Z 1) (b32_Z 1) (b32_dec 3 4) (b32_dec 1 4) (b32_Z 1) (@default_tol _ N) 20 in
  is_finite chi = true /\ exists x, 3 / 4 * sin x + / 4 * (1 - cos x) + (x - sin x) = 1 /\ Rabs (B2R chi - x) <= / 1000.
Proof.
  intros TL N chi. destruct (int32 1 ltac:(lia)) as [F1 V1].
  destruct (fval32 (b32_dec 3 4) false 12582912 (-24) ltac:(vm_compute; reflexivity)) as [Fr Vr].
  destruct (fval32 (b32_dec 1 4) false 8388608 (-25) ltac:(vm_compute; reflexivity)) as [Fs Vs].
  assert (Vr' : B2R (b32_dec 3 4) = 3 / 4) by (rewrite Vr; unfold F2R; simpl; lra). assert (Vs' : B2R (b32_dec 1 4) = / 4) by (rewrite Vs; unfold F2R; simpl; lra).
  pose proof (B32Newton.tol_small L) as [Tf Tl]. change (B32Newton.NB L) with N in Tf, Tl.
  pose proof (B32Kuni.uni_float L (b32_Z 1) (b32_Z 1) (b32_dec 3 4) (b32_dec 1 4) (b32_Z 1) (@default_tol _ N) 6 20 ltac:(lia) TL F1) as K. cbv zeta in K. fold N in K.
  rewrite V1, Vr', Vs', sqrt_1 in K. replace (1 ^ 3 * (1 * 1)) with 1 in K by ring. rewrite Rabs_R1 in K. replace (INR 6) with 6 in K by (simpl; lra).
  destruct K as [A [x [B [_ C]]]].
  - simpl; lra.
  - split; [exact Fr|rewrite Vr'; apply range_between; [simpl; lra|lia]].
  - lra.
  - split; [exact Fs|rewrite Vs'; apply range_between; [simpl; lra|lia]].
  - apply good32_Z; lia.
  - apply good32_Z; lia.
  - lra.
  - exact Tf.
  - lra.
  - lia.
  - lra.
  - simpl; lra.
  - split; [exact A|]. exists x. destruct (uf_one x) as (U1 & U2 & U3). rewrite U1, U2, U3 in B. split; [lra|].
    fold chi in C. set (k := B2R (@default_tol _ N)) in *. clearbody k. rewrite Rmult_1_l in C. apply Rle_trans with (1 := C). simpl. lra.
Qed.
(** the same with tol = 1/32: the loop ends within 20 steps *)
Lemma stop32_ex (L : libm) : trig32 L 6 (2 * IZR (2 ^ 10)) (2 * 10) -> let N := Num_B32 L in
  exists (k : Z) (chi prev : b32), @uni_run _ N (b32_Z 1) (b32_Z 1) (b32_dec 3 4) (b32_dec 1 4) (b32_Z 1) (b32_dec 1 32) 50 = Some (k, chi, prev) /\ (0 <= k <= 20)%Z.
Proof.
  intros TL N. destruct (int32 1 ltac:(lia)) as [F1 V1].
  destruct (fval32 (b32_dec 3 4) false 12582912 (-24) ltac:(vm_compute; reflexivity)) as [Fr Vr].
  destruct (fval32 (b32_dec 1 4) false 8388608 (-25) ltac:(vm_compute; reflexivity)) as [Fs Vs].
  destruct (fval32 (b32_dec 1 32) false 8388608 (-28) ltac:(vm_compute; reflexivity)) as [Ft Vt].
  assert (Vr' : B2R (b32_dec 3 4) = 3 / 4) by (rewrite Vr; unfold F2R; simpl; lra). assert (Vs' : B2R (b32_dec 1 4) = / 4) by (rewrite Vs; unfold F2R; simpl; lra).
  assert (Vt' : B2R (b32_dec 1 32) = / 32) by (rewrite Vt; unfold F2R; simpl; lra).
  pose proof (B32Kuni.uni_stops L (b32_Z 1) (b32_Z 1) (b32_dec 3 4) (b32_dec 1 4) (b32_Z 1) (b32_dec 1 32) 6 50 ltac:(lia) TL F1) as K. cbv zeta in K. fold N in K.
  rewrite V1, Vr', Vs', Vt', sqrt_1 in K. replace (1 ^ 3 * (1 * 1)) with 1 in K by ring. rewrite Rabs_R1 in K. replace (INR 6) with 6 in K by (simpl; lra).
  apply K.
  - simpl; lra.
  - split; [exact Fr|rewrite Vr'; apply range_between; [simpl; lra|lia]].
  - lra.
  - split; [exact Fs|rewrite Vs'; apply range_between; [simpl; lra|lia]].
  - apply good32_Z; lia.
  - apply good32_Z; lia.
  - lra.
  - exact Ft.
  - lra.
  - lia.
  - lra.
  - simpl; lra.
  - simpl. lra.
  - lia.
Qed.
(** x = (1, 0, 0), v = (7, 24, 0), mu = 1024 (an ellipse of eccentricity 0.468), at time 1/4 *)
Lemma prop32_ex (L : libm) : trig32 L 6 (2 * IZR (2 ^ 10)) (2 * 10) ->
  exists (t' : R) (x' v' p w : vec) (P Q : V3 b32), flows_to 1024 t' (x', v') (p, w) /\ Rabs (t' - / 4) <= / 5000 /\ 28 / 100 <= vnorm p <= 12 / 10 /\
    nth_error (@kepler _ (Num_B32 L) [b32_Z 5; b32_dec 1 4] (mk3 (b32_Z 1) (b32_Z 0) (b32_Z 0)) (mk3 (b32_Z 7) (b32_Z 24) (b32_Z 0)) (b32_Z 1024)) 1 = Some (P, Q) /\
    off32v 56 1000 P p /\ off32v 62 40000000 Q w.
Proof.
  intro TL. destruct (int32 1 ltac:(lia)) as [F1 V1]. destruct (int32 0 ltac:(lia)) as [F0 V0]. destruct (int32 7 ltac:(lia)) as [F7 V7]. destruct (int32 24 ltac:(lia)) as [F24 V24]. destruct (int32 1024 ltac:(lia)) as [Fm Vm].
  destruct (fval32 (b32_dec 1 4) false 8388608 (-25) ltac:(vm_compute; reflexivity)) as [Fs Vs]. assert (Vs' : B2R (b32_dec 1 4) = / 4) by (rewrite Vs; unfold F2R; simpl; lra).
  assert (Gq : good32 40 (b32_dec 1 4)) by (split; [exact Fs|rewrite Vs'; apply range_between; [simpl; lra|lia]]).
  assert (N1 : vnorm (mk3 1 0 0) = 1) by (unfold vnorm, dot; cbn [c0 c1 c2]; replace (1 * 1 + 0 * 0 + 0 * 0) with 1 by ring; apply sqrt_1).
  assert (N2 : vnorm (mk3 7 24 0) = 25) by (unfold vnorm, dot; cbn [c0 c1 c2]; replace (7 * 7 + 24 * 24 + 0 * 0) with (25 * 25) by ring; apply sqrt_square; lra).
  assert (N3 : vnorm (cross (mk3 1 0 0) (mk3 7 24 0)) = 24).
  { unfold vnorm, dot, cross; cbn [c0 c1 c2]. replace (_ + _) with (24 * 24) by ring. apply sqrt_square; lra. }
  set (x := mk3 (b32_Z 1) (b32_Z 0) (b32_Z 0)). set (v := mk3 (b32_Z 7) (b32_Z 24) (b32_Z 0)).
  assert (Rx : real32 x = mk3 1 0 0) by (unfold real32, x; cbn [c0 c1 c2]; rewrite V1, V0; reflexivity).
  assert (Rv : real32 v = mk3 7 24 0) by (unfold real32, v; cbn [c0 c1 c2]; rewrite V7, V24, V0; reflexivity).
  assert (G1 : good32v 17 x) by (split; [cbn [c0 c1 c2 x]; auto | rewrite Rx, N1; apply range_between; [simpl; lra | lia]]).
  assert (G2 : good32v 8 v) by (split; [cbn [c0 c1 c2 v]; auto | rewrite Rv, N2; apply range_between; [simpl; lra | lia]]).
  pose (N := Num_B32 L).
  assert (Er : @vector_norm _ N x = b32_Z 1) by (apply B2SF_inj; vm_compute; reflexivity).
  assert (Es : B2SF (@sigma_fn _ N x v (b32_Z 1024)) = SpecFloat.S754_finite false 14680064 (-26)) by (vm_compute; reflexivity).
  assert (Ea : B2SF (@alpha_of _ N (@vector_norm _ N x) (@vector_norm _ N v) (b32_Z 1024)) = SpecFloat.S754_finite false 11657216 (-23)) by (vm_compute; reflexivity).
  destruct (fval32 _ _ _ _ Es) as [Fss Vss]. destruct (fval32 _ _ _ _ Ea) as [Fa Va].
  assert (Vs2 : B2R (@sigma_fn _ N x v (b32_Z 1024)) = 7 / 32) by (rewrite Vss; unfold F2R; simpl; lra).
  assert (Va2 : B2R (@alpha_of _ N (@vector_norm _ N x) (@vector_norm _ N v) (b32_Z 1024)) = 1423 / 1024) by (rewrite Va; unfold F2R; simpl; lra).
  pose proof (B32Newton.tol_small L) as [_ Tl]. change (B32Newton.NB L) with N in Tl.
  assert (S32 : sqrt 1024 = 32) by (replace 1024 with (32 * 32) by ring; apply sqrt_square; lra).
  set (q := sqrt (1423 / 1024)). assert (Q0 : 0 < q) by (apply sqrt_lt_R0; lra). assert (QQ : q * q = 1423 / 1024) by (apply sqrt_sqrt; lra).
  assert (QB : 1178 / 1000 <= q <= 1179 / 1000) by (split; nra).
  assert (Q3 : q ^ 3 = q * (1423 / 1024)) by (rewrite <- QQ; ring).
  assert (M : Rabs (q ^ 3 * (32 * / 4)) = q * (1423 / 128)) by (rewrite Q3, Rabs_pos_eq; lra).
  pose proof (B32Kuni.kepler_ellipse L 6 ltac:(lia) TL x v (b32_Z 1024) (b32_dec 1 4) G1 G2 (good32_Z 20 1024 ltac:(lia) ltac:(lia) ltac:(lia)) ltac:(rewrite Vm; lra) Gq) as K.
  cbv zeta in K. fold N in K. rewrite Va2, Vs2, Er, Rx, Rv, N1, N2, N3, V1, Vm, Vs', S32 in K. fold q in K. rewrite M in K.
  specialize (K ltac:(simpl; lra) Fa ltac:(simpl; lra) (good32_Z 17 1 ltac:(lia) ltac:(lia) ltac:(lia))).
  destruct K as (t' & x' & v' & p & w & Fw & Pn & Dt & _ & _ & Rows).
  - split; [exact Fss|rewrite Vs2; apply range_between; [simpl; lra|lia]].
  - lra.
  - simpl. lra.
  - destruct (Rows [b32_Z 5; b32_dec 1 4] 1%nat eq_refl) as [P [Q [Row [O1 O2]]]].
    exists t', x', v', p, w, P, Q. split; [exact Fw|].
    assert (q3 : 16 / 10 <= q ^ 3 <= 17 / 10) by lra. assert (iq3 : 0 < / q ^ 3 <= 10 / 16).
    { split; [apply Rinv_0_lt_compat; lra|]. replace (10 / 16) with (/ (16 / 10)) by field. apply Rinv_le_contravar; lra. }
    assert (iq : 0 < / q <= 86 / 100).
    { split; [apply Rinv_0_lt_compat; lra|]. apply Rmult_le_reg_l with q; [lra|]. rewrite Rinv_r by lra. lra. }
    assert (iq2 : / q ^ 2 = 1024 / 1423) by (replace (q ^ 2) with (1423 / 1024) by (rewrite <- QQ; ring); field).
    replace (INR 6) with 6 in * by (simpl; lra).
    set (k := B2R (@default_tol _ N)) in *. clearbody k. set (TT := 1 + q * (1423 / 128)) in *. assert (HT : 14 <= TT <= 142 / 10) by (unfold TT; lra).
    split.
    { unfold Rdiv in Dt. assert (330 * ((6 + 16) * / IZR (2 ^ 24) * TT) * / q ^ 3 <= 330 * ((6 + 16) * / IZR (2 ^ 24) * (142 / 10)) * (10 / 16)).
      { apply Rmult_le_compat; lra. }
      set (zz := 330 * ((6 + 16) * / IZR (2 ^ 24) * TT) * / q ^ 3) in *. clearbody zz. simpl in H. lra. }
    split; [split; lra|]. split; [exact Row|].
    assert (S1 : 0 <= 7 * TT / q ^ 1 <= 86) by (rewrite pow_1; unfold Rdiv; split; [apply Rmult_le_pos; lra|apply Rle_trans with (7 * (142 / 10) * (86 / 100)); [apply Rmult_le_compat; lra|lra]]).
    assert (S2 : 0 <= 7 * TT / q ^ 2 <= 72) by (unfold Rdiv; rewrite iq2; lra).
    set (s1 := 7 * TT / q ^ 1) in *. set (s2 := 7 * TT / q ^ 2) in *. rewrite (Rabs_pos_eq (7 / 32)) in O1 by lra.
    split.
    + replace 56 with (6 + 50) by ring. apply B32Kuni.offv_wide with (3 := O1); [lra|]. lra.
    + replace 62 with (2 * 6 + 50) by ring. apply B32Kuni.offv_wide with (3 := O2); [lra|].
      set (Y := 140 * TT * (1423 / 1024)) in *. assert (HY : 0 <= Y <= 2763) by (unfold Y; lra).
      assert (s1 * Y <= 86 * 2763) by (apply Rmult_le_compat; lra). assert (s2 * Y <= 72 * 2763) by (apply Rmult_le_compat; lra).
      replace (32 * Y * s1 / 1 * 1) with (32 * (s1 * Y)) by field. set (z1 := s1 * Y) in *. set (z2 := s2 * Y) in *. lra.
Qed.
