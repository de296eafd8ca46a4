(** * BackExamples: a concrete case for C86 *)
From Coq Require Import ZArith Reals Lra Lia Psatz Bool List.
From Coquelicot Require Import Coquelicot.
From Flocq Require Import Core IEEE754.BinarySingleNaN.
From Verif Require Import Num NumB32 NumB64 NumR Spec SpecFl SpecFl32 SpecFl64 SpecFlV RelLib RoundFn Fine32 Fine64 GeoExamples UviExamples.
From Verif Require Import OrbIntegrals Uniformulas UfReal Lagrange KepEqu StateTrans PropKepler.
From Verif Require B64Newton B64Back B32Newton B32Back.
Import ListNotations.
Local Open Scope R_scope.


(** x = (1, 0, 0), v = (0, 2, 0), mu = 2: a parabola from its periapsis, one time unit on *)
Lemma back64_ex (L : libm64) : trig64 L 6 (2 * IZR (2 ^ 30)) (2 * 100) ->
  exists (t' : R) (x' v' p q : vec) (P Q : V3 b64), flows_to 2 t' (x', v') (p, q) /\ Rabs (t' - 1) <= / 1000000 /\
    vnorm (vminus x' (mk3 1 0 0)) <= 4 * / IZR (2 ^ 53) /\ vnorm (vminus v' (mk3 0 2 0)) <= 226 * / IZR (2 ^ 53) /\
    nth_error (@kepler _ (Num_B64 L) [b64_Z 5; b64_Z 1] (mk3 (b64_Z 1) (b64_Z 0) (b64_Z 0)) (mk3 (b64_Z 0) (b64_Z 2) (b64_Z 0)) (b64_Z 2)) 1 = Some (P, Q) /\
    off64v 56 8 P p /\ off64v 62 10 Q q.
Proof.
  intro TL. destruct (int64 1 ltac:(lia)) as [F1 V1]. destruct (int64 0 ltac:(lia)) as [F0 V0]. destruct (int64 2 ltac:(lia)) as [F2 V2].
  assert (S2 : 0 < sqrt 2) by (apply sqrt_lt_R0; lra). pose proof (sqrt_sqrt 2 ltac:(lra)) as Sq.
  assert (S3 : 1414 / 1000 <= sqrt 2 <= 1415 / 1000) by (split; nra).
  assert (N1 : vnorm (mk3 1 0 0) = 1) by (unfold vnorm, dot; cbn [c0 c1 c2]; replace (1 * 1 + 0 * 0 + 0 * 0) with 1 by ring; apply sqrt_1).
  assert (N2 : vnorm (mk3 0 2 0) = 2) by (unfold vnorm, dot; cbn [c0 c1 c2]; replace (0 * 0 + 2 * 2 + 0 * 0) with (2 * 2) by ring; apply sqrt_square; lra).
  assert (N3 : vnorm (cross (mk3 1 0 0) (mk3 0 2 0)) = 2).
  { unfold vnorm, dot, cross; cbn [c0 c1 c2]. replace (_ + _) with (2 * 2) by ring. apply sqrt_square; lra. }
  set (x := mk3 (b64_Z 1) (b64_Z 0) (b64_Z 0)). set (v := mk3 (b64_Z 0) (b64_Z 2) (b64_Z 0)).
  assert (Rx : real64 x = mk3 1 0 0) by (unfold real64, x; cbn [c0 c1 c2]; rewrite V1, V0; reflexivity).
  assert (Rv : real64 v = mk3 0 2 0) by (unfold real64, v; cbn [c0 c1 c2]; rewrite V2, V0; reflexivity).
  assert (G1 : good64v 100 x) by (split; [cbn [c0 c1 c2 x]; auto | rewrite Rx, N1; apply range_between; [simpl; lra | lia]]).
  assert (G2 : good64v 100 v) by (split; [cbn [c0 c1 c2 v]; auto | rewrite Rv, N2; apply range_between; [simpl; lra | lia]]).
  pose (N := Num_B64 L).
  assert (Er : @vector_norm _ N x = b64_Z 1) by (apply B2SF_inj; vm_compute; reflexivity).
  assert (Es : @sigma_fn _ N x v (b64_Z 2) = b64_Z 0) by (apply B2SF_inj; vm_compute; reflexivity).
  assert (Ea : @alpha_of _ N (@vector_norm _ N x) (@vector_norm _ N v) (b64_Z 2) = b64_Z 0) by (apply B2SF_inj; vm_compute; reflexivity).
  set (sf := fun o : option (Z * b64 * b64) => match o with Some (i, x, y) => Some (i, B2SF x, B2SF y) | None => None end).
  assert (R : sf (@uni_run _ N (b64_Z 1) (b64_Z 0) (b64_Z 1) (b64_Z 0) (b64_Z 2) (@default_tol _ N) uni_max_iter) = Some (4%Z, SpecFloat.S754_finite false 5208175329416554 (-52), SpecFloat.S754_finite false 5208932970790659 (-52))) by (vm_compute; reflexivity).
  destruct (@uni_run _ N (b64_Z 1) (b64_Z 0) (b64_Z 1) (b64_Z 0) (b64_Z 2) (@default_tol _ N) uni_max_iter) as [[[i chi] prev] |] eqn:E; [| discriminate R].
  cbn [sf] in R. injection R as I X Y. destruct (fval64 _ _ _ _ X) as [Fc Vc]. assert (Bc : 11564 / 10000 <= B2R chi <= 11565 / 10000) by (rewrite Vc; unfold F2R; simpl; lra).
  assert (Gc : good64 100 chi) by (split; [exact Fc | apply range_between; [simpl; lra | lia]]).
  pose proof (B64Newton.tol_small L) as [_ Tl]. change (B64Newton.NB L) with N in Tl.
  pose proof (B64Back.kepler_back L 6 ltac:(lia) TL x v (b64_Z 2) (b64_Z 1) G1 G2 (good64_Z 100 2 ltac:(lia) ltac:(lia) ltac:(lia)) ltac:(rewrite V2; lra) (good64_Z 100 1 ltac:(lia) ltac:(lia) ltac:(lia))) as K.
  cbv zeta in K. fold N in K. rewrite Ea, Er, Es, Rx, Rv, N1, N2, N3, V0, V1, V2 in K. specialize (K ltac:(simpl; lra) i chi prev E ltac:(rewrite I; reflexivity)).
  specialize (K (good64_Z 100 0 ltac:(lia) ltac:(lia) ltac:(lia)) (good64_Z 100 1 ltac:(lia) ltac:(lia) ltac:(lia)) (good64_Z 100 0 ltac:(lia) ltac:(lia) ltac:(lia)) Gc ltac:(lra) ltac:(lra)).
  destruct (uf_zero (B2R chi)) as [E0 [E1 [E2 _]]]. rewrite E0, E1, E2 in K.
  assert (Z : forall n, uf_size n (B2R chi) 0 = B2R chi ^ n / INR (fact n)).
  { intro n. unfold uf_size. destruct (Req_EM_T 0 0) as [_ | Q]; [| contradiction]. rewrite Rabs_pos_eq by lra. reflexivity. }
  rewrite !Z, Rabs_R0, Rabs_R1 in K. replace (INR (fact 0)) with 1 in K by (simpl; lra). replace (INR (fact 1)) with 1 in K by (simpl; lra). replace (INR (fact 2)) with 2 in K by (simpl; lra). replace (INR (fact 3)) with 6 in K by (simpl; lra).
  replace (INR 6) with 6 in K by (simpl; lra).
  set (y := B2R chi) in *. assert (Y2 : 133 / 100 <= y ^ 2 <= 134 / 100) by nra. assert (Y3 : y ^ 3 <= 155 / 100) by (replace (y ^ 3) with (y * y ^ 2) by ring; nra).
  replace (y ^ 0) with 1 in K by ring. replace (y ^ 1) with y in K by ring. set (y2 := y ^ 2) in *. set (y3 := y ^ 3) in *.
  destruct K as [t' [x' [v' [p [q [Fw [_ [Dt [Dx [Dv Rows]]]]]]]]]].
  - apply range_between; [simpl; lra | lia].
  - simpl. lra.
  - destruct (Rows [b64_Z 5; b64_Z 1] 1%nat eq_refl) as [P [Q [Row [O1 O2]]]].
    exists t', x', v', p, q, P, Q. split; [exact Fw |]. split.
    { apply Rmult_le_reg_l with (sqrt 2); [exact S2 |]. apply Rle_trans with (1 := Dt). set (k := B2R (@default_tol _ N)) in *. clearbody k. simpl. lra. }
    split; [lra |]. split; [lra |]. split; [exact Row |].
    assert (T : forall C D m n g w, off64v C m g w -> C = D -> 0 <= C -> m <= n -> off64v D n g w).
    { intros C D m n g w H <- HC Hm. assert (T1 : forall a b, off64 C m a b -> off64 C n a b) by (intros a b [F G]; split; [exact F |]; apply Rle_trans with (1 := G); apply Rmult_le_compat_l; [apply Rmult_le_pos; [exact HC | simpl; lra] | exact Hm]).
      destruct H as [H0 [H1 H2]]. split; [| split]; apply T1; assumption. }
    assert (Iv : / sqrt 2 <= 708 / 1000) by (apply Rmult_le_reg_l with (sqrt 2); [exact S2 |]; rewrite Rinv_r by lra; lra).
    pose proof (Rinv_0_lt_compat _ S2) as Ip.
    split.
    + apply (T _ _ _ _ _ _ O1); [ring | lra |]. unfold Rdiv. rewrite !Rinv_1, !Rmult_1_r. nra.
    + apply (T _ _ _ _ _ _ O2); [ring | lra |].
      set (rd := 1 * 1 + 0 * y + y2 / 2). assert (Hrd : 1665 / 1000 <= rd <= 167 / 100) by (unfold rd; lra).
      replace (1 * (1 / 1) + 0 * (y / 1) + y2 / 2) with rd by (unfold rd; field).
      assert (Ir : / rd <= 601 / 1000) by (apply Rmult_le_reg_l with rd; [lra |]; rewrite Rinv_r by lra; lra).
      assert (Irp : 0 < / rd) by (apply Rinv_0_lt_compat; lra).
      replace (sqrt 2 * rd / rd ^ 2 * (y / 1) / 1 * 1) with (sqrt 2 * y * / rd) by (field; lra).
      replace (y2 / 2 * rd / rd ^ 2) with (y2 / 2 * / rd) by (field; lra).
      assert (sqrt 2 * y <= 1415 / 1000 * (11565 / 10000)) by (apply Rmult_le_compat; lra).
      assert (sqrt 2 * y * / rd <= 1415 / 1000 * (11565 / 10000) * (601 / 1000)) by (apply Rmult_le_compat; nra).
      assert (y2 / 2 * / rd <= 67 / 100 * (601 / 1000)) by (apply Rmult_le_compat; lra). lra.
Qed.

(** x = (1, 0, 0), v = (0, 2, 0), mu = 2: a parabola from its periapsis, one time unit on *)
Lemma back32_ex (L : libm) : trig32 L 6 (2 * IZR (2 ^ 10)) (2 * 10) ->
  exists (t' : R) (x' v' p q : vec) (P Q : V3 b32), flows_to 2 t' (x', v') (p, q) /\ Rabs (t' - 1) <= / 100000 /\
    vnorm (vminus x' (mk3 1 0 0)) <= 4 * / IZR (2 ^ 24) /\ vnorm (vminus v' (mk3 0 2 0)) <= 226 * / IZR (2 ^ 24) /\
    nth_error (@kepler _ (Num_B32 L) [b32_Z 5; b32_Z 1] (mk3 (b32_Z 1) (b32_Z 0) (b32_Z 0)) (mk3 (b32_Z 0) (b32_Z 2) (b32_Z 0)) (b32_Z 2)) 1 = Some (P, Q) /\
    off32v 56 8 P p /\ off32v 62 10 Q q.
Proof.
  intro TL. destruct (int32 1 ltac:(lia)) as [F1 V1]. destruct (int32 0 ltac:(lia)) as [F0 V0]. destruct (int32 2 ltac:(lia)) as [F2 V2].
  assert (S2 : 0 < sqrt 2) by (apply sqrt_lt_R0; lra). pose proof (sqrt_sqrt 2 ltac:(lra)) as Sq.
  assert (S3 : 1414 / 1000 <= sqrt 2 <= 1415 / 1000) by (split; nra).
  assert (N1 : vnorm (mk3 1 0 0) = 1) by (unfold vnorm, dot; cbn [c0 c1 c2]; replace (1 * 1 + 0 * 0 + 0 * 0) with 1 by ring; apply sqrt_1).
  assert (N2 : vnorm (mk3 0 2 0) = 2) by (unfold vnorm, dot; cbn [c0 c1 c2]; replace (0 * 0 + 2 * 2 + 0 * 0) with (2 * 2) by ring; apply sqrt_square; lra).
  assert (N3 : vnorm (cross (mk3 1 0 0) (mk3 0 2 0)) = 2).
  { unfold vnorm, dot, cross; cbn [c0 c1 c2]. replace (_ + _) with (2 * 2) by ring. apply sqrt_square; lra. }
  set (x := mk3 (b32_Z 1) (b32_Z 0) (b32_Z 0)). set (v := mk3 (b32_Z 0) (b32_Z 2) (b32_Z 0)).
  assert (Rx : real32 x = mk3 1 0 0) by (unfold real32, x; cbn [c0 c1 c2]; rewrite V1, V0; reflexivity).
  assert (Rv : real32 v = mk3 0 2 0) by (unfold real32, v; cbn [c0 c1 c2]; rewrite V2, V0; reflexivity).
  assert (G1 : good32v 17 x) by (split; [cbn [c0 c1 c2 x]; auto | rewrite Rx, N1; apply range_between; [simpl; lra | lia]]).
  assert (G2 : good32v 8 v) by (split; [cbn [c0 c1 c2 v]; auto | rewrite Rv, N2; apply range_between; [simpl; lra | lia]]).
  pose (N := Num_B32 L).
  assert (Er : @vector_norm _ N x = b32_Z 1) by (apply B2SF_inj; vm_compute; reflexivity).
  assert (Es : @sigma_fn _ N x v (b32_Z 2) = b32_Z 0) by (apply B2SF_inj; vm_compute; reflexivity).
  assert (Ea : @alpha_of _ N (@vector_norm _ N x) (@vector_norm _ N v) (b32_Z 2) = b32_Z 0) by (apply B2SF_inj; vm_compute; reflexivity).
  set (sf := fun o : option (Z * b32 * b32) => match o with Some (i, x, y) => Some (i, B2SF x, B2SF y) | None => None end).
  assert (R : sf (@uni_run _ N (b32_Z 1) (b32_Z 0) (b32_Z 1) (b32_Z 0) (b32_Z 2) (@default_tol _ N) uni_max_iter) = Some (4%Z, SpecFloat.S754_finite false 9700982 (-23), SpecFloat.S754_finite false 9702394 (-23))) by (vm_compute; reflexivity).
  destruct (@uni_run _ N (b32_Z 1) (b32_Z 0) (b32_Z 1) (b32_Z 0) (b32_Z 2) (@default_tol _ N) uni_max_iter) as [[[i chi] prev] |] eqn:E; [| discriminate R].
  cbn [sf] in R. injection R as I X Y. destruct (fval32 _ _ _ _ X) as [Fc Vc]. assert (Bc : 11564 / 10000 <= B2R chi <= 11565 / 10000) by (rewrite Vc; unfold F2R; simpl; lra).
  assert (Gc : good32 12 chi) by (split; [exact Fc | apply range_between; [simpl; lra | lia]]).
  pose proof (B32Newton.tol_small L) as [_ Tl]. change (B32Newton.NB L) with N in Tl.
  pose proof (B32Back.kepler_back L 6 ltac:(lia) TL x v (b32_Z 2) (b32_Z 1) G1 G2 (good32_Z 20 2 ltac:(lia) ltac:(lia) ltac:(lia)) ltac:(rewrite V2; lra) (good32_Z 40 1 ltac:(lia) ltac:(lia) ltac:(lia))) as K.
  cbv zeta in K. fold N in K. rewrite Ea, Er, Es, Rx, Rv, N1, N2, N3, V0, V1, V2 in K. specialize (K ltac:(simpl; lra) i chi prev E ltac:(rewrite I; reflexivity)).
  specialize (K (good32_Z 17 0 ltac:(lia) ltac:(lia) ltac:(lia)) (good32_Z 17 1 ltac:(lia) ltac:(lia) ltac:(lia)) (good32_Z 17 0 ltac:(lia) ltac:(lia) ltac:(lia)) Gc ltac:(lra) ltac:(lra)).
  destruct (uf_zero (B2R chi)) as [E0 [E1 [E2 _]]]. rewrite E0, E1, E2 in K.
  assert (Z : forall n, uf_size n (B2R chi) 0 = B2R chi ^ n / INR (fact n)).
  { intro n. unfold uf_size. destruct (Req_EM_T 0 0) as [_ | Q]; [| contradiction]. rewrite Rabs_pos_eq by lra. reflexivity. }
  rewrite !Z, Rabs_R0, Rabs_R1 in K. replace (INR (fact 0)) with 1 in K by (simpl; lra). replace (INR (fact 1)) with 1 in K by (simpl; lra). replace (INR (fact 2)) with 2 in K by (simpl; lra). replace (INR (fact 3)) with 6 in K by (simpl; lra).
  replace (INR 6) with 6 in K by (simpl; lra).
  set (y := B2R chi) in *. assert (Y2 : 133 / 100 <= y ^ 2 <= 134 / 100) by nra. assert (Y3 : y ^ 3 <= 155 / 100) by (replace (y ^ 3) with (y * y ^ 2) by ring; nra).
  replace (y ^ 0) with 1 in K by ring. replace (y ^ 1) with y in K by ring. set (y2 := y ^ 2) in *. set (y3 := y ^ 3) in *.
  destruct K as [t' [x' [v' [p [q [Fw [_ [Dt [Dx [Dv Rows]]]]]]]]]].
  - apply range_between; [simpl; lra | lia].
  - simpl. lra.
  - destruct (Rows [b32_Z 5; b32_Z 1] 1%nat eq_refl) as [P [Q [Row [O1 O2]]]].
    exists t', x', v', p, q, P, Q. split; [exact Fw |]. split.
    { apply Rmult_le_reg_l with (sqrt 2); [exact S2 |]. apply Rle_trans with (1 := Dt). set (k := B2R (@default_tol _ N)) in *. clearbody k. simpl. lra. }
    split; [lra |]. split; [lra |]. split; [exact Row |].
    assert (T : forall C D m n g w, off32v C m g w -> C = D -> 0 <= C -> m <= n -> off32v D n g w).
    { intros C D m n g w H <- HC Hm. assert (T1 : forall a b, off C m a b -> off C n a b) by (intros a b [F G]; split; [exact F |]; apply Rle_trans with (1 := G); apply Rmult_le_compat_l; [apply Rmult_le_pos; [exact HC | simpl; lra] | exact Hm]).
      destruct H as [H0 [H1 H2]]. split; [| split]; apply T1; assumption. }
    assert (Iv : / sqrt 2 <= 708 / 1000) by (apply Rmult_le_reg_l with (sqrt 2); [exact S2 |]; rewrite Rinv_r by lra; lra).
    pose proof (Rinv_0_lt_compat _ S2) as Ip.
    split.
    + apply (T _ _ _ _ _ _ O1); [ring | lra |]. unfold Rdiv. rewrite !Rinv_1, !Rmult_1_r. nra.
    + apply (T _ _ _ _ _ _ O2); [ring | lra |].
      set (rd := 1 * 1 + 0 * y + y2 / 2). assert (Hrd : 1665 / 1000 <= rd <= 167 / 100) by (unfold rd; lra).
      replace (1 * (1 / 1) + 0 * (y / 1) + y2 / 2) with rd by (unfold rd; field).
      assert (Ir : / rd <= 601 / 1000) by (apply Rmult_le_reg_l with rd; [lra |]; rewrite Rinv_r by lra; lra).
      assert (Irp : 0 < / rd) by (apply Rinv_0_lt_compat; lra).
      replace (sqrt 2 * rd / rd ^ 2 * (y / 1) / 1 * 1) with (sqrt 2 * y * / rd) by (field; lra).
      replace (y2 / 2 * rd / rd ^ 2) with (y2 / 2 * / rd) by (field; lra).
      assert (sqrt 2 * y <= 1415 / 1000 * (11565 / 10000)) by (apply Rmult_le_compat; lra).
      assert (sqrt 2 * y * / rd <= 1415 / 1000 * (11565 / 10000) * (601 / 1000)) by (apply Rmult_le_compat; nra).
      assert (y2 / 2 * / rd <= 67 / 100 * (601 / 1000)) by (apply Rmult_le_compat; lra). lra.
Qed.
