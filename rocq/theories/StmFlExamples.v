(** * StmFlExamples: concrete cases for C90 and C91 *)
From Coq Require Import ZArith Reals Lra Lia Psatz Bool List.
From Coquelicot Require Import Coquelicot.
From Flocq Require Import Core IEEE754.BinarySingleNaN.
From Verif Require Import Num NumB32 NumB64 NumR Spec SpecFl SpecFl32 SpecFl64 SpecFlV SpecFlStm RelLib RoundAn RoundFn Fine32 Fine64 GeoExamples UviExamples StmReal.
From Verif Require Import OrbIntegrals Uniformulas UfReal Lagrange KepEqu StateTrans.
From Verif Require B64Stm B64Dx B32Stm B32Dx.
Local Open Scope R_scope.

(** half a turn of the unit circle with mu = 1, and C = -10 *)
Lemma stm64_ex (L : libm64) :
  off64m 19 17 (@prpr0 _ (Num_B64 L) (mk3 (b64_Z (-1)) (b64_Z 0) (b64_Z 0)) (mk3 (b64_Z 0) (b64_Z (-1)) (b64_Z 0))
      (mk3 (b64_Z 1) (b64_Z 0) (b64_Z 0)) (mk3 (b64_Z 0) (b64_Z 1) (b64_Z 0)) (b64_Z (-1)) (b64_Z (-10)) (b64_Z 1))
    (mk3 (mk3 (-3) 0 0) (mk3 10 3 0) (mk3 0 0 (-1))).
Proof.
  destruct (int64 1 ltac:(lia)) as [F1 V1]. destruct (int64 0 ltac:(lia)) as [F0 V0]. destruct (int64 (-1) ltac:(lia)) as [Fm Vm]. destruct (int64 (-10) ltac:(lia)) as [Fc Vc].
  assert (Nm : forall a b c d, 0 <= d -> a * a + b * b + c * c = d * d -> vnorm (mk3 a b c) = d).
  { intros a b c d Hd E. unfold vnorm, dot; cbn [c0 c1 c2]. rewrite E. apply sqrt_square. exact Hd. }
  set (r := mk3 (b64_Z (-1)) (b64_Z 0) (b64_Z 0)). set (v := mk3 (b64_Z 0) (b64_Z (-1)) (b64_Z 0)).
  set (r0 := mk3 (b64_Z 1) (b64_Z 0) (b64_Z 0)). set (v0 := mk3 (b64_Z 0) (b64_Z 1) (b64_Z 0)).
  assert (Rr : real64 r = mk3 (-1) 0 0) by (unfold real64, r; cbn [c0 c1 c2]; rewrite Vm, V0; reflexivity).
  assert (Rv : real64 v = mk3 0 (-1) 0) by (unfold real64, v; cbn [c0 c1 c2]; rewrite Vm, V0; reflexivity).
  assert (Rr0 : real64 r0 = mk3 1 0 0) by (unfold real64, r0; cbn [c0 c1 c2]; rewrite V1, V0; reflexivity).
  assert (Rv0 : real64 v0 = mk3 0 1 0) by (unfold real64, v0; cbn [c0 c1 c2]; rewrite V1, V0; reflexivity).
  assert (N1 : vnorm (mk3 (-1) 0 0) = 1) by (apply Nm; lra). assert (N2 : vnorm (mk3 0 (-1) 0) = 1) by (apply Nm; lra).
  assert (N3 : vnorm (mk3 1 0 0) = 1) by (apply Nm; lra). assert (N4 : vnorm (mk3 0 1 0) = 1) by (apply Nm; lra).
  assert (I1 : forall e, (0 <= e)%Z -> in_range e 1) by (intros e E; apply (range_mono 0); [lia | right; rewrite Rabs_R1; simpl; lra]).
  assert (G1 : good64v 60 r) by (split; [cbn [c0 c1 c2 r]; auto | rewrite Rr, N1; apply I1; lia]).
  assert (G2 : good64v 60 v) by (split; [cbn [c0 c1 c2 v]; auto | rewrite Rv, N2; apply I1; lia]).
  assert (G3 : good64v 60 r0) by (split; [cbn [c0 c1 c2 r0]; auto | rewrite Rr0, N3; apply I1; lia]).
  assert (G4 : good64v 60 v0) by (split; [cbn [c0 c1 c2 v0]; auto | rewrite Rv0, N4; apply I1; lia]).
  assert (Nr : real64 r <> vzero) by (rewrite Rr; intro E; apply (f_equal c0) in E; cbn [c0 vzero] in E; lra).
  assert (Nr0 : real64 r0 <> vzero) by (rewrite Rr0; intro E; apply (f_equal c0) in E; cbn [c0 vzero] in E; lra).
  assert (Gz : forall e z, (Z.abs z <= 10)%Z -> (4 <= e)%Z -> good64 e (b64_Z z)).
  { intros e z H1 H2. apply good64_Z; [lia | | lia]. apply Z.le_trans with (2 ^ 4)%Z; [lia | apply Z.pow_le_mono_r; lia]. }
  destruct (B64Stm.blocks_ok L r v r0 v0 (b64_Z (-1)) (b64_Z 0) (b64_Z 0) (b64_Z (-1)) (b64_Z (-10)) (b64_Z 1) G1 G2 G3 G4) as [A _];
    try (apply Gz; lia); try assumption; [rewrite V1; lra |].
  rewrite Rr, Rv, Rr0, Rv0, N1, N2, N3, N4, V1, Vm, Vc in A.
  replace (stm_rr_size 1 1 1 1 1 (Rabs (-1)) (Rabs (-10))) with 17 in A by (unfold stm_rr_size; rewrite !Rabs_left by lra; lra).
  replace (mk3 (mk3 (-3) 0 0) (mk3 10 3 0) (mk3 0 0 (-1))) with (stm_rr 1 (mk3 (-1) 0 0) (mk3 0 (-1) 0) (mk3 1 0 0) (mk3 0 1 0) (-1) (-10)); [exact A |].
  unfold stm_rr. rewrite N1, N3. repeat apply mk3_eq; lazy beta iota zeta delta [mplus mtimes tensor ident vplus smul vminus c0 c1 c2]; field.
Qed.

(** a quarter turn of the unit circle, one time unit on: the out-of-plane entry is the cosine of the anomaly *)
Lemma dx64_ex (L : libm64) : trig64 L 6 (2 * IZR (2 ^ 30)) (2 * 100) ->
  off64 46 32 (c2 (c2 (b_rr (@dxdx0 _ (Num_B64 L) (mk3 (b64_Z 0) (b64_Z 1) (b64_Z 0)) (mk3 (b64_Z (-1)) (b64_Z 0) (b64_Z 0))
      (mk3 (b64_Z 1) (b64_Z 0) (b64_Z 0)) (mk3 (b64_Z 0) (b64_Z 1) (b64_Z 0)) (b64_Z 1) (b64_Z 1))))) (cos 1).
Proof.
  intro TL. destruct (int64 1 ltac:(lia)) as [F1 V1]. destruct (int64 0 ltac:(lia)) as [F0 V0]. destruct (int64 (-1) ltac:(lia)) as [Fm Vm].
  assert (Nm : forall a b c d, 0 <= d -> a * a + b * b + c * c = d * d -> vnorm (mk3 a b c) = d).
  { intros a b c d Hd E. unfold vnorm, dot; cbn [c0 c1 c2]. rewrite E. apply sqrt_square. exact Hd. }
  set (r := mk3 (b64_Z 0) (b64_Z 1) (b64_Z 0)). set (v := mk3 (b64_Z (-1)) (b64_Z 0) (b64_Z 0)).
  set (r0 := mk3 (b64_Z 1) (b64_Z 0) (b64_Z 0)).
  assert (Rr : real64 r = mk3 0 1 0) by (unfold real64, r; cbn [c0 c1 c2]; rewrite V1, V0; reflexivity).
  assert (Rv : real64 v = mk3 (-1) 0 0) by (unfold real64, v; cbn [c0 c1 c2]; rewrite Vm, V0; reflexivity).
  assert (Rr0 : real64 r0 = mk3 1 0 0) by (unfold real64, r0; cbn [c0 c1 c2]; rewrite V1, V0; reflexivity).
  assert (N1 : vnorm (mk3 0 1 0) = 1) by (apply Nm; lra). assert (N2 : vnorm (mk3 (-1) 0 0) = 1) by (apply Nm; lra).
  assert (N3 : vnorm (mk3 1 0 0) = 1) by (apply Nm; lra).
  assert (I1 : forall e, (0 <= e)%Z -> in_range e 1) by (intros e E; apply (range_mono 0); [lia | right; rewrite Rabs_R1; simpl; lra]).
  assert (G1 : good64v 60 r) by (split; [cbn [c0 c1 c2 r]; auto | rewrite Rr, N1; apply I1; lia]).
  assert (G1' : good64v 60 r) by (split; [cbn [c0 c1 c2 r]; auto | rewrite Rr, N1; apply I1; lia]).
  assert (G2 : good64v 60 v) by (split; [cbn [c0 c1 c2 v]; auto | rewrite Rv, N2; apply I1; lia]).
  assert (G3 : good64v 60 r0) by (split; [cbn [c0 c1 c2 r0]; auto | rewrite Rr0, N3; apply I1; lia]).
  assert (Nr : real64 r <> vzero) by (rewrite Rr; intro E; apply (f_equal c1) in E; cbn [c1 vzero] in E; lra).
  assert (Nr0 : real64 r0 <> vzero) by (rewrite Rr0; intro E; apply (f_equal c0) in E; cbn [c0 vzero] in E; lra).
  assert (Gz : forall e, (4 <= e)%Z -> good64 e (b64_Z 1)).
  { intros e H2. apply good64_Z; [lia | | lia]. apply Z.le_trans with (2 ^ 4)%Z; [lia | apply Z.pow_le_mono_r; lia]. }
  pose (N := Num_B64 L).
  assert (Ea : @alpha_of _ N (@vector_norm _ N r0) (@vector_norm _ N r) (b64_Z 1) = b64_Z 1) by (apply B2SF_inj; vm_compute; reflexivity).
  assert (Ex : @generalized_anomaly _ N (b64_Z 1) (@sigma_fn _ N r v (b64_Z 1)) (@sigma_fn _ N r0 r (b64_Z 1)) (b64_Z 1) (b64_Z 1) = b64_Z 1) by (apply B2SF_inj; vm_compute; reflexivity).
  pose proof (B64Dx.transition_ok L 6 ltac:(lia) TL r v r0 r (b64_Z 1) (b64_Z 1) G1 G2 G3 G1' (Gz 60%Z ltac:(lia)) ltac:(rewrite V1; lra) Nr Nr0 (Gz 60%Z ltac:(lia))) as K.
  cbv zeta in K. fold N in K. rewrite Ea in K. rewrite Ex, V1 in K.
  specialize (K (Gz 100%Z ltac:(lia)) (Gz 100%Z ltac:(lia)) ltac:(lra)). rewrite Rr, Rv, Rr0, N1, N2, N3, Rabs_R1, sqrt_1 in K.
  specialize (K ltac:(intros _; simpl; lra) ltac:(lra)).
  assert (Sp : spread 1 1 = 2).
  { unfold spread. rewrite Rabs_R1, sqrt_1. destruct (Rlt_dec 1 0) as [H | _]; [lra | lra]. }
  assert (U1 : uf_size 1 1 1 = 4 /\ uf_size 2 1 1 = 4).
  { unfold uf_size. rewrite Sp, Rabs_R1, sqrt_1. destruct (Req_EM_T 1 0) as [H | _]; [lra | split; simpl; lra]. }
  assert (U4 : uf4_size 1 1 = 7 / 2) by (unfold uf4_size; cbv zeta; rewrite Sp, Rabs_R1, sqrt_1; lra).
  assert (U5 : uf5_size 1 1 = 19 / 6) by (unfold uf5_size; cbv zeta; rewrite Sp, Rabs_R1, sqrt_1; lra).
  assert (UC : c_size 1 1 1 1 = 17) by (unfold c_size; rewrite U4, U5, Rabs_R1, sqrt_1, (proj2 U1); lra).
  rewrite UC, (proj1 U1), (proj2 U1) in K.
  destruct K as [_ [_ [A _]]].
  destruct A as [_ [_ [_ [_ A]]]]. fold N.
  replace (stm_rr_size 1 1 1 1 1 (1 + 4 / 1) 17) with 32 in A by (unfold stm_rr_size; lra). replace (INR 6 + 40) with 46 in A by (simpl; lra).
  destruct (uf_pos 1 1 ltac:(lra)) as [_ [_ [E2 _]]].
  match type of A with off64 _ _ _ ?e => replace (cos 1) with e; [exact A |] end.
  unfold stm_rr. rewrite E2, N1, N3, Rabs_R1, sqrt_1. lazy beta iota zeta delta [mplus mtimes tensor ident vplus smul vminus c0 c1 c2]. rewrite ?Rmult_1_l. field.
Qed.

(** half a turn of the unit circle with mu = 1, and C = -10 *)
Lemma stm32_ex (L : libm) :
  off32m 19 17 (@prpr0 _ (Num_B32 L) (mk3 (b32_Z (-1)) (b32_Z 0) (b32_Z 0)) (mk3 (b32_Z 0) (b32_Z (-1)) (b32_Z 0))
      (mk3 (b32_Z 1) (b32_Z 0) (b32_Z 0)) (mk3 (b32_Z 0) (b32_Z 1) (b32_Z 0)) (b32_Z (-1)) (b32_Z (-10)) (b32_Z 1))
    (mk3 (mk3 (-3) 0 0) (mk3 10 3 0) (mk3 0 0 (-1))).
Proof.
  destruct (int32 1 ltac:(lia)) as [F1 V1]. destruct (int32 0 ltac:(lia)) as [F0 V0]. destruct (int32 (-1) ltac:(lia)) as [Fm Vm]. destruct (int32 (-10) ltac:(lia)) as [Fc Vc].
  assert (Nm : forall a b c d, 0 <= d -> a * a + b * b + c * c = d * d -> vnorm (mk3 a b c) = d).
  { intros a b c d Hd E. unfold vnorm, dot; cbn [c0 c1 c2]. rewrite E. apply sqrt_square. exact Hd. }
  set (r := mk3 (b32_Z (-1)) (b32_Z 0) (b32_Z 0)). set (v := mk3 (b32_Z 0) (b32_Z (-1)) (b32_Z 0)).
  set (r0 := mk3 (b32_Z 1) (b32_Z 0) (b32_Z 0)). set (v0 := mk3 (b32_Z 0) (b32_Z 1) (b32_Z 0)).
  assert (Rr : real32 r = mk3 (-1) 0 0) by (unfold real32, r; cbn [c0 c1 c2]; rewrite Vm, V0; reflexivity).
  assert (Rv : real32 v = mk3 0 (-1) 0) by (unfold real32, v; cbn [c0 c1 c2]; rewrite Vm, V0; reflexivity).
  assert (Rr0 : real32 r0 = mk3 1 0 0) by (unfold real32, r0; cbn [c0 c1 c2]; rewrite V1, V0; reflexivity).
  assert (Rv0 : real32 v0 = mk3 0 1 0) by (unfold real32, v0; cbn [c0 c1 c2]; rewrite V1, V0; reflexivity).
  assert (N1 : vnorm (mk3 (-1) 0 0) = 1) by (apply Nm; lra). assert (N2 : vnorm (mk3 0 (-1) 0) = 1) by (apply Nm; lra).
  assert (N3 : vnorm (mk3 1 0 0) = 1) by (apply Nm; lra). assert (N4 : vnorm (mk3 0 1 0) = 1) by (apply Nm; lra).
  assert (I1 : forall e, (0 <= e)%Z -> in_range e 1) by (intros e E; apply (range_mono 0); [lia | right; rewrite Rabs_R1; simpl; lra]).
  assert (G1 : good32v 17 r) by (split; [cbn [c0 c1 c2 r]; auto | rewrite Rr, N1; apply I1; lia]).
  assert (G2 : good32v 8 v) by (split; [cbn [c0 c1 c2 v]; auto | rewrite Rv, N2; apply I1; lia]).
  assert (G3 : good32v 17 r0) by (split; [cbn [c0 c1 c2 r0]; auto | rewrite Rr0, N3; apply I1; lia]).
  assert (G4 : good32v 8 v0) by (split; [cbn [c0 c1 c2 v0]; auto | rewrite Rv0, N4; apply I1; lia]).
  assert (Nr : real32 r <> vzero) by (rewrite Rr; intro E; apply (f_equal c0) in E; cbn [c0 vzero] in E; lra).
  assert (Nr0 : real32 r0 <> vzero) by (rewrite Rr0; intro E; apply (f_equal c0) in E; cbn [c0 vzero] in E; lra).
  assert (Gz : forall e z, (Z.abs z <= 10)%Z -> (4 <= e)%Z -> good32 e (b32_Z z)).
  { intros e z H1 H2. apply good32_Z; [lia | | lia]. apply Z.le_trans with (2 ^ 4)%Z; [lia | apply Z.pow_le_mono_r; lia]. }
  destruct (B32Stm.blocks_ok L r v r0 v0 (b32_Z (-1)) (b32_Z 0) (b32_Z 0) (b32_Z (-1)) (b32_Z (-10)) (b32_Z 1) G1 G2 G3 G4) as [A _];
    try (apply Gz; lia); try assumption; [rewrite V1; lra | rewrite Rr, N1, V1; replace (1 / 1 ^ 2) with 1 by field; apply I1; lia |].
  rewrite Rr, Rv, Rr0, Rv0, N1, N2, N3, N4, V1, Vm, Vc in A.
  replace (stm_rr_size 1 1 1 1 1 (Rabs (-1)) (Rabs (-10))) with 17 in A by (unfold stm_rr_size; rewrite !Rabs_left by lra; lra).
  replace (mk3 (mk3 (-3) 0 0) (mk3 10 3 0) (mk3 0 0 (-1))) with (stm_rr 1 (mk3 (-1) 0 0) (mk3 0 (-1) 0) (mk3 1 0 0) (mk3 0 1 0) (-1) (-10)); [exact A |].
  unfold stm_rr. rewrite N1, N3. repeat apply mk3_eq; lazy beta iota zeta delta [mplus mtimes tensor ident vplus smul vminus c0 c1 c2]; field.
Qed.

(** a quarter turn of the unit circle, one time unit on: the out-of-plane entry is the cosine of the anomaly *)
Lemma dx32_ex (L : libm) : trig32 L 6 (2 * IZR (2 ^ 10)) (2 * 10) ->
  off 46 32 (c2 (c2 (b_rr (@dxdx0 _ (Num_B32 L) (mk3 (b32_Z 0) (b32_Z 1) (b32_Z 0)) (mk3 (b32_Z (-1)) (b32_Z 0) (b32_Z 0))
      (mk3 (b32_Z 1) (b32_Z 0) (b32_Z 0)) (mk3 (b32_Z 0) (b32_Z 1) (b32_Z 0)) (b32_Z 1) (b32_Z 1))))) (cos 1).
Proof.
  intro TL. destruct (int32 1 ltac:(lia)) as [F1 V1]. destruct (int32 0 ltac:(lia)) as [F0 V0]. destruct (int32 (-1) ltac:(lia)) as [Fm Vm].
  assert (Nm : forall a b c d, 0 <= d -> a * a + b * b + c * c = d * d -> vnorm (mk3 a b c) = d).
  { intros a b c d Hd E. unfold vnorm, dot; cbn [c0 c1 c2]. rewrite E. apply sqrt_square. exact Hd. }
  set (r := mk3 (b32_Z 0) (b32_Z 1) (b32_Z 0)). set (v := mk3 (b32_Z (-1)) (b32_Z 0) (b32_Z 0)).
  set (r0 := mk3 (b32_Z 1) (b32_Z 0) (b32_Z 0)).
  assert (Rr : real32 r = mk3 0 1 0) by (unfold real32, r; cbn [c0 c1 c2]; rewrite V1, V0; reflexivity).
  assert (Rv : real32 v = mk3 (-1) 0 0) by (unfold real32, v; cbn [c0 c1 c2]; rewrite Vm, V0; reflexivity).
  assert (Rr0 : real32 r0 = mk3 1 0 0) by (unfold real32, r0; cbn [c0 c1 c2]; rewrite V1, V0; reflexivity).
  assert (N1 : vnorm (mk3 0 1 0) = 1) by (apply Nm; lra). assert (N2 : vnorm (mk3 (-1) 0 0) = 1) by (apply Nm; lra).
  assert (N3 : vnorm (mk3 1 0 0) = 1) by (apply Nm; lra).
  assert (I1 : forall e, (0 <= e)%Z -> in_range e 1) by (intros e E; apply (range_mono 0); [lia | right; rewrite Rabs_R1; simpl; lra]).
  assert (G1 : good32v 17 r) by (split; [cbn [c0 c1 c2 r]; auto | rewrite Rr, N1; apply I1; lia]).
  assert (G1' : good32v 8 r) by (split; [cbn [c0 c1 c2 r]; auto | rewrite Rr, N1; apply I1; lia]).
  assert (G2 : good32v 8 v) by (split; [cbn [c0 c1 c2 v]; auto | rewrite Rv, N2; apply I1; lia]).
  assert (G3 : good32v 17 r0) by (split; [cbn [c0 c1 c2 r0]; auto | rewrite Rr0, N3; apply I1; lia]).
  assert (Nr : real32 r <> vzero) by (rewrite Rr; intro E; apply (f_equal c1) in E; cbn [c1 vzero] in E; lra).
  assert (Nr0 : real32 r0 <> vzero) by (rewrite Rr0; intro E; apply (f_equal c0) in E; cbn [c0 vzero] in E; lra).
  assert (Gz : forall e, (4 <= e)%Z -> good32 e (b32_Z 1)).
  { intros e H2. apply good32_Z; [lia | | lia]. apply Z.le_trans with (2 ^ 4)%Z; [lia | apply Z.pow_le_mono_r; lia]. }
  pose (N := Num_B32 L).
  assert (Ea : @alpha_of _ N (@vector_norm _ N r0) (@vector_norm _ N r) (b32_Z 1) = b32_Z 1) by (apply B2SF_inj; vm_compute; reflexivity).
  assert (Ex : @generalized_anomaly _ N (b32_Z 1) (@sigma_fn _ N r v (b32_Z 1)) (@sigma_fn _ N r0 r (b32_Z 1)) (b32_Z 1) (b32_Z 1) = b32_Z 1) by (apply B2SF_inj; vm_compute; reflexivity).
  pose proof (B32Dx.transition_ok L 6 ltac:(lia) TL r v r0 r (b32_Z 1) (b32_Z 1) G1 G2 G3 G1' (Gz 20%Z ltac:(lia)) ltac:(rewrite V1; lra) Nr Nr0 (Gz 17%Z ltac:(lia))) as K.
  cbv zeta in K. fold N in K. rewrite Ea in K. rewrite Ex, V1 in K.
  specialize (K (Gz 17%Z ltac:(lia)) (Gz 12%Z ltac:(lia)) ltac:(lra)). rewrite Rr, Rv, Rr0, N1, N2, N3, Rabs_R1, sqrt_1 in K.
  specialize (K ltac:(intros _; simpl; lra) ltac:(lra)).
  assert (Sp : spread 1 1 = 2).
  { unfold spread. rewrite Rabs_R1, sqrt_1. destruct (Rlt_dec 1 0) as [H | _]; [lra | lra]. }
  assert (U1 : uf_size 1 1 1 = 4 /\ uf_size 2 1 1 = 4).
  { unfold uf_size. rewrite Sp, Rabs_R1, sqrt_1. destruct (Req_EM_T 1 0) as [H | _]; [lra | split; simpl; lra]. }
  assert (U4 : uf4_size 1 1 = 7 / 2) by (unfold uf4_size; cbv zeta; rewrite Sp, Rabs_R1, sqrt_1; lra).
  assert (U5 : uf5_size 1 1 = 19 / 6) by (unfold uf5_size; cbv zeta; rewrite Sp, Rabs_R1, sqrt_1; lra).
  assert (UC : c_size 1 1 1 1 = 17) by (unfold c_size; rewrite U4, U5, Rabs_R1, sqrt_1, (proj2 U1); lra).
  rewrite UC, (proj1 U1), (proj2 U1) in K.
  destruct K as [_ [_ [A _]]]; try (apply range_between; [simpl; lra | lia]).
  destruct A as [_ [_ [_ [_ A]]]]. fold N.
  replace (stm_rr_size 1 1 1 1 1 (1 + 4 / 1) 17) with 32 in A by (unfold stm_rr_size; lra). replace (INR 6 + 40) with 46 in A by (simpl; lra).
  destruct (uf_pos 1 1 ltac:(lra)) as [_ [_ [E2 _]]].
  match type of A with off _ _ _ ?e => replace (cos 1) with e; [exact A |] end.
  unfold stm_rr. rewrite E2, N1, N3, Rabs_R1, sqrt_1. lazy beta iota zeta delta [mplus mtimes tensor ident vplus smul vminus c0 c1 c2]. rewrite ?Rmult_1_l. field.
Qed.
