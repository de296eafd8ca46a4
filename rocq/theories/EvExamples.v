(** * EvExamples: concrete cases for C93 *)
From Coq Require Import ZArith Reals Lra Lia Psatz Bool List String.
From Flocq Require Import Core IEEE754.BinarySingleNaN.
From Verif Require Import Num NumB32 NumB64 Spec SpecGrav SpecFl SpecFl32 SpecFl64 SpecFlV SpecFlStm RelLib RotMat Gravity GeoExamples Fine32 Fine64.
From Verif Require B32Ev B64Ev.
Import ListNotations.
Local Open Scope R_scope.

Lemma event64_ex (L : libm64) : exists d, @radius_islow _ (Num_B64 L) (b64_Z 0) [b64_Z 3; b64_Z 0; b64_Z 4; b64_Z 1] [("rmin"%string, b64_Z 6)] = Ok d /\
  off64 6 11 d (-1) /\ B2R d < 0.
Proof.
  destruct (int64 3 ltac:(lia)) as [F3 V3]. destruct (int64 0 ltac:(lia)) as [F0 V0]. destruct (int64 4 ltac:(lia)) as [F4 V4]. destruct (int64 6 ltac:(lia)) as [F6 V6].
  assert (Q : vnorm (real64 (mk3 (b64_Z 3) (b64_Z 0) (b64_Z 4))) = 5).
  { unfold vnorm, dot, real64; cbn [c0 c1 c2]. rewrite V3, V0, V4. replace (3 * 3 + 0 * 0 + 4 * 4) with (5 * 5) by ring. apply sqrt_square. lra. }
  assert (I : forall x, 1 <= x <= 8 -> in_range 100 x).
  { intros x H. apply (range_mono 3); [lia |]. right. rewrite Rabs_pos_eq by lra. simpl. lra. }
  destruct (B64Ev.event_ok L (b64_Z 0) (mk3 (b64_Z 3) (b64_Z 0) (b64_Z 4)) [b64_Z 1] [("rmin"%string, b64_Z 6)] (b64_Z 6)) as [d [E [O [Ng _]]]].
  - split; [cbn [c0 c1 c2]; auto | rewrite Q; apply I; lra].
  - split; [exact F6 | rewrite V6; apply I; lra].
  - reflexivity.
  - rewrite Q, V6 in O, Ng. exists d. split; [exact E |]. split; [| apply Ng; simpl; lra].
    replace 11 with (5 + Rabs 6) by (rewrite Rabs_pos_eq; lra). replace (-1) with (5 - 6) by ring. exact O.
Qed.
Lemma rot64_ex : exists L : libm64,
  off64m 6 1 (@rotmat3dz _ (Num_B64 L) (b64_Z 1)) (mk3 (mk3 (cos 1) (- sin 1) 0) (mk3 (sin 1) (cos 1) 0) (mk3 0 0 1)).
Proof.
  exists fine_libm64. destruct (int64 1 ltac:(lia)) as [F1 V1].
  pose proof (B64Ev.rot_ok fine_libm64 6 1 1 (fine64_ok 1 1 ltac:(lra)) (b64_Z 1) F1) as H. rewrite V1 in H.
  replace (INR 6) with 6 in H by (simpl; lra). apply H. rewrite Rabs_R1. lra.
Qed.

Lemma event32_ex (L : libm) : exists d, @radius_islow _ (Num_B32 L) (b32_Z 0) [b32_Z 3; b32_Z 0; b32_Z 4; b32_Z 1] [("rmin"%string, b32_Z 6)] = Ok d /\
  off 6 11 d (-1) /\ B2R d < 0.
Proof.
  destruct (int32 3 ltac:(lia)) as [F3 V3]. destruct (int32 0 ltac:(lia)) as [F0 V0]. destruct (int32 4 ltac:(lia)) as [F4 V4]. destruct (int32 6 ltac:(lia)) as [F6 V6].
  assert (Q : vnorm (real32 (mk3 (b32_Z 3) (b32_Z 0) (b32_Z 4))) = 5).
  { unfold vnorm, dot, real32; cbn [c0 c1 c2]. rewrite V3, V0, V4. replace (3 * 3 + 0 * 0 + 4 * 4) with (5 * 5) by ring. apply sqrt_square. lra. }
  assert (I : forall x, 1 <= x <= 8 -> in_range 17 x).
  { intros x H. apply (range_mono 3); [lia |]. right. rewrite Rabs_pos_eq by lra. simpl. lra. }
  destruct (B32Ev.event_ok L (b32_Z 0) (mk3 (b32_Z 3) (b32_Z 0) (b32_Z 4)) [b32_Z 1] [("rmin"%string, b32_Z 6)] (b32_Z 6)) as [d [E [O [Ng _]]]].
  - split; [cbn [c0 c1 c2]; auto | rewrite Q; apply I; lra].
  - split; [exact F6 | rewrite V6; apply I; lra].
  - reflexivity.
  - rewrite Q, V6 in O, Ng. exists d. split; [exact E |]. split; [| apply Ng; simpl; lra].
    replace 11 with (5 + Rabs 6) by (rewrite Rabs_pos_eq; lra). replace (-1) with (5 - 6) by ring. exact O.
Qed.
Lemma rot32_ex : exists L : libm,
  off32m 6 1 (@rotmat3dz _ (Num_B32 L) (b32_Z 1)) (mk3 (mk3 (cos 1) (- sin 1) 0) (mk3 (sin 1) (cos 1) 0) (mk3 0 0 1)).
Proof.
  exists fine_libm32. destruct (int32 1 ltac:(lia)) as [F1 V1].
  pose proof (B32Ev.rot_ok fine_libm32 6 1 1 (fine32_ok 1 1 ltac:(lra)) (b32_Z 1) F1) as H. rewrite V1 in H.
  replace (INR 6) with 6 in H by (simpl; lra). apply H. rewrite Rabs_R1. lra.
Qed.
