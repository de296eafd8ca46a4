(** * ZeroExamples: a library and runs behind the examples of C95 *)
From Coq Require Import ZArith Reals Lra Lia Bool List.
From Flocq Require Import Core IEEE754.BinarySingleNaN.
From Verif Require Import Num NumB32 NumB64 LibmRef LibmRef64 KepEqu StateTrans PropKepler.
Import ListNotations.

Lemma ref64_at_zero : (forall s, d_sin ref_libm64 (B754_zero s) = B754_zero s) /\ (forall s, d_cos ref_libm64 (B754_zero s) = b64_Z 1) /\
  (forall s, d_sinh ref_libm64 (B754_zero s) = B754_zero s) /\ (forall s, d_cosh ref_libm64 (B754_zero s) = b64_Z 1).
Proof. repeat split; intro s; apply B2SF_inj; destruct s; vm_compute; reflexivity. Qed.
Lemma ref32_at_zero : (forall s, m_sin ref_libm (B754_zero s) = B754_zero s) /\ (forall s, m_cos ref_libm (B754_zero s) = b32_Z 1) /\
  (forall s, m_sinh ref_libm (B754_zero s) = B754_zero s) /\ (forall s, m_cosh ref_libm (B754_zero s) = b32_Z 1).
Proof. repeat split; intro s; apply B2SF_inj; destruct s; vm_compute; reflexivity. Qed.

Definition sf3 {p e : Z} (a : V3 (binary_float p e)) := [B2SF (c0 a); B2SF (c1 a); B2SF (c2 a)].
Definition zero64_x : V3 b64 := mk3 (b64_Z 7000) (b64_Z (-1200)) (b64_dec 1 3).
Definition zero64_v : V3 b64 := mk3 (b64_dec 1 10) (b64_dec 15 2) (b64_Z 1).
Definition zero32_x : V3 b32 := mk3 (b32_Z 7000) (b32_Z (-1200)) (b32_dec 1 3).
Definition zero32_v : V3 b32 := mk3 (b32_dec 1 10) (b32_dec 15 2) (b32_Z 1).
(** the rows at times 0, 60 and -0 *)
Lemma zero64_ex : match @kepler _ (Num_B64 ref_libm64) [b64_Z 0; b64_Z 60; Bopp (b64_Z 0)] zero64_x zero64_v (b64_Z 398600) with
  | [a; b; c] => sf3 (fst a) = sf3 zero64_x /\ sf3 (snd a) = sf3 zero64_v /\ sf3 (fst c) = sf3 zero64_x /\ sf3 (snd c) = sf3 zero64_v /\ sf3 (fst b) <> sf3 zero64_x
  | _ => False end.
Proof. vm_compute. repeat split; discriminate. Qed.
Lemma zero32_ex : match @kepler _ (Num_B32 ref_libm) [b32_Z 0; b32_Z 60; Bopp (b32_Z 0)] zero32_x zero32_v (b32_Z 398600) with
  | [a; b; c] => sf3 (fst a) = sf3 zero32_x /\ sf3 (snd a) = sf3 zero32_v /\ sf3 (fst c) = sf3 zero32_x /\ sf3 (snd c) = sf3 zero32_v /\ sf3 (fst b) <> sf3 zero32_x
  | _ => False end.
Proof. vm_compute. repeat split; discriminate. Qed.
(** the transition matrix of that state over no time; [sfm] lists the entries *)
Definition sfm {p e : Z} (A : M3 (binary_float p e)) := map B2SF (map Babs [c0 (c0 A); c1 (c0 A); c2 (c0 A); c0 (c1 A); c1 (c1 A); c2 (c1 A); c0 (c2 A); c1 (c2 A); c2 (c2 A)]).
Lemma zero64_stm : let M := @dxdx0 _ (Num_B64 ref_libm64) zero64_x zero64_v zero64_x zero64_v (b64_Z 0) (b64_Z 398600) in
  sfm (b_rr M) = sfm (@eye3 _ (Num_B64 ref_libm64)) /\ sfm (b_rv M) = repeat (B2SF (b64_Z 0)) 9 /\ sfm (b_vr M) = repeat (B2SF (b64_Z 0)) 9 /\ sfm (b_vv M) = sfm (@eye3 _ (Num_B64 ref_libm64)).
Proof. vm_compute. repeat split. Qed.
Lemma zero32_stm : let M := @dxdx0 _ (Num_B32 ref_libm) zero32_x zero32_v zero32_x zero32_v (b32_Z 0) (b32_Z 398600) in
  sfm (b_rr M) = sfm (@eye3 _ (Num_B32 ref_libm)) /\ sfm (b_rv M) = repeat (B2SF (b32_Z 0)) 9 /\ sfm (b_vr M) = repeat (B2SF (b32_Z 0)) 9 /\ sfm (b_vv M) = sfm (@eye3 _ (Num_B32 ref_libm)).
Proof. vm_compute. repeat split. Qed.
